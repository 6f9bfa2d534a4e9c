(** The recursion of the non-uniform B-splines in binary64: the errors of one turn of the inner loop. *)
From Coq Require Import Bool Reals Lia Lra Psatz ZifyBool Floats.SpecFloat.
From Flocq Require Import Core Relative Plus_error.
From Verif Require Import FloatLink FloatCell2 FloatCell3 FloatBasis.
Local Open Scope R_scope.

#[local] Instance p53'' : Prec_gt_0 53 := eq_refl.
(** Sums and differences of numbers have a relative error, even when they are small. *)
Lemma rnd_sum x y : F x -> F y -> exists e, Rabs e <= U /\ rnd (x + y) = (x + y) * (1 + e).
Proof.
  intros Hx Hy. destruct (FLT_plus_error_N_ex radix2 (-1074) 53 (fun z => negb (Z.even z)) x y Hx Hy) as (e & H1 & H2).
  exists e. split; [|exact H2]. eapply Rle_trans; [exact H1|]. eapply Rle_trans; [apply u_rod1pu_ro_le_u_ro|].
  unfold u_ro. change (- (53) + 1)%Z with (-52)%Z. replace (bpow radix2 (-52)) with (/ IZR (2 ^ 52)) by (symmetry; exact (bpowN 52 ltac:(lia))). rewrite half52. lra.
Qed.
Lemma F_opp x : F x -> F (- x).
Proof. apply generic_format_opp. Qed.
Lemma rnd_dif x y : F x -> F y -> exists e, Rabs e <= U /\ rnd (x - y) = (x - y) * (1 + e).
Proof. intros Hx Hy. exact (rnd_sum x (- y) Hx (F_opp y Hy)). Qed.
Lemma rnd_split x : exists e t, Rabs e <= U /\ Rabs t <= E /\ rnd x = x * (1 + e) + t.
Proof.
  destruct (error_N_FLT radix2 (-1074) 53 ltac:(reflexivity) (fun z => negb (Z.even z)) x) as (e & t & H1 & H2 & _ & EQ). exists e, t. split; [|split; [|exact EQ]].
  - rewrite <- half52. change (- (53) + 1)%Z with (-52)%Z in H1. rewrite <- (bpowN 52) by lia. exact H1.
  - eapply Rle_trans; [exact H2|]. unfold E. replace (-1075)%Z with (-1074 - 1)%Z by lia. rewrite bpow_shift by lia. change (2 ^ 1)%Z with 2%Z. lra.
Qed.

Lemma U_tiny : 0 < U <= / 1000000.
Proof. split; [exact U_pos|]. eapply Rle_trans; [exact U_small|]. apply Rinv_le_contravar; [lra | apply IZR_le; lia]. Qed.
(** Products and inverses of numbers close to one. *)
Definition near (k p : R) : Prop := Rabs (p - 1) <= k * U.
Lemma near_one e : Rabs e <= U -> near 1 (1 + e).
Proof. intros H. unfold near. replace (1 + e - 1) with e by ring. lra. Qed.
Lemma near_mul a b p q : 0 <= a <= 10 -> 0 <= b <= 10 -> near a p -> near b q -> near (a + b + / 100) (p * q).
Proof.
  unfold near. intros Ha Hb Hp Hq. pose proof U_tiny as HU. replace (p * q - 1) with ((p - 1) * (q - 1) + (p - 1) + (q - 1)) by ring.
  assert (G : Rabs ((p - 1) * (q - 1)) <= (a * U) * (b * U)) by now apply prod_abs.
  assert (a * U * (b * U) <= / 100 * U).
  { replace (a * U * (b * U)) with ((a * b * U) * U) by ring. apply Rmult_le_compat_r; [lra|]. assert (a * b <= 100) by nra. assert (a * b * U <= 100 * U) by (apply Rmult_le_compat_r; lra). lra. }
  eapply Rle_trans; [apply Rabs_triang|]. eapply Rle_trans; [apply Rplus_le_compat_r, Rabs_triang|]. lra.
Qed.
Lemma near_pos k p : 0 <= k <= 10 -> near k p -> 99 / 100 <= p <= 101 / 100.
Proof. unfold near. intros Hk Hp. pose proof U_tiny as HU. apply Rabs_le_inv in Hp. assert (k * U <= 10 * U) by (apply Rmult_le_compat_r; lra). lra. Qed.
Lemma near_inv k p : 0 <= k <= 10 -> near k p -> near (k + / 100) (/ p).
Proof.
  intros Hk Hp. pose proof (near_pos k p Hk Hp) as B. pose proof U_tiny as HU. unfold near in *.
  replace (/ p - 1) with (- ((p - 1) * / p)) by (field; lra). rewrite Rabs_Ropp, Rabs_mult, (Rabs_pos_eq (/ p)) by (left; apply Rinv_0_lt_compat; lra).
  apply Rmult_le_reg_r with p; [lra|]. rewrite Rmult_assoc, Rinv_l, Rmult_1_r by lra.
  assert (P : 1 - k * U <= p) by (apply Rabs_le_inv in Hp; lra). assert (kU : 0 <= k * U <= 10 * U) by (split; [apply Rmult_le_pos; lra | apply Rmult_le_compat_r; lra]).
  eapply Rle_trans; [exact Hp|]. apply Rle_trans with ((k + / 100) * U * (1 - k * U)); [|apply Rmult_le_compat_l; [apply Rmult_le_pos; lra | exact P]].
  replace ((k + / 100) * U * (1 - k * U)) with (k * U + / 100 * U - (k + / 100) * (k * U) * U) by ring.
  assert ((k + / 100) * (k * U) * U <= / 100 * U); [|lra]. apply Rmult_le_compat_r; [lra|]. apply Rle_trans with (11 * (10 * U)); [apply Rmult_le_compat; lra | lra].
Qed.
Lemma near_le a b p : a <= b -> near a p -> near b p.
Proof. unfold near. intros H Hp. pose proof U_tiny. eapply Rle_trans; [exact Hp|]. apply Rmult_le_compat_r; lra. Qed.

(** What underflow may add. *)
Definition T : R := bpow radix2 (-150).
Lemma T_pos : 0 < T.
Proof. apply bpow_gt_0. Qed.
Lemma T_small : T <= U * / IZR (2 ^ 97).
Proof. unfold T, U. rewrite <- Rinv_mult, <- mult_IZR. change (2 ^ 53 * 2 ^ 97)%Z with (2 ^ 150)%Z. rewrite <- (bpowN 150) by lia. right. reflexivity. Qed.
Lemma E_T : bpow radix2 920 * E * 2 + E <= T.
Proof.
  unfold E, T. rewrite <- bpow_plus. change (920 + -1075)%Z with (-155)%Z.
  assert (bpow radix2 (-155) <= bpow radix2 (-152)) by (apply bpow_le; lia). assert (bpow radix2 (-1075) <= bpow radix2 (-152)) by (apply bpow_le; lia).
  pose proof (bpow_gt_0 radix2 (-152)). replace (-150)%Z with (-152 + 2)%Z by lia. rewrite bpow_plus. change (bpow radix2 2) with 4. lra.
Qed.

Section Step.
Context (a b vh v sh s ah bh e1 e2 : R).
Hypotheses (Ha : 0 <= a <= bpow radix2 920) (Hb : 0 <= b <= bpow radix2 920) (Hw : bpow radix2 (-900) <= a + b).
Hypotheses (Fa : F ah) (Fb : F bh) (He1 : Rabs e1 <= U) (He2 : Rabs e2 <= U) (Eah : ah = a * (1 + e1)) (Ebh : bh = b * (1 + e2)).
Hypotheses (Hv : 0 <= vh <= 2) (Hs : 0 <= sh).
Let w := a + b.
Let wh := rnd (ah + bh).
Let th := rnd (vh / wh).
Let ph := rnd (ah * th).
Let qh := rnd (bh * th).
Let nh := rnd (sh + ph).
Lemma st_w : 0 < w.
Proof. unfold w. pose proof (bpow_gt_0 radix2 (-900)). lra. Qed.
Lemma st_ab : 0 <= ah /\ 0 <= bh.
Proof.
  pose proof U_tiny. apply Rabs_le_inv in He1. apply Rabs_le_inv in He2. rewrite Eah, Ebh. split; apply Rmult_le_pos; lra.
Qed.
Lemma st_wh : exists p, near (201 / 100) p /\ wh = w * p.
Proof.
  destruct (rnd_sum ah bh Fa Fb) as (e3 & H3 & EQ). fold wh in EQ. pose proof st_w as W. exists ((a * (1 + e1) + b * (1 + e2)) / w * (1 + e3)). split.
  - apply (near_le (1 + 1 + / 100)); [lra|]. apply near_mul; try lra; [|now apply near_one]. unfold near. rewrite Rmult_1_l.
    replace ((a * (1 + e1) + b * (1 + e2)) / w - 1) with ((a * e1 + b * e2) / w) by (unfold w; field; unfold w in W; lra).
    unfold Rdiv. rewrite Rabs_mult, (Rabs_pos_eq (/ w)) by (left; now apply Rinv_0_lt_compat). apply Rmult_le_reg_r with w; [exact W|].
    rewrite Rmult_assoc, Rinv_l, Rmult_1_r by lra. eapply Rle_trans; [apply Rabs_triang|]. rewrite !Rabs_mult, (Rabs_pos_eq a), (Rabs_pos_eq b) by lra.
    assert (a * Rabs e1 <= a * U) by (apply Rmult_le_compat_l; lra). assert (b * Rabs e2 <= b * U) by (apply Rmult_le_compat_l; lra). unfold w. lra.
  - rewrite EQ, Eah, Ebh. field. lra.
Qed.
Lemma st_wh_pos : bpow radix2 (-901) <= wh /\ wh <= bpow radix2 922.
Proof.
  destruct st_wh as (p & Hp & EQ). apply near_pos in Hp; [|lra]. rewrite EQ. pose proof st_w. pose proof (bpow_gt_0 radix2 (-900)).
  split.
  - replace (-901)%Z with (-900 - 1)%Z by lia. rewrite bpow_shift by lia. change (2 ^ 1)%Z with 2%Z. apply Rmult_le_compat; unfold w in *; lra.
  - replace 922%Z with (920 + 2)%Z by lia. rewrite bpow_plus. change (bpow radix2 2) with 4. apply Rle_trans with (2 * bpow radix2 920 * 2); [|lra]. apply Rmult_le_compat; unfold w in *; lra.
Qed.
Lemma st_th : 0 <= vh / wh <= bpow radix2 902.
Proof.
  destruct st_wh_pos as (P & _). pose proof (bpow_gt_0 radix2 (-901)). split; [apply Rmult_le_pos; [lra | left; apply Rinv_0_lt_compat; lra]|].
  apply Rmult_le_reg_r with wh; [lra|]. unfold Rdiv. rewrite Rmult_assoc, Rinv_l, Rmult_1_r by lra. apply Rle_trans with 2; [lra|].
  replace 2 with (bpow radix2 902 * bpow radix2 (-901)) by (rewrite <- bpow_plus; reflexivity). apply Rmult_le_compat_l; [apply bpow_ge_0 | exact P].
Qed.
Lemma st_prod c ch e : 0 <= c <= bpow radix2 920 -> Rabs e <= U -> ch = c * (1 + e) -> exists p t,
  near 6 p /\ Rabs t <= T /\ rnd (ch * th) = c / w * vh * p + t /\ 0 <= ch * th /\ ch * th <= 2 * (c / w * vh) + T.
Proof.
  intros Hc He Ech. destruct st_wh as (p & Hp & EQ). pose proof st_w as W. pose proof (near_pos (201 / 100) p ltac:(lra) Hp) as Pp. pose proof U_tiny as HU. pose proof E_pos as E0.
  destruct (rnd_split (vh / wh)) as (e4 & t4 & H4 & B4 & EQ4). fold th in EQ4. destruct (rnd_split (ch * th)) as (e5 & t5 & H5 & B5 & EQ5).
  pose proof st_th as Q0. assert (T0 : 0 <= th) by (apply rnd_pos; lra). assert (e0 : 0 <= 1 + e <= 1 + U) by (apply Rabs_le_inv in He; lra).
  assert (C0 : 0 <= ch) by (rewrite Ech; apply Rmult_le_pos; lra).
  set (k := (1 + e) * / p * (1 + e4)).
  assert (K : near (404 / 100 + / 100) k).
  { unfold k. apply (near_le (1 + (201 / 100 + / 100) + / 100 + 1 + / 100)); [lra|]. apply near_mul; try lra; [|now apply near_one]. apply near_mul; try lra; [now apply near_one|]. apply near_inv; [lra | exact Hp]. }
  assert (Ect : ch * th = c / w * vh * k + c * (1 + e) * t4) by (rewrite EQ4, Ech, EQ; unfold k; field; lra).
  assert (Bt : Rabs (c * (1 + e) * t4) <= bpow radix2 920 * (1 + U) * E).
  { rewrite Rabs_mult. apply Rmult_le_compat; [apply Rabs_pos | apply Rabs_pos | | exact B4]. rewrite Rabs_pos_eq by (apply Rmult_le_pos; lra). apply Rmult_le_compat; lra. }
  pose proof E_T as ET. assert (P9 : 0 <= bpow radix2 920 * E) by (apply Rmult_le_pos; [apply bpow_ge_0 | lra]).
  exists (k * (1 + e5)), (c * (1 + e) * t4 * (1 + e5) + t5). split; [|split; [|split; [|split]]].
  - apply (near_le (404 / 100 + / 100 + 1 + / 100)); [lra|]. apply near_mul; try lra; [exact K | now apply near_one].
  - eapply Rle_trans; [apply Rabs_triang|]. rewrite Rabs_mult. assert (B6 : Rabs (1 + e5) <= 1 + U) by (apply Rabs_le_inv in H5; apply Rabs_le; lra).
    assert (Rabs (c * (1 + e) * t4) * Rabs (1 + e5) <= bpow radix2 920 * (1 + U) * E * (1 + U)) by (apply Rmult_le_compat; auto using Rabs_pos).
    assert (bpow radix2 920 * (1 + U) * E * (1 + U) <= bpow radix2 920 * E * 2); [|lra].
    replace (bpow radix2 920 * (1 + U) * E * (1 + U)) with (bpow radix2 920 * E * ((1 + U) * (1 + U))) by ring. apply Rmult_le_compat_l; [exact P9 | nra].
  - rewrite EQ5, Ect. ring.
  - apply Rmult_le_pos; lra.
  - rewrite Ect. apply near_pos in K; [|lra]. assert (Q1 : 0 <= c / w * vh) by (apply Rmult_le_pos; [apply Rmult_le_pos; [lra | left; now apply Rinv_0_lt_compat] | lra]).
    assert (c / w * vh * k <= c / w * vh * 2) by (apply Rmult_le_compat_l; lra).
    assert (bpow radix2 920 * (1 + U) * E <= bpow radix2 920 * E * 2).
    { replace (bpow radix2 920 * (1 + U) * E) with (bpow radix2 920 * E * (1 + U)) by ring. apply Rmult_le_compat_l; lra. }
    apply Rabs_le_inv in Bt. lra.
Qed.
Lemma st_frac c : 0 <= c <= w -> 0 <= c / w <= 1.
Proof. intros H. pose proof st_w as W. split; [apply Rmult_le_pos; [lra | left; now apply Rinv_0_lt_compat]|]. apply Rmult_le_reg_r with w; [exact W|]. unfold Rdiv. rewrite Rmult_assoc, Rinv_l; lra. Qed.
Lemma T_le_1 : T <= / 1000000 /\ T <= U * / 1000000 /\ E <= T.
Proof.
  pose proof U_tiny as HU. pose proof E_pos. assert (T <= U * / 1000000).
  { eapply Rle_trans; [exact T_small|]. apply Rmult_le_compat_l; [lra|]. apply Rinv_le_contravar; [lra | apply IZR_le; lia]. }
  split; [|split; [assumption|]].
  - eapply Rle_trans; [eassumption|]. lra.
  - pose proof E_T. assert (0 <= bpow radix2 920 * E) by (apply Rmult_le_pos; [apply bpow_ge_0 | lra]). lra.
Qed.
Lemma st_bounds : 0 <= ah * th <= 5 /\ 0 <= bh * th <= 5 /\ 0 <= ph <= 5 /\ 0 <= qh <= 5.
Proof.
  pose proof T_le_1 as (T1 & _ & _).
  assert (G : forall c ch e, 0 <= c <= bpow radix2 920 -> c <= w -> Rabs e <= U -> ch = c * (1 + e) -> 0 <= ch * th <= 5 /\ 0 <= rnd (ch * th) <= 5).
  { intros c ch e Hc Hcw He Ech. destruct (st_prod c ch e Hc He Ech) as (p & t & _ & _ & _ & P0 & P1). pose proof (st_frac c ltac:(lra)) as Q.
    assert (c / w * vh <= 1 * 2) by (apply Rmult_le_compat; lra). split; [lra|]. split; [apply rnd_pos; lra | apply (rnd_upto _ 5); [lia | lra]]. }
  destruct (G a ah e1 Ha ltac:(unfold w; lra) He1 Eah). destruct (G b bh e2 Hb ltac:(unfold w; lra) He2 Ebh). auto.
Qed.
Lemma st_error : Rabs (nh - (s + a * (v / w))) + Rabs (qh - b * (v / w)) + U * qh <= Rabs (sh - s) + U * sh + Rabs (vh - v) + vh * (8 * U) + 4 * T.
Proof.
  pose proof U_tiny as HU. pose proof T_pos as T0. destruct T_le_1 as (T1 & T2 & T3). pose proof st_w as W. pose proof E_pos as E0.
  destruct (st_prod a ah e1 Ha He1 Eah) as (p & t & Hp & Ht & EP & _ & _). fold ph in EP.
  destruct (st_prod b bh e2 Hb He2 Ebh) as (q & t' & Hq & Ht' & EQ & _ & _). fold qh in EQ.
  set (A := a / w) in *. set (B := b / w) in *. assert (AB : A + B = 1) by (unfold A, B, w; field; unfold w in W; lra).
  assert (HA : 0 <= A <= 1) by (apply st_frac; unfold w; lra). assert (HB : 0 <= B <= 1) by (apply st_frac; unfold w; lra).
  replace (a * (v / w)) with (A * v) by (unfold A; field; lra). replace (b * (v / w)) with (B * v) by (unfold B; field; lra).
  pose proof st_bounds as (_ & _ & P0 & Q0).
  assert (G : forall c y k z, 0 <= c -> near 6 k -> Rabs z <= T -> y = c * vh * k + z -> Rabs (y - c * v) <= c * Rabs (vh - v) + c * vh * (6 * U) + T /\ y <= c * vh * (101 / 100) + T).
  { intros c y k z Hc Hk Hz Ey. split.
    - replace (y - c * v) with (c * (vh - v) + c * vh * (k - 1) + z) by (rewrite Ey; ring). unfold near in Hk.
      assert (Rabs (c * vh * (k - 1)) <= c * vh * (6 * U)) by (rewrite Rabs_mult, (Rabs_pos_eq (c * vh)) by (apply Rmult_le_pos; lra); apply Rmult_le_compat_l; [apply Rmult_le_pos; lra | exact Hk]).
      eapply Rle_trans; [apply Rabs_triang|]. eapply Rle_trans; [apply Rplus_le_compat_r, Rabs_triang|]. rewrite (Rabs_mult c), (Rabs_pos_eq c) by lra. lra.
    - apply near_pos in Hk; [|lra]. apply Rabs_le_inv in Hz. assert (c * vh * k <= c * vh * (101 / 100)) by (apply Rmult_le_compat_l; [apply Rmult_le_pos; lra | lra]). lra. }
  destruct (G A ph p t ltac:(lra) Hp Ht EP) as (G1 & G2). destruct (G B qh q t' ltac:(lra) Hq Ht' EQ) as (G3 & G4).
  pose proof (rnd_error (sh + ph)) as D5. fold nh in D5. rewrite (Rabs_pos_eq (sh + ph)) in D5 by lra.
  assert (N : Rabs (nh - (s + A * v)) <= Rabs (sh - s) + Rabs (ph - A * v) + (U * (sh + ph) + E)).
  { replace (nh - (s + A * v)) with ((sh - s) + (ph - A * v) + (nh - (sh + ph))) by ring. eapply Rle_trans; [apply Rabs_triang|]. eapply Rle_trans; [apply Rplus_le_compat_r, Rabs_triang|]. lra. }
  assert (Up : U * ph <= U * (A * vh * (101 / 100) + T)) by (apply Rmult_le_compat_l; lra).
  assert (Uq : U * qh <= U * (B * vh * (101 / 100) + T)) by (apply Rmult_le_compat_l; lra).
  assert (UT : U * T <= / 1000000 * T) by (apply Rmult_le_compat_r; lra).
  assert (S1 : A * Rabs (vh - v) + B * Rabs (vh - v) = Rabs (vh - v)) by (rewrite <- Rmult_plus_distr_r, AB; ring).
  assert (S2 : A * vh * (6 * U) + B * vh * (6 * U) = vh * (6 * U)) by (replace B with (1 - A) by lra; ring).
  assert (S3 : U * (A * vh * (101 / 100) + T) + U * (B * vh * (101 / 100) + T) = 101 / 100 * (U * vh) + 2 * (U * T)) by (replace B with (1 - A) by lra; ring).
  assert (Uv : 0 <= U * vh) by (apply Rmult_le_pos; lra). rewrite Rmult_plus_distr_l in N. lra.
Qed.
End Step.
