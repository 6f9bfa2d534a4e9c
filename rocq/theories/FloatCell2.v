(** How far the cell located in double precision can be from the last one: error analysis on the reals. *)
From Coq Require Import Bool Reals Lia Lra ZifyBool.
From Flocq Require Import Core Relative.
From Verif Require Import FloatLink.
Local Open Scope R_scope.

#[local] Instance p53' : Prec_gt_0 53 := eq_refl.
Definition U : R := / IZR (2 ^ 53).
Lemma half52 : / 2 * / IZR (2 ^ 52) = U.
Proof. unfold U. rewrite <- Rinv_mult. f_equal. Qed.
Lemma bpowN (z : Z) : (0 <= z)%Z -> bpow radix2 (- z) = / IZR (2 ^ z).
Proof. intros H. rewrite bpow_opp. f_equal. now rewrite <- (IZR_Zpower radix2 z H). Qed.
Lemma bpow_shift k z : (0 <= z)%Z -> bpow radix2 (k - z) = bpow radix2 k * / IZR (2 ^ z).
Proof. intros H. unfold Zminus. rewrite bpow_plus. now rewrite bpowN. Qed.
Lemma fexp_flt : fexp64 = FLT_exp (-1074) 53.
Proof. reflexivity. Qed.
#[local] Instance fexp_valid : Valid_exp fexp64.
Proof. rewrite fexp_flt. apply FLT_exp_valid. reflexivity. Qed.
#[local] Instance fexp_mono : Monotone_exp fexp64.
Proof. rewrite fexp_flt. apply FLT_exp_monotone. Qed.
Definition F (x : R) : Prop := generic_format radix2 fexp64 x.

Lemma rnd_F x : F (rnd x).
Proof. apply generic_format_round; auto with typeclass_instances. Qed.
Lemma rnd_id x : F x -> rnd x = x.
Proof. intros. apply round_generic; auto with typeclass_instances. Qed.
(** the relative error of the operations that do not underflow *)
Lemma rnd_u x : bpow radix2 (-1022) <= Rabs x -> exists e, Rabs e <= U /\ rnd x = x * (1 + e).
Proof.
  intros H. destruct (rnd_rel x H) as (e & H1 & H2). exists e. split; [|exact H2]. eapply Rle_trans; [exact H1|].
  replace (bpow radix2 (-52)) with (/ IZR (2 ^ 52)) by (symmetry; exact (bpowN 52 ltac:(lia))). rewrite half52. lra.
Qed.
(** in general *)
Lemma rnd_err x : Rabs (rnd x - x) <= U * Rabs x + bpow radix2 (-1075).
Proof.
  destruct (error_N_FLT radix2 (-1074) 53 ltac:(reflexivity) (fun z => negb (Z.even z)) x) as (e & t & H1 & H2 & _ & E).
  change (rnd x = x * (1 + e) + t) in E. rewrite E. replace (x * (1 + e) + t - x) with (e * x + t) by ring.
  eapply Rle_trans; [apply Rabs_triang|]. rewrite Rabs_mult. apply Rplus_le_compat.
  - apply Rmult_le_compat_r; [apply Rabs_pos|]. rewrite <- half52. change (- (53) + 1)%Z with (-52)%Z in H1. rewrite <- (bpowN 52) by lia. exact H1.
  - eapply Rle_trans; [exact H2|]. replace (-1075)%Z with (-1074 - 1)%Z by lia. rewrite bpow_shift by lia. change (2 ^ 1)%Z with 2%Z. lra.
Qed.
Lemma rnd_bnd x e : (-1074 <= e)%Z -> Rabs x <= bpow radix2 e -> Rabs (rnd x) <= bpow radix2 e.
Proof. intros He H. apply abs_round_le_generic; auto with typeclass_instances. apply generic_format_bpow. rewrite fexp_flt. unfold FLT_exp. lia. Qed.
Lemma rnd_ge x e : (-1074 <= e)%Z -> bpow radix2 e <= x -> bpow radix2 e <= rnd x.
Proof. intros He H. apply round_ge_generic; auto with typeclass_instances. apply generic_format_bpow. rewrite fexp_flt. unfold FLT_exp. lia. Qed.
Lemma rnd_mono_lt x y : F x -> x < rnd y -> x <= y.
Proof. intros Hx H. destruct (Rle_lt_dec x y) as [|Hlt]; [assumption|]. exfalso. assert (rnd y <= rnd x) by (apply rnd_le; lra). rewrite (rnd_id x Hx) in H0. lra. Qed.
Lemma rnd_nearest x y : F x -> Rabs (rnd y - y) <= Rabs (x - y).
Proof. intros Hx. apply (round_N_pt radix2 fexp64 (fun z => negb (Z.even z)) y). exact Hx. Qed.
(** a number of the format is a multiple of the last digit of any smaller one *)
Lemma grid e v : F v -> bpow radix2 (e - 1) <= Rabs v -> exists m : Z, v = IZR m * bpow radix2 (fexp64 e).
Proof.
  intros Hv He. apply mag_ge_bpow in He. pose proof Hv as G. unfold F, generic_format in G.
  set (c := cexp radix2 fexp64 v) in *. assert (Hc : (fexp64 e <= c)%Z) by (unfold c, cexp; now apply fexp_mono).
  exists (Ztrunc (scaled_mantissa radix2 fexp64 v) * 2 ^ (c - fexp64 e))%Z. rewrite mult_IZR. change (2 ^ (c - fexp64 e))%Z with (Z.pow radix2 (c - fexp64 e)).
  rewrite IZR_Zpower by lia. rewrite Rmult_assoc, <- bpow_plus. replace (c - fexp64 e + fexp64 e)%Z with c by lia. exact G.
Qed.
Lemma near_rnd y : rnd y <> 0 -> Rabs (rnd y - y) <= / 2 * bpow radix2 (fexp64 (mag radix2 (rnd y))).
Proof.
  intros H. pose proof (error_le_half_ulp_round radix2 fexp64 (fun z => negb (Z.even z)) y) as E. change (round radix2 fexp64 (Znearest (fun z => negb (Z.even z))) y) with (rnd y) in E.
  rewrite ulp_neq_0 in E by exact H. exact E.
Qed.

Section Cell.
Variables (A B x : R) (d n : Z).
Hypotheses (FA_ : F A) (FB : F B) (Fx : F x).
Hypotheses (Hd : (1 <= d)%Z) (Hn : (1 <= n)%Z) (Hbig : (n + 1 + 2 * d < 2 ^ 31)%Z).
Hypotheses (HA : Rabs A <= bpow radix2 900) (HB : Rabs B <= bpow radix2 900) (HL : IZR n * bpow radix2 (-900) <= B - A).
Let L := rnd (B - A).
Let S := rnd (L / IZR n).
Let P := rnd (IZR d * S).
Let Q := rnd (IZR (d + n) * S).
Let O := rnd (A - P).
Let lo := rnd (O + P).
Let hi := rnd (O + Q).

Let IZRn : 1 <= IZR n.
Proof. apply IZR_le. lia. Qed.
Let IZRd : 1 <= IZR d.
Proof. apply IZR_le. lia. Qed.
Let IZRbig : IZR n + 2 * IZR d <= IZR (2 ^ 31).
Proof. rewrite <- mult_IZR, <- plus_IZR. apply IZR_le. lia. Qed.
Lemma step_facts : exists e1 e2 e3 e4, Rabs e1 <= U /\ Rabs e2 <= U /\ Rabs e3 <= U /\ Rabs e4 <= U /\
  bpow radix2 (-902) <= S /\ S <= bpow radix2 902 /\
  IZR n * S = (B - A) * (1 + e1) * (1 + e2) /\ P = IZR d * S * (1 + e3) /\ Q = (IZR d + IZR n) * S * (1 + e4).
Proof.
  pose proof (bpow_gt_0 radix2 (-900)) as W.
  assert (H0 : bpow radix2 (-900) <= B - A) by (eapply Rle_trans; [|exact HL]; rewrite <- (Rmult_1_l (bpow radix2 (-900))) at 1; apply Rmult_le_compat_r; lra).
  assert (H0' : B - A <= bpow radix2 901).
  { apply Rabs_le_inv in HA. apply Rabs_le_inv in HB. replace 901%Z with (900 + 1)%Z by lia. rewrite bpow_plus. change (bpow radix2 1) with 2. lra. }
  assert (M : forall a b : Z, (a <= b)%Z -> bpow radix2 a <= bpow radix2 b) by (intros; now apply bpow_le).
  destruct (rnd_u (B - A)) as (e1 & He1 & E1); [rewrite Rabs_pos_eq by lra; pose proof (M (-1022) (-900) ltac:(lia))%Z; lra|]. fold L in E1.
  assert (HU : U <= / 4) by (unfold U; apply Rinv_le_contravar; [lra | apply IZR_le; lia]).
  apply Rabs_le_inv in He1.
  assert (HL2 : IZR n * bpow radix2 (-901) <= L).
  { rewrite E1. replace (-901)%Z with (-900 - 1)%Z by lia. rewrite bpow_shift by lia. change (2 ^ 1)%Z with 2%Z.
    replace (IZR n * (bpow radix2 (-900) * / 2)) with (IZR n * bpow radix2 (-900) * / 2) by ring. apply Rmult_le_compat; try lra. apply Rmult_le_pos; lra. }
  assert (HLu : L <= bpow radix2 901) by (pose proof (rnd_bnd (B - A) 901 ltac:(lia)) as G; rewrite (Rabs_pos_eq (B - A)) in G by lra; specialize (G H0'); fold L in G; apply Rabs_le_inv in G; lra).
  assert (HLn : bpow radix2 (-901) <= L / IZR n).
  { apply Rmult_le_reg_r with (IZR n); [lra|]. unfold Rdiv. rewrite Rmult_assoc, Rinv_l by lra. lra. }
  assert (HLn' : L / IZR n <= bpow radix2 901).
  { pose proof (bpow_gt_0 radix2 901). apply Rmult_le_reg_r with (IZR n); [lra|]. unfold Rdiv. rewrite Rmult_assoc, Rinv_l by lra. 
    rewrite Rmult_1_r. apply Rle_trans with (bpow radix2 901 * 1); [lra|]. apply Rmult_le_compat_l; lra. }
  pose proof (bpow_gt_0 radix2 (-901)) as W1.
  destruct (rnd_u (L / IZR n)) as (e2 & He2 & E2); [rewrite Rabs_pos_eq by lra; pose proof (M (-1022) (-901) ltac:(lia))%Z; lra|]. fold S in E2.
  assert (HS : bpow radix2 (-901) <= S) by (apply rnd_ge; [lia | exact HLn]).
  assert (HS' : S <= bpow radix2 901) by (pose proof (rnd_bnd (L / IZR n) 901 ltac:(lia)) as G; rewrite (Rabs_pos_eq (L / IZR n)) in G by lra; specialize (G HLn'); fold S in G; apply Rabs_le_inv in G; lra).
  assert (K : forall c, 1 <= c -> bpow radix2 (-1022) <= Rabs (c * S)).
  { intros c Hc. pose proof (M (-1022) (-901) ltac:(lia))%Z. assert (1 * S <= c * S) by (apply Rmult_le_compat_r; lra). rewrite Rabs_pos_eq; lra. }
  destruct (rnd_u (IZR d * S) (K _ IZRd)) as (e3 & He3 & E3).
  destruct (rnd_u (IZR (d + n) * S)) as (e4 & He4 & E4); [apply K; apply IZR_le; lia|].
  exists e1, e2, e3, e4. split; [apply Rabs_le; lra|]. split; [exact He2|]. split; [exact He3|]. split; [exact He4|].
  split; [pose proof (M (-902) (-901) ltac:(lia))%Z; lra|]. split; [pose proof (M 901 902 ltac:(lia))%Z; lra|]. split.
  - rewrite E2, <- E1. field. lra.
  - split; [exact E3|]. rewrite <- plus_IZR. exact E4.
Qed.

(** products of a bounded number by a small one *)
Lemma small_mul c e : 0 <= c -> Rabs e <= U -> Rabs (c * e) <= c * U.
Proof. intros Hc He. rewrite Rabs_mult, (Rabs_pos_eq c Hc). now apply Rmult_le_compat_l. Qed.
Lemma steps_error : 0 < S /\ 0 < P /\ P <= IZR (2 ^ 30) * S /\ Rabs (Q - P - IZR n * S) <= / IZR (2 ^ 22) * S /\ Rabs (B - A - IZR n * S) <= / IZR (2 ^ 20) * S /\ Rabs (Q - P - (B - A)) <= / IZR (2 ^ 19) * S.
Proof.
  destruct step_facts as (e1 & e2 & e3 & e4 & H1 & H2 & H3 & H4 & HS & _ & E1 & E3 & E4).
  pose proof (bpow_gt_0 radix2 (-902)) as W. assert (Sp : 0 < S) by lra. clear HS W.
  assert (HU : U = / IZR (2 ^ 53)) by reflexivity.
  assert (T1 : Rabs (Q - P - IZR n * S) <= / IZR (2 ^ 22) * S).
  { replace (Q - P - IZR n * S) with ((IZR d + IZR n) * S * e4 - IZR d * S * e3) by (rewrite E3, E4; ring).
    assert (0 <= IZR d * S) by (apply Rmult_le_pos; lra). assert (0 <= IZR n * S) by (apply Rmult_le_pos; lra).
    pose proof (small_mul ((IZR d + IZR n) * S) e4 ltac:(nra) H4) as G4. pose proof (small_mul (IZR d * S) e3 ltac:(lra) H3) as G3.
    apply Rabs_le_inv in G3. apply Rabs_le_inv in G4.
    assert (G : (IZR n + 2 * IZR d) * (S * U) <= IZR (2 ^ 31) * (S * U)).
    { apply Rmult_le_compat_r; [|exact IZRbig]. apply Rmult_le_pos; [lra|]. rewrite HU. apply Rlt_le, Rinv_0_lt_compat. apply IZR_lt. lia. }
    replace (IZR (2 ^ 31) * (S * U)) with (/ IZR (2 ^ 22) * S) in G by (rewrite HU; cbn; field). apply Rabs_le. split; lra. }
  assert (T2 : Rabs (B - A - IZR n * S) <= / IZR (2 ^ 20) * S).
  { pose proof (bpow_gt_0 radix2 (-900)) as W. assert (D : 0 < B - A) by (assert (0 < IZR n * bpow radix2 (-900)) by (apply Rmult_lt_0_compat; lra); lra).
    set (D0 := B - A) in *. replace (D0 - IZR n * S) with (- (D0 * e1) - D0 * (1 + e1) * e2) by (rewrite E1; ring).
    assert (HU4 : U <= / 100) by (rewrite HU; apply Rinv_le_contravar; [lra | apply IZR_le; lia]).
    pose proof (small_mul D0 e1 ltac:(lra) H1) as G1.
    assert (B1 : -U <= e1 <= U) by (now apply Rabs_le_inv). assert (B2 : -U <= e2 <= U) by (now apply Rabs_le_inv).
    assert (HU0 : 0 < U) by (rewrite HU; apply Rinv_0_lt_compat; apply IZR_lt; lia).
    assert (DS : D0 <= 11 / 10 * (IZR n * S)).
    { rewrite E1. assert (99 / 100 * (99 / 100) <= (1 + e1) * (1 + e2)) by (apply Rmult_le_compat; lra). assert (D0 * (98 / 100) <= D0 * ((1 + e1) * (1 + e2))) by (apply Rmult_le_compat_l; lra). rewrite Rmult_assoc. lra. }
    assert (B12 : 0 <= 1 + e1 <= 5 / 4) by lra.
    pose proof (small_mul (D0 * (1 + e1)) e2 ltac:(apply Rmult_le_pos; lra) H2) as G2. apply Rabs_le_inv in G1. apply Rabs_le_inv in G2.
    assert (G3 : D0 * (1 + e1) * U <= D0 * (5 / 4) * U) by (apply Rmult_le_compat_r; [lra|]; apply Rmult_le_compat_l; lra).
    assert (G4 : D0 * U <= 11 / 10 * (IZR n * S) * U) by (apply Rmult_le_compat_r; lra).
    assert (G5 : IZR n * (S * U) <= IZR (2 ^ 31) * (S * U)) by (apply Rmult_le_compat_r; [apply Rmult_le_pos; lra|]; lra).
    replace (IZR (2 ^ 31) * (S * U)) with (/ IZR (2 ^ 22) * S) in G5 by (rewrite HU; cbn; field).
    replace (/ IZR (2 ^ 20) * S) with (4 * (/ IZR (2 ^ 22) * S)) by (cbn; field). apply Rabs_le. split; lra. }
  split; [exact Sp|].
  assert (T3 : IZR d * S * (1 - U) <= P <= IZR d * S * (1 + U)).
  { apply Rabs_le_inv in H3. rewrite E3. assert (0 <= IZR d * S) by (apply Rmult_le_pos; lra). split; apply Rmult_le_compat_l; lra. }
  assert (HU4 : U <= / 4) by (rewrite HU; apply Rinv_le_contravar; [lra | apply IZR_le; lia]).
  assert (HU22 : U <= / IZR (2 ^ 32)) by (rewrite HU; apply Rinv_le_contravar; [apply IZR_lt; lia | apply IZR_le; lia]).
  split. { assert (0 < IZR d * S) by (apply Rmult_lt_0_compat; lra). nra. }
  split.
  { destruct T3 as [_ T3]. eapply Rle_trans; [exact T3|]. rewrite Rmult_assoc, (Rmult_comm S), <- Rmult_assoc. apply Rmult_le_compat_r; [lra|].
    assert (X : IZR d <= IZR (2 ^ 30) - 1 / 2) by (assert (2 * d + 1 <= 2 ^ 31)%Z as X0 by lia; apply IZR_le in X0; rewrite plus_IZR, mult_IZR in X0; change (IZR (2 ^ 31)) with (2 * IZR (2 ^ 30)) in X0 || (replace (IZR (2 ^ 31)) with (2 * IZR (2 ^ 30)) in X0 by (rewrite <- mult_IZR; reflexivity)); lra).
    assert (0 <= IZR d <= IZR (2 ^ 31)) by (split; [lra | apply IZR_le; lia]).
    assert (IZR d * U <= IZR (2 ^ 31) * / IZR (2 ^ 32)) by (apply Rmult_le_compat; lra || (rewrite HU; apply Rlt_le, Rinv_0_lt_compat, IZR_lt; lia) || idtac).
    replace (IZR (2 ^ 31) * / IZR (2 ^ 32)) with (1 / 2) in H0 by (cbn; field). lra. }
  split; [exact T1|]. split; [exact T2|].
  replace (Q - P - (B - A)) with ((Q - P - IZR n * S) - (B - A - IZR n * S)) by ring. apply Rabs_le_inv in T1. apply Rabs_le_inv in T2.
  replace (/ IZR (2 ^ 19)) with (8 * / IZR (2 ^ 22)) by (cbn; field). replace (/ IZR (2 ^ 20)) with (4 * / IZR (2 ^ 22)) in T2 by (cbn; field).
  assert (0 < / IZR (2 ^ 22) * S) by (apply Rmult_lt_0_compat; [apply Rinv_0_lt_compat, IZR_lt; lia | exact Sp]). apply Rabs_le. split; lra.
Qed.

(** one cell is at most ... of the last place of the lower end, or its rounding does not matter *)
Lemma end_error : Rabs (lo - (O + P)) <= / IZR (2 ^ 16) * S \/
  exists k : Z, bpow radix2 k * / 2 <= Rabs lo /\ Rabs lo <= bpow radix2 k /\ fexp64 (k - 1) = (k - 54)%Z /\ (-1075 <= k - 54)%Z /\
    Rabs (lo - (O + P)) <= bpow radix2 k * / IZR (2 ^ 54).
Proof.
  destruct step_facts as (_ & _ & _ & _ & _ & _ & _ & _ & HS & _ & _ & _ & _).
  assert (HS2 : bpow radix2 (-1074) <= / IZR (2 ^ 16) * S).
  { apply Rle_trans with (/ IZR (2 ^ 16) * bpow radix2 (-902)); [|apply Rmult_le_compat_l; [apply Rlt_le, Rinv_0_lt_compat, IZR_lt; lia | exact HS]].
    rewrite Rmult_comm, <- bpow_shift by lia. apply bpow_le. lia. }
  pose proof (bpow_gt_0 radix2 (-1074)) as W0.
  destruct (Req_dec lo 0) as [E0|E0].
  - left. unfold lo in *. set (y := O + P) in *. pose proof (rnd_err y) as H. rewrite E0 in *. replace (0 - y) with (- y) in * by ring. rewrite Rabs_Ropp in *.
    replace (-1075)%Z with (-1074 - 1)%Z in H by lia. rewrite bpow_shift in H by lia. change (2 ^ 1)%Z with 2%Z in H.
    assert (HU4 : U <= / 4) by (unfold U; apply Rinv_le_contravar; [lra | apply IZR_le; lia]).
    assert (U * Rabs y <= / 4 * Rabs y) by (apply Rmult_le_compat_r; [apply Rabs_pos | lra]). lra.
  - pose proof (near_rnd (O + P) E0) as H. fold lo in H. set (k := mag radix2 lo : Z) in *.
    destruct (Z.le_gt_cases (k - 53) (-1074)) as [Hk|Hk].
    + left. eapply Rle_trans; [exact H|]. rewrite fexp_flt. unfold FLT_exp. rewrite Z.max_r by lia. lra.
    + right. exists k. split; [|split; [|split; [|split]]].
      * pose proof (bpow_mag_le radix2 lo E0) as G. fold k in G. rewrite bpow_shift in G by lia. exact G.
      * apply Rlt_le. apply bpow_mag_gt.
      * rewrite fexp_flt. unfold FLT_exp. lia.
      * lia.
      * eapply Rle_trans; [exact H|]. rewrite fexp_flt. unfold FLT_exp. rewrite Z.max_l by lia. rewrite bpow_shift by lia.
        replace (IZR (2 ^ 54)) with (2 * IZR (2 ^ 53)) by (rewrite <- mult_IZR; reflexivity). rewrite Rinv_mult. lra.
Qed.
Hypothesis Hx : lo < x < hi.
Theorem cell_bound : x - lo <= (IZR n + / IZR (2 ^ 15)) * S.
Proof.
  destruct steps_error as (Sp & Pp & PS & T1 & T2 & T3).
  assert (Hxy : x <= O + Q) by (apply rnd_mono_lt; [exact Fx | apply Hx]).
  apply Rabs_le_inv in T1. apply Rabs_le_inv in T2.
  destruct end_error as [EE|(k & K1 & K2 & K3 & K4 & K5)].
  - apply Rabs_le_inv in EE. replace (/ IZR (2 ^ 15)) with (128 * / IZR (2 ^ 22)) by (cbn; field). replace (/ IZR (2 ^ 16)) with (64 * / IZR (2 ^ 22)) in EE by (cbn; field).
    assert (0 < / IZR (2 ^ 22) * S) by (apply Rmult_lt_0_compat; [apply Rinv_0_lt_compat, IZR_lt; lia | exact Sp]). lra.
  - destruct (Rle_lt_dec (Rabs (lo - (O + P))) (/ IZR (2 ^ 16) * S)) as [EE|EE].
    + apply Rabs_le_inv in EE. replace (/ IZR (2 ^ 15)) with (128 * / IZR (2 ^ 22)) by (cbn; field). replace (/ IZR (2 ^ 16)) with (64 * / IZR (2 ^ 22)) in EE by (cbn; field).
      assert (0 < / IZR (2 ^ 22) * S) by (apply Rmult_lt_0_compat; [apply Rinv_0_lt_compat, IZR_lt; lia | exact Sp]). lra.
    + (* the grid argument *)
      assert (Gap : x - lo <= B - A).
      { set (W := bpow radix2 k) in *. assert (Wp : 0 < W) by apply bpow_gt_0.
        assert (SW : S <= W * / IZR (2 ^ 38)).
        { apply Rmult_le_reg_l with (/ IZR (2 ^ 16)); [apply Rinv_0_lt_compat, IZR_lt; lia|].
          replace (/ IZR (2 ^ 16) * (W * / IZR (2 ^ 38))) with (W * / IZR (2 ^ 54)) by (cbn; field). lra. }
        assert (nS : IZR n * S <= W * / 128).
        { apply Rle_trans with (IZR (2 ^ 31) * (W * / IZR (2 ^ 38))); [apply Rmult_le_compat; lra|]. right. cbn. field. }
        assert (eta : bpow radix2 (-1075) <= W * / IZR (2 ^ 54)) by (unfold W; rewrite <- bpow_shift by lia; apply bpow_le; lia).
        assert (PW : P <= W * / 256).
        { eapply Rle_trans; [exact PS|]. apply Rle_trans with (IZR (2 ^ 30) * (W * / IZR (2 ^ 38))); [apply Rmult_le_compat_l; [apply IZR_le; lia | exact SW]|]. right. cbn. field. }
        assert (C54 : / IZR (2 ^ 54) <= / 1000000) by (apply Rinv_le_contravar; [lra | apply IZR_le; lia]).
        assert (C53 : U <= / 1000000) by (apply Rinv_le_contravar; [lra | apply IZR_le; lia]).
        assert (W54 : W * / IZR (2 ^ 54) <= W * / 1000000) by (apply Rmult_le_compat_l; lra).
        assert (T3W : Rabs (Q - P - (B - A)) <= W * / IZR (2 ^ 57)).
        { eapply Rle_trans; [exact T3|]. apply Rle_trans with (/ IZR (2 ^ 19) * (W * / IZR (2 ^ 38))); [apply Rmult_le_compat_l; [apply Rlt_le, Rinv_0_lt_compat, IZR_lt; lia | exact SW]|]. right. cbn. field. }
        assert (S20 : / IZR (2 ^ 20) * S <= W * / 1000000).
        { apply Rle_trans with (1 * (W * / IZR (2 ^ 38))).
          - apply Rmult_le_compat; lra.
          - rewrite Rmult_1_l. apply Rmult_le_compat_l; [lra|]. apply Rinv_le_contravar; [lra | apply IZR_le; lia]. }
        assert (S22 : / IZR (2 ^ 22) * S <= W * / 1000000).
        { eapply Rle_trans; [|exact S20]. apply Rmult_le_compat_r; [lra|]. apply Rinv_le_contravar; apply IZR_lt || apply IZR_le; lia. }
        pose proof K5 as K5'. apply Rabs_le_inv in K5'. apply Rabs_le_inv in K2.
        assert (OB : Rabs O <= W * 2) by (apply Rabs_le; lra).
        (* A is close to lo *)
        pose proof (rnd_err (A - P)) as HO. fold O in HO.
        assert (UA : U * Rabs (A - P) <= / 1000000 * Rabs (A - P)) by (apply Rmult_le_compat_r; [apply Rabs_pos | exact C53]).
        assert (AP : Rabs (A - P) <= W * 3).
        { pose proof (Rabs_triang_inv (A - P) O) as G. rewrite (Rabs_minus_sym (A - P) O) in G. lra. }
        assert (AP2 : Rabs (O - (A - P)) <= W * / 100000) by lra. apply Rabs_le_inv in AP2.
        assert (Alo : Rabs (A - lo) <= W * / 10000) by (apply Rabs_le; lra).
        (* hi is close to O + Q *)
        pose proof (rnd_err (O + Q)) as Hh. fold hi in Hh.
        assert (OQ : Rabs (O + Q) <= W * 3) by (apply Rabs_le; lra).
        assert (UQ : U * Rabs (O + Q) <= / 1000000 * (W * 3)) by (apply Rmult_le_compat; [unfold U; apply Rlt_le, Rinv_0_lt_compat, IZR_lt; lia | apply Rabs_pos | exact C53 | exact OQ]).
        assert (Hh2 : Rabs (hi - (O + Q)) <= W * / 100000) by lra. apply Rabs_le_inv in Hh2. apply Rabs_le_inv in Alo.
        (* everything is a multiple of g *)
        assert (G : forall v, F v -> - (W / 32) <= v - lo <= W / 32 -> exists m : Z, v = IZR m * bpow radix2 (k - 54)).
        { intros v Fv Hv. rewrite <- K3. apply grid; [exact Fv|]. replace (k - 1 - 1)%Z with (k - 2)%Z by lia. rewrite bpow_shift by lia. change (2 ^ 2)%Z with 4%Z. fold W.
          pose proof (Rabs_triang_inv lo v) as G. rewrite (Rabs_minus_sym lo v) in G. assert (Rabs (v - lo) <= W / 32) by (apply Rabs_le; lra). lra. }
        set (g := bpow radix2 (k - 54)) in *. assert (Eg : g = W * / IZR (2 ^ 54)) by (unfold g; rewrite bpow_shift by lia; reflexivity).
        destruct (G A FA_ ltac:(lra)) as (ma & Ea). destruct (G B FB ltac:(lra)) as (mb & Eb). destruct (G x Fx ltac:(lra)) as (mx & Ex).
        destruct (G lo (rnd_F _) ltac:(lra)) as (ml & El). destruct (G hi (rnd_F _) ltac:(lra)) as (mh & Eh).
        assert (gp : 0 < g) by apply bpow_gt_0.
        destruct (Z.le_gt_cases (mx - ml) (mb - ma)) as [Hm|Hm].
        { apply IZR_le in Hm. rewrite !minus_IZR in Hm. rewrite Ea, Eb, Ex, El. replace (IZR mx * g - IZR ml * g) with ((IZR mx - IZR ml) * g) by ring.
          replace (IZR mb * g - IZR ma * g) with ((IZR mb - IZR ma) * g) by ring. apply Rmult_le_compat_r; lra. }
        exfalso.
        assert (D1 : B - A + g <= x - lo).
        { assert (Hm' : (mb - ma + 1 <= mx - ml)%Z) by lia. apply IZR_le in Hm'. rewrite plus_IZR, !minus_IZR in Hm'. rewrite Ea, Eb, Ex, El.
          replace (IZR mb * g - IZR ma * g + g) with ((IZR mb - IZR ma + 1) * g) by ring. replace (IZR mx * g - IZR ml * g) with ((IZR mx - IZR ml) * g) by ring. apply Rmult_le_compat_r; lra. }
        assert (D2 : x + g <= hi).
        { assert (Hm' : (mx + 1 <= mh)%Z).
          { destruct (Z.le_gt_cases (mx + 1) mh) as [|Hc]; [assumption|]. exfalso. assert (Hc' : (mh <= mx)%Z) by lia. apply IZR_le in Hc'. destruct Hx as [_ Hx2].
            rewrite Ex, Eh in Hx2. assert (IZR mh * g <= IZR mx * g) by (apply Rmult_le_compat_r; lra). lra. }
          apply IZR_le in Hm'. rewrite plus_IZR in Hm'. rewrite Ex, Eh. replace (IZR mx * g + g) with ((IZR mx + 1) * g) by ring. apply Rmult_le_compat_r; lra. }
        pose proof (rnd_nearest x (O + Q) Fx) as N. fold hi in N. rewrite (Rabs_minus_sym x) in N. rewrite (Rabs_pos_eq (O + Q - x)) in N by lra. apply Rabs_le_inv in N.
        apply Rabs_le_inv in T3W. replace (/ IZR (2 ^ 57)) with (/ 8 * / IZR (2 ^ 54)) in T3W by (cbn; field). rewrite <- Eg in K5'.
        replace (W * (/ 8 * / IZR (2 ^ 54))) with (g * / 8) in T3W by (rewrite Eg; ring). lra. }
      replace (/ IZR (2 ^ 15)) with (32 * / IZR (2 ^ 20)) by (cbn; field).
      assert (0 < / IZR (2 ^ 20) * S) by (apply Rmult_lt_0_compat; [apply Rinv_0_lt_compat, IZR_lt; lia | exact Sp]). lra.
Qed.
End Cell.
