(** Splines on uniform cells evaluated in binary64, compared with the exact spline. *)
From Coq Require Import Bool Reals Lia Lra Psatz ZifyBool Floats.SpecFloat.
From Flocq Require Import Core.
From Verif Require Import BSplineModel BSplineSpec LoopProofs BSplineMath BSplineDeriv BSplineProofs BSplineUniform UniformProofs SamplingProofs
  IntegralProofs EvaluatorSpec EvaluatorSpace EvaluatorProofs ShapeSpec ShapeTheorems FloatLink FloatCell2 FloatCell3 FloatBasis FloatSpec.
Local Open Scope bool_scope. Local Open Scope Z_scope.

Lemma f_c1_get (c : chunk_1d FA) n i : c1_front FA c = 0 -> c1_size FA c = n -> n < 2 ^ 62 -> 0 <= i < n -> c1_get FA c i = Ok (a_at (c1_vals FA c) i).
Proof.
  intros H1 H2 Hn Hi. unfold c1_get. unfold c1_size in H2. rewrite H1. replace (elem_minus i 0) with i.
  - rewrite aget_ok by lia. reflexivity.
  - unfold elem_minus. unfold u64_sub. rewrite u64_small by lia. rewrite i64_small by lia. lia.
Qed.
(** The sum of the products. *)
Section Sum.
Context (s : bspline_space FA) (d n jmin : Z) (c : chunk_1d FA) (M e : R) (v : arr spec_float) (W : Z -> R).
Hypotheses (Hd : 0 <= d <= 1000) (Hdeg : bs_degree FA s = d) (Hn : 1 <= n) (Hbig : n + d < 2 ^ 62) (Hj : 0 <= jmin < n).
Hypothesis HM : (M <= bpow radix2 1000)%R.
Hypothesis Hc : float_coefficients c (n + d) M.
Hypothesis Lv : a_len v = d + 1.
Hypothesis Hv : forall k, 0 <= k < d + 1 -> fok (a_at v k) /\ (0 <= fval (a_at v k))%R.
Hypothesis HW : zsum (d + 1) W = 1%R.
Hypothesis He : (zsum (d + 1) (fun k => Rabs (fval (a_at v k) - W k)) <= e)%R.
Hypothesis e1 : (e <= / 1000000)%R.
Let cf (k : Z) : R := float_coefficient c (jmin + k).
Let vf (k : Z) : R := fval (a_at v k).
Lemma sum_M : (0 <= M)%R.
Proof. destruct Hc as (_ & _ & H). destruct (H 0 ltac:(lia)) as (_ & G). eapply Rle_trans; [apply Rabs_pos | exact G]. Qed.
Lemma sum_cf k : 0 <= k < d + 1 -> (Rabs (cf k) <= M)%R.
Proof. intros Hk. destruct Hc as (_ & _ & H). apply (H (jmin + k)); lia. Qed.
Lemma sum_vf : (zsum (d + 1) vf <= 1 + e)%R.
Proof.
  rewrite <- HW. eapply Rle_trans; [|apply Rplus_le_compat_l; exact He]. rewrite <- zsum_plus. apply zsum_le. intros k Hk. unfold vf.
  pose proof (Rle_abs (fval (a_at v k) - W k)). lra.
Qed.
Let Ab (k : Z) : R := zsum k (fun m => Rabs (cf m) * vf m)%R.
Lemma sum_Ab k : 0 <= k <= d + 1 -> (0 <= Ab k <= M * (1 + e))%R.
Proof.
  intros Hk. pose proof sum_M as M0. assert (P : forall m, 0 <= m < d + 1 -> (0 <= Rabs (cf m) * vf m)%R).
  { intros m Hm. apply Rmult_le_pos; [apply Rabs_pos | apply (Hv m Hm)]. }
  split; [apply zsum_nonneg; intros; apply P; lia|].
  apply Rle_trans with (Ab (d + 1)); [now apply zsum_mono|].
  apply Rle_trans with (M * zsum (d + 1) vf)%R; [|apply Rmult_le_compat_l; [exact M0 | apply sum_vf]].
  unfold Ab. rewrite <- zsum_scal. apply zsum_le. intros m Hm. apply Rmult_le_compat_r; [apply (Hv m Hm) | now apply sum_cf].
Qed.
Let g (k : Z) : R := (IZR k * (2 * U * M + 4 * E) + 3 * U * Ab k)%R.
Lemma sum_small : (0 < U <= / 1000000000)%R /\ (0 < E <= U * / 1000000000)%R.
Proof.
  split; (split; [apply U_pos || apply E_pos|]).
  - eapply Rle_trans; [exact U_small|]. apply Rinv_le_contravar; [lra | apply IZR_le; lia].
  - eapply Rle_trans; [exact E_small|]. apply Rmult_le_compat_l; [apply Rlt_le, U_pos|]. apply Rinv_le_contravar; [lra | apply IZR_le; lia].
Qed.
Lemma sum_g k : 0 <= k <= d + 1 -> (0 <= g k <= / 1000 * M + 5000 * E)%R.
Proof.
  intros Hk. pose proof sum_small as (U1 & E1). pose proof (sum_Ab k Hk) as A. pose proof sum_M as M0.
  assert (k1 : (0 <= IZR k <= 1001)%R) by (split; apply IZR_le; lia).
  assert (UM : (0 <= U * M <= / 1000000000 * M)%R) by (split; [apply Rmult_le_pos; lra | apply Rmult_le_compat_r; lra]).
  assert (UA : (0 <= U * Ab k <= / 1000000000 * Ab k)%R) by (split; [apply Rmult_le_pos; lra | apply Rmult_le_compat_r; lra]).
  assert (Me : (M * (1 + e) <= M * 2)%R) by (apply Rmult_le_compat_l; lra).
  assert (P : (0 <= IZR k * (2 * U * M + 4 * E) <= 1001 * (2 * U * M + 4 * E))%R) by (split; [apply Rmult_le_pos; lra | apply Rmult_le_compat_r; lra]).
  unfold g. lra.
Qed.
Lemma f_sum : exists y, spline_sum FA s jmin v c = Ok y /\ fok y /\ (Rabs (fval y - zsum (d + 1) (fun k => cf k * vf k)%R) <= g (d + 1))%R.
Proof.
  pose proof sum_small as (U1 & E1). pose proof sum_M as M0. destruct (fofz_exact 0 ltac:(lia)) as (Z1 & Z2).
  assert (Bt : forall z : R, (Rabs z <= 8 * M + 100000 * E)%R -> (Rabs (rnd z) < bpow radix2 1024)%R).
  { intros z Hz. apply (bnd_ok 1004); [lia|]. eapply Rle_trans; [exact Hz|].
    assert (E <= 1)%R by lra. assert (B1 : (100000 <= bpow radix2 1000)%R). { replace 100000%R with (IZR 100000) by reflexivity. eapply Rle_trans; [apply (IZR_le 100000 (2 ^ 20)); lia|]. rewrite <- (bpowN 20) at 1 || idtac. replace (IZR (2 ^ 20)) with (bpow radix2 20) by (symmetry; exact (IZR_Zpower radix2 20 ltac:(lia))). apply bpow_le. lia. }
    change 1004 with (1000 + 4). rewrite bpow_plus. change (bpow radix2 4) with 16%R. lra. }
  unfold spline_sum. rewrite Hdeg.
  destruct (for_range_inv (fun k (y : num FA) => fok y /\ (Rabs (fval y - zsum k (fun k => cf k * vf k)%R) <= g k)%R)
    (fun i y => c0 <- c1_get FA c (u64_add jmin i) ;; v0 <- aget v i ;; Ok (y + c0 * v0)%N_) 0 (d + 1) (nofz FA 0)) as (y & EQ & Y1 & Y2).
  - lia.
  - split; [exact Z1|]. rewrite Z2, zsum_0, Rminus_0_r, Rabs_R0. unfold g, Ab. rewrite zsum_0. lra.
  - intros k y Hk (Y1 & Y2). replace (u64_add jmin k) with (jmin + k) by (unfold u64_add; rewrite u64_small; lia).
    destruct Hc as (C1 & C2 & C3). rewrite (f_c1_get c (n + d)) by (try assumption; lia). cbn [rbind]. rewrite aget_ok by lia. cbn [rbind]. eexists. split; [reflexivity|].
    destruct (C3 (jmin + k) ltac:(lia)) as (K1 & K2). destruct (Hv k ltac:(lia)) as (V1 & V2). cbn [nadd nmul FA]. change (num FA) with spec_float in *.
    change (fval (a_at (c1_vals FA c) (jmin + k))) with (cf k) in *. change (fval (a_at v k)) with (vf k) in *.
    set (fc := a_at (c1_vals FA c) (jmin + k)) in *. set (fv := a_at v k) in *.
    assert (Q0 : (0 <= Rabs (cf k) * vf k)%R) by (apply Rmult_le_pos; [apply Rabs_pos | lra]).
    pose proof (sum_Ab k ltac:(lia)) as Ak. pose proof (sum_Ab (k + 1) ltac:(lia)) as Ak1. assert (AS : Ab (k + 1) = (Ab k + Rabs (cf k) * vf k)%R) by (unfold Ab; rewrite zsum_S by lia; reflexivity).
    assert (Me : (M * (1 + e) <= M * (1 + / 1000000))%R) by (apply Rmult_le_compat_l; lra).
    assert (Q1 : (Rabs (cf k * vf k) = Rabs (cf k) * vf k)%R) by (rewrite Rabs_mult, (Rabs_pos_eq (vf k)) by lra; reflexivity).
    destruct (fmul_ok fc fv K1 V1) as (P1 & P2). { apply Bt. change (fval fc) with (cf k). change (fval fv) with (vf k). rewrite Q1. lra. }
    set (fp := SFmul 53 1024 fc fv) in *. change (fval fc) with (cf k) in P2. change (fval fv) with (vf k) in P2.
    pose proof (rnd_error (cf k * vf k)) as D1. rewrite <- P2, Q1 in D1.
    assert (UQ : (0 <= U * (Rabs (cf k) * vf k) <= / 1000000000 * (Rabs (cf k) * vf k))%R) by (split; [apply Rmult_le_pos; lra | apply Rmult_le_compat_r; lra]).
    assert (P3 : (Rabs (fval fp) <= Rabs (cf k) * vf k + U * (Rabs (cf k) * vf k) + E)%R).
    { replace (fval fp) with (cf k * vf k + (fval fp - cf k * vf k))%R by ring. eapply Rle_trans; [apply Rabs_triang|]. rewrite Q1. lra. }
    pose proof (sum_g k ltac:(lia)) as G.
    assert (Y3 : (Rabs (fval y) <= 2 * M + 5000 * E)%R).
    { replace (fval y) with (zsum k (fun k => cf k * vf k)%R + (fval y - zsum k (fun k => cf k * vf k)%R))%R by ring. eapply Rle_trans; [apply Rabs_triang|].
      assert (Rabs (zsum k (fun k => cf k * vf k)%R) <= Ab k)%R.
      { eapply Rle_trans; [apply zsum_abs|]. unfold Ab. apply zsum_le. intros m Hm. rewrite Rabs_mult, (Rabs_pos_eq (vf m)) by (apply (Hv m ltac:(lia))). lra. }
      lra. }
    pose proof (Rabs_triang (fval y) (fval fp)) as T.
    destruct (fadd_ok y fp Y1 P1) as (S1 & S2). { apply Bt. lra. }
    split; [exact S1|]. match goal with |- (Rabs (?a - _) <= _)%R => replace a with (rnd (fval y + fval fp)) by (symmetry; exact S2) end. rewrite zsum_S by lia. pose proof (rnd_error (fval y + fval fp)) as D2.
    assert (UT : (U * Rabs (fval y + fval fp) <= U * ((2 * M + 5000 * E) + (Rabs (cf k) * vf k + U * (Rabs (cf k) * vf k) + E)))%R) by (apply Rmult_le_compat_l; lra).
    assert (UUQ : (U * (U * (Rabs (cf k) * vf k)) <= / 1000000000 * (U * (Rabs (cf k) * vf k)))%R) by (apply Rmult_le_compat_r; lra).
    assert (UE : (U * E <= / 1000000000 * E)%R) by (apply Rmult_le_compat_r; lra).
    apply Rle_trans with (g k + (U * (Rabs (cf k) * vf k) + E) + (U * Rabs (fval y + fval fp) + E))%R.
    + replace (rnd (fval y + fval fp) - (zsum k (fun k => cf k * vf k)%R + cf k * vf k))%R
        with ((fval y - zsum k (fun k => cf k * vf k)%R) + (fval fp - cf k * vf k) + (rnd (fval y + fval fp) - (fval y + fval fp)))%R by ring.
      eapply Rle_trans; [apply Rabs_triang|]. apply Rplus_le_compat; [|exact D2]. eapply Rle_trans; [apply Rabs_triang|]. lra.
    + unfold g. rewrite AS, plus_IZR. rewrite !Rmult_plus_distr_l in UT. lra.
  - exists y. split; [exact EQ|]. split; [exact Y1 | exact Y2].
Qed.
(** against the exact values *)
Lemma f_sum_exact : exists y, spline_sum FA s jmin v c = Ok y /\ fok y /\
  (Rabs (fval y - zsum (d + 1) (fun k => cf k * W k)%R) <= M * (e + U * IZR (2 * d + 6)) + 4 * IZR (d + 1) * E)%R.
Proof.
  destruct f_sum as (y & EQ & Y1 & Y2). exists y. split; [exact EQ|]. split; [exact Y1|]. pose proof sum_M as M0. pose proof sum_small as (U1 & E1).
  assert (D : (Rabs (zsum (d + 1) (fun k => cf k * vf k)%R - zsum (d + 1) (fun k => cf k * W k)%R) <= M * e)%R).
  { replace (zsum (d + 1) (fun k => cf k * vf k)%R - zsum (d + 1) (fun k => cf k * W k)%R)%R with (zsum (d + 1) (fun k => cf k * (vf k - W k))%R).
    - eapply Rle_trans; [apply zsum_abs|]. apply Rle_trans with (M * zsum (d + 1) (fun k => Rabs (vf k - W k)))%R; [|apply Rmult_le_compat_l; [exact M0 | exact He]].
      rewrite <- zsum_scal. apply zsum_le. intros k Hk. rewrite Rabs_mult. apply Rmult_le_compat_r; [apply Rabs_pos | now apply sum_cf].
    - assert (zsum (d + 1) (fun k => cf k * vf k)%R = zsum (d + 1) (fun k => cf k * (vf k - W k))%R + zsum (d + 1) (fun k => cf k * W k)%R)%R; [|lra].
      rewrite <- zsum_plus. apply zsum_ext. intros. ring. }
  replace (fval y - zsum (d + 1) (fun k => cf k * W k)%R)%R with ((fval y - zsum (d + 1) (fun k => cf k * vf k)%R) + (zsum (d + 1) (fun k => cf k * vf k)%R - zsum (d + 1) (fun k => cf k * W k)%R))%R by ring.
  eapply Rle_trans; [apply Rabs_triang|]. unfold g in Y2. pose proof (sum_Ab (d + 1) ltac:(lia)) as A.
  assert (UM : (0 <= U * M)%R) by (apply Rmult_le_pos; lra).
  assert (UA : (U * Ab (d + 1) <= U * (M * (1 + e)))%R) by (apply Rmult_le_compat_l; lra).
  assert (UMe : (U * M * e <= U * M * / 1000000)%R) by (apply Rmult_le_compat_l; lra).
  rewrite !plus_IZR, mult_IZR in *. rewrite Rmult_plus_distr_r in Y2. lra.
Qed.
End Sum.

Lemma zsum_1 f : zsum 1 f = f 0.
Proof. change 1 with (0 + 1). rewrite zsum_S, zsum_0 by lia. ring. Qed.
(** The growth of an exact uniform spline. *)
Section Exact.
Context (d n : Z) (lo S : R).
Hypotheses (Hd : 1 <= d) (Hn : 1 <= n) (Hbig : n + 1 + 2 * d < 2 ^ 31) (HS : (0 < S)%R).
Let hi : R := (lo + IZR n * S)%R.
Let t : Z -> R := uniform_knots d lo hi n.
Lemma x_n : (1 <= IZR n)%R.
Proof. apply IZR_le. lia. Qed.
Lemma x_ab : (lo < hi)%R.
Proof. unfold hi. pose proof x_n. assert (0 < IZR n * S)%R by (apply Rmult_lt_0_compat; lra). lra. Qed.
Lemma x_step : ((hi - lo) / IZR n = S)%R.
Proof. unfold hi. pose proof x_n. field. lra. Qed.
Lemma x_diff i k : (t k - t i = IZR (k - i) * S)%R.
Proof. unfold t. rewrite us_diff, x_step. reflexivity. Qed.
Lemma x_first : t d = lo.
Proof. apply us_first. Qed.
Lemma x_space : exists s, spline_space (Uniform s) d false n t lo hi.
Proof.
  destruct (ub_construct_ok 0%nat lo hi n d false Hd Hn Hbig x_ab) as (s & E & _). exists s. apply (uniform_space 0%nat); try assumption; apply x_ab.
Qed.
Lemma x_lipschitz (c : Z -> R) M x y : (forall i, 0 <= i < n + d -> (Rabs (c i) <= M)%R) -> (lo <= x <= hi)%R -> (lo <= y <= hi)%R ->
  (Rabs (spline t hi d n c x - spline t hi d n c y) <= 2 * M / S * Rabs (x - y))%R.
Proof.
  intros Hc. assert (G : forall x y, (lo <= x <= y)%R -> (y <= hi)%R -> (Rabs (spline t hi d n c y - spline t hi d n c x) <= 2 * M / S * (y - x))%R).
  { clear x y. intros x y Hx Hy. destruct x_space as (s & Hs). pose proof (space_facts _ _ _ _ _ _ _ Hs) as FF.
    set (ch := mk_chunk_1d RA 0 (mk_arr (n + d) c)). assert (Hch : has_coefficients ch (n + d)) by (split; reflexivity).
    set (m := mk_scratch (A := RA) (fun _ => 0%R) (fun _ => 0%R) (fun _ => 0%R) (fun _ _ => 0%R) (fun _ _ => 0%R) (fun _ _ => 0%R)).
    destruct (growth _ _ _ _ _ _ _ Hs m (null_rule RA) (null_rule RA) ch x y (- (2 * M / S))%R (2 * M / S)%R Hch Hx Hy) as (vx & vy & E1 & E2 & B).
    - intros i Hi. unfold slope. rewrite x_diff. replace (i + d - i) with d by ring. assert (0 < IZR d)%R by (apply IZR_lt; lia).
      change (coefficient ch) with c. replace (IZR d * (c i - c (i - 1)%Z) / (IZR d * S))%R with ((c i - c (i - 1)%Z) * / S)%R by (field; lra).
      pose proof (Rabs_le_inv _ _ (Hc i ltac:(lia))) as B1. pose proof (Rabs_le_inv _ _ (Hc (i - 1) ltac:(lia))) as B2. assert (0 < / S)%R by (apply Rinv_0_lt_compat; lra).
      unfold Rdiv. rewrite Ropp_mult_distr_l. split; apply Rmult_le_compat_r; lra.
    - rewrite (eval_inside_ok _ _ _ _ _ _ _ FF m _ _ ch x Hch ltac:(lra)) in E1. rewrite (eval_inside_ok _ _ _ _ _ _ _ FF m _ _ ch y Hch ltac:(lra)) in E2.
      assert (Hinj : forall y z : R, @Ok (num RA) y = Ok z -> y = z) by congruence. apply Hinj in E1, E2. change (coefficient ch) with c in *. rewrite E1, E2. apply Rabs_le. lra. }
  intros Hx Hy. destruct (Rle_lt_dec x y) as [L|L].
  - rewrite Rabs_minus_sym, (Rabs_minus_sym x), (Rabs_pos_eq (y - x)) by lra. apply G; lra.
  - rewrite (Rabs_pos_eq (x - y)) by lra. apply G; lra.
Qed.
(** A point of a cell, and the values on the cell. *)
Lemma x_spline_at (c : Z -> R) j o : 0 <= j < n -> (0 <= o <= 1)%R -> let x := (lo + (IZR j + o) * S)%R in
  (lo <= x <= hi)%R /\ (x - t (d + j)%Z = o * S)%R /\ spline t hi d n c x = zsum (d + 1) (fun r => c (j + r)%Z * V t (d + j) d r x)%R /\
  (forall r, 0 <= r <= d -> V t (d + j) d r x = bspline t hi (Z.to_nat d) (j + r) x).
Proof.
  intros Hj Ho x. destruct x_space as (s & Hs). pose proof (space_facts _ _ _ _ _ _ _ Hs) as FF.
  pose proof (x_diff d (d + j)) as D1. rewrite x_first in D1. replace (d + j - d) with j in D1 by ring.
  pose proof (x_diff (d + j) (d + j + 1)) as D2. replace (d + j + 1 - (d + j)) with 1 in D2 by ring.
  assert (j0 : (0 <= IZR j)%R) by (apply IZR_le; lia). assert (jn : (IZR j + 1 <= IZR n)%R) by (rewrite <- plus_IZR; apply IZR_le; lia).
  assert (X1 : (lo <= x <= hi)%R).
  { unfold x, hi. assert (0 <= (IZR j + o) * S)%R by (apply Rmult_le_pos; lra). assert ((IZR j + o) * S <= IZR n * S)%R by (apply Rmult_le_compat_r; lra). lra. }
  assert (X2 : (x - t (d + j)%Z = o * S)%R) by (unfold x; lra).
  assert (X3 : (t (d + j)%Z <= x <= t (d + j + 1)%Z)%R).
  { assert (0 <= o * S)%R by (apply Rmult_le_pos; lra). assert (o * S <= 1 * S)%R by (apply Rmult_le_compat_r; lra). lra. }
  assert (P : forall c, spline t hi d n c x = zsum (d + 1) (fun r => c (j + r)%Z * V t (d + j) d r x)%R).
  { intros c'. rewrite (piece_closed _ _ _ _ _ _ _ FF (d + j) c' x ltac:(lia) X3), (piece_sum _ _ _ _ _ _ _ FF (d + j) c' x ltac:(lia)).
    apply zsum_ext. intros r Hr. unfold V. replace (d + j - d + r) with (j + r) by ring. reflexivity. }
  split; [exact X1|]. split; [exact X2|]. split; [apply P|]. intros r Hr.
  pose proof (P (fun i => if i =? j + r then 1%R else 0%R)) as Q. unfold spline in Q. rewrite sum_first_zsum in Q.
  rewrite (zsum_part (n + d) (j + r) 1) in Q; [|lia|lia|lia|intros i Hi Hi'; cbv beta; replace (i =? j + r) with false by lia; ring].
  rewrite (zsum_part (d + 1) r 1) in Q; [|lia|lia|lia|intros i Hi Hi'; cbv beta; replace (j + i =? j + r) with false by lia; ring].
  rewrite !zsum_1, !Z.add_0_r, Z.eqb_refl in Q. lra.
Qed.
End Exact.

(** A space built in binary64. *)
Section Float.
Variables (q : tag) (d n : Z) (periodic : bool) (a b : spec_float).
Hypotheses (Ha : fok a) (Hb : fok b).
Hypotheses (Hd : 1 <= d <= 1000) (Hn : 1 <= n) (Hbig : n + 1 + 2 * d < 2 ^ 31).
Hypotheses (HA : (Rabs (fval a) <= bpow radix2 900)%R) (HB : (Rabs (fval b) <= bpow radix2 900)%R).
Hypothesis HL : (IZR n * bpow radix2 (-900) <= fval b - fval a)%R.
Variable s : u_bsplines FA.
Hypothesis Hs : ub_construct FA q d periodic a b n = Ok s.
Let lo := fval (ub_rmin FA s).
Let S := fval (ub_step FA s).
Lemma fl_facts : ub_degree FA s = d /\ ub_ncells FA s = n /\ (0 < S)%R /\ fok (ub_rmin FA s) /\ fok (ub_rmax FA s) /\
  forall x, fok x -> (lo <= fval x <= fval (ub_rmax FA s))%R -> exists j off, ub_icell_and_offset FA s x = Ok (j, off) /\ fok off /\ (0 <= fval off <= 1)%R /\
    0 <= j <= n /\ (fval x = lo -> j = 0 /\ fval off = 0%R) /\ ((lo < fval x)%R -> fval x = fval (ub_rmax FA s) -> j = n - 1 /\ fval off = 1%R) /\
    ((lo < fval x < fval (ub_rmax FA s))%R -> (Rabs (IZR j + fval off - (fval x - lo) / S) <= / IZR (2 ^ 49) * IZR (n + 2))%R).
Proof.
  destruct (f_construct q d n periodic a b Ha Hb ltac:(lia) Hn Hbig HA HB HL) as (s1 & E1 & _ & _ & D & _).
  destruct (un_float_cell_bound q d periodic a b n Ha Hb ltac:(lia) Hn Hbig HA HB HL) as (s2 & E2 & Nc & _ & R1 & T1 & _ & Sp & G).
  assert (s1 = s) by congruence. assert (s2 = s) by congruence. subst s1 s2. split; [exact D|]. split; [exact Nc|]. split; [exact Sp|]. split; [exact R1|]. split; [exact T1|].
  intros x Hx Hin. destruct (G x Hx Hin) as (j & off & EQ & F1 & F2 & F3 & _ & F4 & F5 & F6). exists j, off. repeat (split; [assumption|]). assumption.
Qed.
Definition exact_point (j : Z) (off : spec_float) : R := (lo + (IZR j + fval off) * S)%R.
Lemma fl_point x j off : fok x -> (lo <= fval x <= fval (ub_rmax FA s))%R -> ub_icell_and_offset FA s x = Ok (j, off) -> j < n ->
  fok off /\ (0 <= fval off <= 1)%R /\ 0 <= j /\ (lo <= stands_for s x <= stored_last s)%R /\
  (Rabs (exact_point j off - stands_for s x) <= / IZR (2 ^ 49) * IZR (n + 2) * S)%R.
Proof.
  intros Hx Hin EQ Hj. destruct fl_facts as (D & Nc & Sp & R1 & T1 & G). destruct (G x Hx Hin) as (j' & off' & EQ' & F1 & F2 & F3 & F4 & F5 & F6).
  assert (j' = j) by congruence. assert (off' = off) by congruence. subst j' off'. split; [exact F1|]. split; [exact F2|]. split; [lia|].
  assert (n1 : (1 <= IZR n)%R) by (apply IZR_le; lia). assert (nS : (0 < IZR n * S)%R) by (apply Rmult_lt_0_compat; lra).
  assert (B0 : (0 <= / IZR (2 ^ 49) * IZR (n + 2) * S)%R).
  { apply Rmult_le_pos; [|lra]. apply Rmult_le_pos; [left; apply Rinv_0_lt_compat, IZR_lt; lia | apply IZR_le; lia]. }
  assert (EL : stored_last s = (lo + IZR n * S)%R) by (unfold stored_last; rewrite Nc; reflexivity).
  assert (jn : (IZR j + 1 <= IZR n)%R) by (rewrite <- plus_IZR; apply IZR_le; lia).
  assert (Pn : (exact_point j off <= stored_last s)%R).
  { rewrite EL. unfold exact_point. assert ((IZR j + fval off) * S <= IZR n * S)%R by (apply Rmult_le_compat_r; lra). lra. }
  unfold stands_for, stored_first. fold lo. destruct (Rle_dec (fval x) lo) as [L|L].
  { destruct (F4 ltac:(lra)) as (J & O). split; [lra|]. unfold exact_point. rewrite J, O. replace (lo + (0 + 0) * S - lo)%R with 0%R by ring. rewrite Rabs_R0. exact B0. }
  destruct (Rlt_dec (fval x) (fval (ub_rmax FA s))) as [L'|L'].
  - assert (Acc : (Rabs (exact_point j off - fval x) <= / IZR (2 ^ 49) * IZR (n + 2) * S)%R).
    { replace (exact_point j off - fval x)%R with ((IZR j + fval off - (fval x - lo) / S) * S)%R by (unfold exact_point; field; lra).
      rewrite Rabs_mult, (Rabs_pos_eq S) by lra. apply Rmult_le_compat_r; [lra|]. apply F6. lra. }
    unfold Rmin. destruct (Rle_dec (fval x) (stored_last s)) as [M|M]; [split; [lra | exact Acc]|]. split; [lra|].
    eapply Rle_trans; [|exact Acc]. rewrite (Rabs_left1 (exact_point j off - stored_last s)), (Rabs_left1 (exact_point j off - fval x)) by lra. lra.
  - destruct (F5 ltac:(lra) ltac:(lra)) as (J & O). split; [lra|]. unfold exact_point. rewrite EL, J, O, minus_IZR.
    replace (lo + (IZR n - 1 + 1) * S - (lo + IZR n * S))%R with 0%R by ring. rewrite Rabs_R0. exact B0.
Qed.
Let t := stored_knots s.
Lemma fl_knots : t = uniform_knots d lo (lo + IZR n * S)%R n.
Proof. destruct fl_facts as (D & Nc & _). unfold t, stored_knots, stored_first, stored_last. rewrite D, Nc. reflexivity. Qed.
Lemma fl_last : stored_last s = (lo + IZR n * S)%R.
Proof. destruct fl_facts as (D & Nc & _). unfold stored_last. now rewrite Nc. Qed.
Lemma fl_basis x j off : fok x -> (lo <= fval x <= fval (ub_rmax FA s))%R -> ub_icell_and_offset FA s x = Ok (j, off) -> j < n ->
  forall values : arr spec_float, a_len values = d + 1 -> exists v, ub_eval_basis FA s values x = Ok (v, j) /\ a_len v = d + 1 /\
    (forall r, 0 <= r < d + 1 -> fok (a_at v r) /\ (0 <= fval (a_at v r))%R) /\
    (zsum (d + 1) (fun r => Rabs (fval (a_at v r) - V t (d + j) d r (exact_point j off))) <= eps d)%R.
Proof.
  intros Hx Hin EQ Hj values Lv. destruct fl_facts as (D & Nc & Sp & _). destruct (fl_point x j off Hx Hin EQ Hj) as (O1 & O2 & J0 & _).
  destruct (x_spline_at d n lo S ltac:(lia) Hn Hbig Sp (fun _ => 0%R) j (fval off) ltac:(lia) O2) as (X1 & X2 & _ & _). fold (exact_point j off) in X1, X2.
  rewrite <- fl_knots in X2. destruct (fofz_exact 1 ltac:(lia)) as (I1 & I2).
  unfold ub_eval_basis, ub_eval_basis_degree. change (num FA) with spec_float in *. rewrite D, Lv, Z.eqb_refl. unfold assert_. rewrite EQ. cbn [rbind]. rewrite (aset_ok values) by lia. cbn [rbind].
  assert (Ht : forall i k, (t k - t i = IZR (k - i) * S)%R) by (intros; rewrite fl_knots; apply (x_diff d n lo S Hn)).
  destruct (f_triangle t S (d + j) off (exact_point j off) O1 O2 Sp Ht X2 (d + 1) (mk_arr (a_len values) (upd (a_at values) 0 (nofz FA 1)))) as (v & EV & L & V1 & V2).
  - lia.
  - cbn [a_len]. lia.
  - cbn [a_at]. rewrite upd_eq. exact I1.
  - cbn [a_at]. rewrite upd_eq. exact I2.
  - cbn [a_len] in *. rewrite Lv in *. rewrite EV. cbn [rbind]. exists v. split; [|split; [exact L|]; split; [exact V1|]].
    + f_equal. f_equal. unfold reference_element, u64_add. rewrite (u64_small j) by lia. rewrite u64_small; lia.
    + replace (d + 1 - 1) with d in V2 by ring. exact V2.
Qed.
Lemma fl_near (c : Z -> R) M x j off : fok x -> (lo <= fval x <= fval (ub_rmax FA s))%R -> ub_icell_and_offset FA s x = Ok (j, off) -> j < n ->
  (forall i, 0 <= i < n + d -> (Rabs (c i) <= M)%R) ->
  (Rabs (spline t (stored_last s) d n c (exact_point j off) - spline t (stored_last s) d n c (stands_for s x)) <= M * (IZR (64 * (n + 2)) / IZR (2 ^ 54)))%R.
Proof.
  intros Hx Hin EQ Hj Hc. destruct fl_facts as (D & Nc & Sp & _). destruct (fl_point x j off Hx Hin EQ Hj) as (O1 & O2 & J0 & P1 & P2).
  destruct (x_spline_at d n lo S ltac:(lia) Hn Hbig Sp (fun _ => 0%R) j (fval off) ltac:(lia) O2) as (X1 & _). fold (exact_point j off) in X1.
  rewrite fl_last in P1 |- *. rewrite fl_knots. eapply Rle_trans; [apply (x_lipschitz d n lo S ltac:(lia) Hn Hbig Sp c M); assumption|].
  assert (M0 : (0 <= M)%R) by (eapply Rle_trans; [apply Rabs_pos | apply (Hc 0); lia]).
  apply Rle_trans with (2 * M / S * (/ IZR (2 ^ 49) * IZR (n + 2) * S))%R.
  - apply Rmult_le_compat_l; [|exact P2]. apply Rmult_le_pos; [lra | left; apply Rinv_0_lt_compat; lra].
  - right. rewrite mult_IZR. change (2 ^ 54) with (32 * 2 ^ 49). rewrite mult_IZR. field. split; [apply not_0_IZR; lia | lra].
Qed.
Lemma fl_eps : eps d = (IZR (d * (d + 21)) / IZR (2 ^ 54))%R.
Proof. unfold eps, U. change (2 ^ 54) with (2 * 2 ^ 53). rewrite (mult_IZR 2). field. apply not_0_IZR. lia. Qed.
(** The values of the B-splines. *)
Lemma fl_basis_error x j off : fok x -> (lo <= fval x <= fval (ub_rmax FA s))%R -> ub_icell_and_offset FA s x = Ok (j, off) -> j < n ->
  forall values : arr spec_float, a_len values = d + 1 -> exists v, ub_eval_basis FA s values x = Ok (v, j) /\ a_len v = d + 1 /\
    (forall r, 0 <= r <= d -> fok (a_at v r) /\ (0 <= fval (a_at v r))%R) /\
    (sum_first (Z.to_nat (d + 1)) (fun r => Rabs (fval (a_at v r) - bspline t (stored_last s) (Z.to_nat d) (j + r) (stands_for s x))) <= basis_error d n)%R /\
    (Rabs (sum_first (Z.to_nat (d + 1)) (fun r => fval (a_at v r)) - 1) <= IZR (d * (d + 21)) / IZR (2 ^ 54))%R.
Proof.
  intros Hx Hin EQ Hj values Lv. destruct (fl_basis x j off Hx Hin EQ Hj values Lv) as (v & EV & L & V1 & V2). exists v. split; [exact EV|]. split; [exact L|].
  split; [intros r Hr; apply V1; lia|]. rewrite !sum_first_zsum. destruct fl_facts as (D & Nc & Sp & _). destruct (fl_point x j off Hx Hin EQ Hj) as (O1 & O2 & J0 & P1 & P2).
  destruct (x_spline_at d n lo S ltac:(lia) Hn Hbig Sp (fun _ => 1%R) j (fval off) ltac:(lia) O2) as (X1 & X2 & X3 & X4). fold (exact_point j off) in X1, X2, X3, X4.
  pose proof fl_knots as K. pose proof fl_last as KL. rewrite <- K in X2, X3, X4. rewrite <- KL in X1, X3, X4.
  set (xt := exact_point j off) in *. set (xs := stands_for s x) in *.
  set (N := fun (i : Z) (y : R) => bspline t (stored_last s) (Z.to_nat d) i y).
  split.
  - set (sg := fun i => if (j <=? i) && (i <=? j + d) then (if Rle_dec 0 (N i xt - N i xs) then 1%R else (-1)%R) else 0%R).
    assert (B : forall i, 0 <= i < n + d -> (Rabs (sg i) <= 1)%R).
    { intros i _. unfold sg. destruct ((j <=? i) && (i <=? j + d)); [destruct (Rle_dec 0 (N i xt - N i xs))|]; rewrite ?Rabs_R0, ?Rabs_R1, ?Rabs_Ropp; try lra. unfold Rabs. destruct (Rcase_abs (-1)); lra. }
    pose proof (fl_near sg 1 x j off Hx Hin EQ Hj B) as NB. fold xt xs in NB. unfold spline in NB. rewrite !sum_first_zsum in NB.
    assert (Q : forall y, zsum (n + d) (fun i => sg i * bspline t (stored_last s) (Z.to_nat d) i y)%R = zsum (d + 1) (fun r => sg (j + r)%Z * N (j + r)%Z y)%R).
    { intros y. rewrite (zsum_part (n + d) j (d + 1)); [reflexivity | lia | lia | lia|]. intros i Hi Hi'. cbv beta. unfold sg. replace ((j <=? i) && (i <=? j + d)) with false by lia. ring. }
    rewrite !Q in NB.
    assert (QD : (zsum (d + 1) (fun r => sg (j + r)%Z * N (j + r)%Z xt) - zsum (d + 1) (fun r => sg (j + r)%Z * N (j + r)%Z xs) = zsum (d + 1) (fun r => Rabs (N (j + r)%Z xt - N (j + r)%Z xs)))%R).
    { assert (zsum (d + 1) (fun r => sg (j + r)%Z * N (j + r)%Z xt) = zsum (d + 1) (fun r => Rabs (N (j + r)%Z xt - N (j + r)%Z xs)) + zsum (d + 1) (fun r => sg (j + r)%Z * N (j + r)%Z xs))%R; [|lra].
      rewrite <- zsum_plus. apply zsum_ext. intros r Hr. unfold sg. replace ((j <=? j + r) && (j + r <=? j + d)) with true by lia.
      destruct (Rle_dec 0 (N (j + r)%Z xt - N (j + r)%Z xs)); [rewrite Rabs_pos_eq by lra | rewrite Rabs_left1 by lra]; ring. }
    rewrite QD in NB. rewrite (Rabs_pos_eq (zsum _ _)) in NB by (apply zsum_nonneg; intros; apply Rabs_pos).
    apply Rle_trans with (eps d + 1 * (IZR (64 * (n + 2)) / IZR (2 ^ 54)))%R; [|rewrite fl_eps; unfold basis_error; rewrite (plus_IZR (d * (d + 21))); unfold Rdiv; lra].
    eapply Rle_trans; [|apply Rplus_le_compat; [exact V2 | exact NB]]. rewrite <- zsum_plus. apply zsum_le. intros r Hr. rewrite X4 by lia. fold (N (j + r) xt) (N (j + r) xs).
    replace (fval (a_at v r) - N (j + r)%Z xs)%R with ((fval (a_at v r) - N (j + r)%Z xt) + (N (j + r)%Z xt - N (j + r)%Z xs))%R by ring. apply Rabs_triang.
  - rewrite <- fl_eps. assert (Ht : forall i k, (t k - t i = IZR (k - i) * S)%R) by (intros; rewrite K; apply (x_diff d n lo S Hn)).
    pose proof (u_V_sum t S (d + j) xt Sp Ht d ltac:(lia)) as SV. rewrite <- SV.
    replace (zsum (d + 1) (fun r => fval (a_at v r)) - zsum (d + 1) (fun k => V t (d + j) d k xt))%R with (zsum (d + 1) (fun r => fval (a_at v r) - V t (d + j) d r xt)%R).
    + eapply Rle_trans; [apply zsum_abs | exact V2].
    + assert (zsum (d + 1) (fun r => fval (a_at v r)) = zsum (d + 1) (fun r => fval (a_at v r) - V t (d + j) d r xt)%R + zsum (d + 1) (fun k => V t (d + j) d k xt))%R; [|lra].
      rewrite <- zsum_plus. apply zsum_ext. intros. ring.
Qed.
(** The values of splines. *)
Lemma fl_spline_error m (lower upper : rule FA) (c : chunk_1d FA) M x j off : float_coefficients c (n + d) M -> (M <= bpow radix2 1000)%R ->
  fok x -> (lo <= fval x <= fval (ub_rmax FA s))%R -> ub_icell_and_offset FA s x = Ok (j, off) -> j < n ->
  exists y, eval FA (Uniform s) m lower upper x c = Ok y /\ eval_no_bc FA (Uniform s) m None x c = Ok y /\ fok y /\
    (Rabs (fval y - spline t (stored_last s) d n (float_coefficient c) (stands_for s x)) <= M * spline_error d n + IZR (4 * (d + 1)) * half_smallest)%R.
Proof.
  intros Hc HM Hx Hin EQ Hj. destruct fl_facts as (D & Nc & Sp & R1 & T1 & _). destruct (fl_point x j off Hx Hin EQ Hj) as (O1 & O2 & J0 & P1 & P2).
  destruct (x_spline_at d n lo S ltac:(lia) Hn Hbig Sp (float_coefficient c) j (fval off) ltac:(lia) O2) as (X1 & X2 & X3 & X4). fold (exact_point j off) in X1, X2, X3, X4.
  pose proof fl_knots as K. pose proof fl_last as KL. rewrite <- K in X2, X3, X4. rewrite <- KL in X1, X3, X4.
  set (values := mk_arr (d + 1) (m_vals m) : arr spec_float). destruct (fl_basis x j off Hx Hin EQ Hj values eq_refl) as (v & EV & L & V1 & V2).
  set (xt := exact_point j off) in *.
  assert (Ht : forall i k, (t k - t i = IZR (k - i) * S)%R) by (intros; rewrite K; apply (x_diff d n lo S Hn)).
  pose proof (u_V_sum t S (d + j) xt Sp Ht d ltac:(lia)) as SV.
  destruct (f_sum_exact (Uniform s) d n j c M (eps d) v (fun r => V t (d + j) d r xt) ltac:(lia) D Hn ltac:(lia) ltac:(lia) HM Hc L V1 SV V2 (eps_small d ltac:(lia))) as (y & EY & Y1 & Y2).
  assert (EN : eval_no_bc FA (Uniform s) m None x c = Ok y).
  { unfold eval_no_bc, bs_eval_basis. cbn [bs_degree]. rewrite D. change (num FA) with spec_float in *. fold values. rewrite EV. cbn [rbind]. exact EY. }
  exists y. split.
  { unfold eval, bs_length, bs_rmin, bs_rmax, bs_periodic. cbn [rbind nltb FA]. rewrite !fltb_ok by assumption. rewrite !R_ltb_false by (unfold lo in Hin; lra). cbn [orb].
    destruct (ub_periodic FA s); exact EN. }
  split; [exact EN|]. split; [exact Y1|]. rewrite <- X3 in Y2.
  pose proof (fl_near (float_coefficient c) M x j off Hx Hin EQ Hj) as NB. fold xt in NB.
  assert (B : forall i, 0 <= i < n + d -> (Rabs (float_coefficient c i) <= M)%R) by (intros i Hi; apply (proj2 (proj2 Hc) i Hi)).
  specialize (NB B). set (A1 := spline t (stored_last s) d n (float_coefficient c) xt) in *. set (A2 := spline t (stored_last s) d n (float_coefficient c) (stands_for s x)) in *.
  replace (fval y - A2)%R with ((fval y - A1) + (A1 - A2))%R by ring. eapply Rle_trans; [apply Rabs_triang|].
  eapply Rle_trans; [apply Rplus_le_compat; [exact Y2 | exact NB]|]. rewrite fl_eps. unfold spline_error, half_smallest. fold E.
  right. unfold U. change (2 ^ 54) with (2 * 2 ^ 53). rewrite (mult_IZR 2 (2 ^ 53)). rewrite (mult_IZR 4).
  replace (d * (d + 25) + 64 * n + 140) with (d * (d + 21) + 2 * (2 * d + 6) + 64 * (n + 2)) by ring.
  rewrite (plus_IZR (d * (d + 21) + 2 * (2 * d + 6))), (plus_IZR (d * (d + 21))), (mult_IZR 2 (2 * d + 6)). field. apply not_0_IZR. lia.
Qed.
End Float.
