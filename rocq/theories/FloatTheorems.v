(** The theorems on splines in binary64. *)
From Coq Require Import Bool Reals Lia Lra Psatz ZifyBool Floats.SpecFloat.
From Flocq Require Import Core.
From Verif Require Import BSplineModel BSplineSpec LoopProofs EvaluatorSpec EvaluatorSpace EvaluatorProofs ShapeTheorems FloatLink FloatCell2 FloatCell3 FloatBasis FloatSpec FloatEval.
Local Open Scope bool_scope. Local Open Scope Z_scope.

Lemma far_s q d periodic a b n : float_bounds d n a b -> exists s, ub_construct FA q d periodic a b n = Ok s.
Proof. intros (Ha & Hb & Hd & Hn & Hbig & HA & HB & HL). destruct (f_construct q d n periodic a b Ha Hb ltac:(lia) Hn Hbig HA HB HL) as (s & E & _). now exists s. Qed.
Theorem float_ends : forall q d periodic a b n, float_bounds d n a b -> exists s, ub_construct FA q d periodic a b n = Ok s /\ ub_degree FA s = d /\ ub_ncells FA s = n /\
  (Rabs (IZR n * fval (ub_step FA s) - (fval b - fval a)) <= 4 / IZR (2 ^ 53) * (fval b - fval a))%R /\
  (Rabs (stored_first s - fval a) <= 4 / IZR (2 ^ 53) * (Rabs (fval a) + IZR d * fval (ub_step FA s)))%R /\
  (Rabs (stored_last s - fval b) <= 4 / IZR (2 ^ 53) * (Rabs (fval a) + IZR d * fval (ub_step FA s) + (fval b - fval a)))%R.
Proof.
  intros q d periodic a b n (Ha & Hb & Hd & Hn & Hbig & HA & HB & HL).
  destruct (f_construct q d n periodic a b Ha Hb ltac:(lia) Hn Hbig HA HB HL) as (s & Es & Nc & Sz & D & S1 & S2 & R1 & R2 & _).
  exists s. split; [exact Es|]. split; [exact D|]. split; [exact Nc|].
  destruct (step_facts (fval a) (fval b) d n ltac:(lia) Hn HA HB HL) as (e1 & e2 & e3 & e4 & H1 & H2 & H3 & _ & HS & _ & EN & EP & _).
  rewrite <- S2 in *. set (S := fval (ub_step FA s)) in *. set (P := rnd (IZR d * S)) in *. set (A := fval a) in *. set (B := fval b) in *.
  set (O := rnd (A - P)) in *. change (4 / IZR (2 ^ 53))%R with (4 * U)%R. pose proof U_pos as U0.
  assert (U1 : (U <= / 1000)%R) by (eapply Rle_trans; [exact U_small|]; apply Rinv_le_contravar; [lra | apply IZR_le; lia]).
  pose proof (bpow_gt_0 radix2 (-902)) as W. assert (d1 : (1 <= IZR d)%R) by (apply IZR_le; lia). assert (n1 : (1 <= IZR n)%R) by (apply IZR_le; lia).
  assert (L0 : (0 <= B - A)%R) by (pose proof (bpow_gt_0 radix2 (-900)); assert (0 <= IZR n * bpow radix2 (-900))%R by (apply Rmult_le_pos; lra); lra).
  assert (N1 : (Rabs (IZR n * S - (B - A)) <= 3 * U * (B - A))%R).
  { rewrite EN. replace ((B - A) * (1 + e1) * (1 + e2) - (B - A))%R with ((B - A) * (e1 + e2 + e1 * e2))%R by ring. rewrite Rabs_mult, (Rabs_pos_eq (B - A)), Rmult_comm by lra.
    apply Rmult_le_compat_r; [lra|]. assert (Rabs (e1 * e2) <= U * 1)%R by (rewrite Rabs_mult; apply Rmult_le_compat; try apply Rabs_pos; lra).
    pose proof (Rabs_triang (e1 + e2) (e1 * e2)). pose proof (Rabs_triang e1 e2). lra. }
  assert (UL : (0 <= U * (B - A))%R) by (apply Rmult_le_pos; lra).
  split; [lra|].
  assert (dS : (0 < IZR d * S)%R) by (apply Rmult_lt_0_compat; lra).
  assert (PB : (0 <= P <= IZR d * S * 2)%R).
  { rewrite EP. apply Rabs_le_inv in H3. split; [apply Rmult_le_pos; lra|]. apply Rmult_le_compat_l; lra. }
  assert (PB' : (P <= IZR d * S + / 1000 * (IZR d * S))%R).
  { rewrite EP. apply Rabs_le_inv in H3. assert (IZR d * S * (1 + e3) <= IZR d * S * (1 + / 1000))%R by (apply Rmult_le_compat_l; lra). lra. }
  assert (Es' : (E <= U * (IZR d * S) * / 1000)%R).
  { assert (E <= U * bpow radix2 (-902) * / 1000)%R.
    { unfold E, U. apply Rle_trans with (/ IZR (2 ^ 53) * bpow radix2 (-902) * / IZR (2 ^ 10))%R.
      - rewrite <- (bpowN 53), <- (bpowN 10) by lia. rewrite <- !bpow_plus. apply bpow_le. lia.
      - apply Rmult_le_compat_l; [apply Rmult_le_pos; [left; apply Rinv_0_lt_compat, IZR_lt; lia | lra]|]. apply Rinv_le_contravar; [lra | apply IZR_le; lia]. }
    assert (U * bpow radix2 (-902) <= U * (IZR d * S))%R. { apply Rmult_le_compat_l; [lra|]. assert (1 * S <= IZR d * S)%R by (apply Rmult_le_compat_r; lra). lra. }
    lra. }
  assert (F1 : (Rabs (fval (ub_rmin FA s) - A) <= 4 * U * (Rabs A + IZR d * S))%R).
  { rewrite R2. pose proof (rnd_error (A - P)) as D1. fold O in D1. pose proof (rnd_error (O + P)) as D2. set (lo := rnd (O + P)) in *.
    assert (T1 : (Rabs (A - P) <= Rabs A + P)%R) by (unfold Rminus; eapply Rle_trans; [apply Rabs_triang|]; rewrite Rabs_Ropp, (Rabs_pos_eq P) by lra; lra).
    assert (T2 : (U * Rabs (A - P) <= U * (Rabs A + P))%R) by (apply Rmult_le_compat_l; lra).
    assert (T3 : (Rabs (O + P) <= Rabs A + (U * (Rabs A + P) + E))%R).
    { replace (O + P)%R with (A + (O - (A - P)))%R by ring. eapply Rle_trans; [apply Rabs_triang|]. lra. }
    assert (T4 : (U * Rabs (O + P) <= U * (Rabs A + (U * (Rabs A + P) + E)))%R) by (apply Rmult_le_compat_l; lra).
    pose proof (Rabs_pos A) as A0.
    assert (T5 : (0 <= U * (U * (Rabs A + P)) <= / 1000 * (U * (Rabs A + P)))%R).
    { assert (0 <= U * (Rabs A + P))%R by (apply Rmult_le_pos; lra). split; [apply Rmult_le_pos; lra | apply Rmult_le_compat_r; lra]. }
    assert (T6 : (0 <= U * E <= / 1000 * E)%R) by (pose proof E_pos; split; [apply Rmult_le_pos; lra | apply Rmult_le_compat_r; lra]).
    assert (T7 : (U * P <= U * (IZR d * S + / 1000 * (IZR d * S)))%R) by (apply Rmult_le_compat_l; lra).
    assert (T8 : (0 <= U * Rabs A)%R) by (apply Rmult_le_pos; lra). assert (T9 : (0 <= U * (IZR d * S))%R) by (apply Rmult_le_pos; lra).
    replace (lo - A)%R with ((lo - (O + P)) + (O - (A - P)))%R by ring. eapply Rle_trans; [apply Rabs_triang|]. pose proof E_pos. lra. }
  split; [exact F1|]. unfold stored_last. rewrite Nc. fold S.
  replace (fval (ub_rmin FA s) + IZR n * S - B)%R with ((fval (ub_rmin FA s) - A) + (IZR n * S - (B - A)))%R by ring. eapply Rle_trans; [apply Rabs_triang|]. lra.
Qed.
Theorem float_basis : forall q d periodic a b n, float_bounds d n a b -> exists s, ub_construct FA q d periodic a b n = Ok s /\
  forall x j off (values : arr spec_float), fok x -> (fval (ub_rmin FA s) <= fval x <= fval (ub_rmax FA s))%R -> ub_icell_and_offset FA s x = Ok (j, off) -> j < n -> a_len values = d + 1 ->
  exists v, ub_eval_basis FA s values x = Ok (v, j) /\ a_len v = d + 1 /\ (forall r, 0 <= r <= d -> fok (a_at v r) /\ (0 <= fval (a_at v r))%R) /\
    (sum_first (Z.to_nat (d + 1)) (fun r => Rabs (fval (a_at v r) - bspline (stored_knots s) (stored_last s) (Z.to_nat d) (j + r) (stands_for s x))) <= basis_error d n)%R /\
    (Rabs (sum_first (Z.to_nat (d + 1)) (fun r => fval (a_at v r)) - 1) <= IZR (d * (d + 21)) / IZR (2 ^ 54))%R.
Proof.
  intros q d periodic a b n H. destruct (far_s q d periodic a b n H) as (s & Es). exists s. split; [exact Es|]. destruct H as (Ha & Hb & Hd & Hn & Hbig & HA & HB & HL).
  intros x j off values Hx Hin EQ Hj Lv. exact (fl_basis_error q d n periodic a b Ha Hb Hd Hn Hbig HA HB HL s Es x j off Hx Hin EQ Hj values Lv).
Qed.
Theorem float_spline : forall q d periodic a b n, float_bounds d n a b -> exists s, ub_construct FA q d periodic a b n = Ok s /\
  forall m lower upper (c : chunk_1d FA) M x j off, float_coefficients c (n + d) M -> (M <= bpow radix2 1000)%R ->
  fok x -> (fval (ub_rmin FA s) <= fval x <= fval (ub_rmax FA s))%R -> ub_icell_and_offset FA s x = Ok (j, off) -> j < n ->
  exists y, eval FA (Uniform s) m lower upper x c = Ok y /\ eval_no_bc FA (Uniform s) m None x c = Ok y /\ fok y /\
    (Rabs (fval y - spline (stored_knots s) (stored_last s) d n (float_coefficient c) (stands_for s x)) <= M * spline_error d n + IZR (4 * (d + 1)) * half_smallest)%R.
Proof.
  intros q d periodic a b n H. destruct (far_s q d periodic a b n H) as (s & Es). exists s. split; [exact Es|]. destruct H as (Ha & Hb & Hd & Hn & Hbig & HA & HB & HL).
  intros m lower upper c M x j off Hc HM Hx Hin EQ Hj. exact (fl_spline_error q d n periodic a b Ha Hb Hd Hn Hbig HA HB HL s Es m lower upper c M x j off Hc HM Hx Hin EQ Hj).
Qed.
(** The points that are far enough of the last break point, and the ends. *)
Theorem float_cell : forall q d periodic a b n, float_bounds d n a b -> exists s, ub_construct FA q d periodic a b n = Ok s /\
  forall x, fok x -> (fval (ub_rmin FA s) <= fval x <= fval (ub_rmax FA s))%R ->
  fval x = fval (ub_rmax FA s) \/ (fval x + IZR (n + 2) / IZR (2 ^ 49) * fval (ub_step FA s) < stored_last s)%R ->
  exists j off, ub_icell_and_offset FA s x = Ok (j, off) /\ 0 <= j < n.
Proof.
  intros q d periodic a b n H. destruct (far_s q d periodic a b n H) as (s & Es). exists s. split; [exact Es|]. destruct H as (Ha & Hb & Hd & Hn & Hbig & HA & HB & HL).
  intros x Hx Hin Hfar. destruct (fl_facts q d n periodic a b Ha Hb Hd Hn Hbig HA HB HL s Es) as (D & Nc & Sp & R1 & T1 & G).
  destruct (G x Hx Hin) as (j & off & EQ & F1 & F2 & F3 & F4 & F5 & F6). exists j, off. split; [exact EQ|].
  destruct (Rle_lt_dec (fval x) (fval (ub_rmin FA s))) as [L|L]; [destruct (F4 ltac:(lra)); lia|].
  destruct (Rle_lt_dec (fval (ub_rmax FA s)) (fval x)) as [L'|L']; [destruct (F5 L ltac:(lra)); lia|].
  destruct Hfar as [Hfar|Hfar]; [lra|]. specialize (F6 (conj L L')). split; [lia|]. apply lt_IZR. unfold stored_last in Hfar. rewrite Nc in Hfar.
  set (S := fval (ub_step FA s)) in *. set (lo := fval (ub_rmin FA s)) in *. apply Rabs_le_inv in F6.
  assert (K : ((fval x - lo) / S + / IZR (2 ^ 49) * IZR (n + 2) < IZR n)%R).
  { apply Rmult_lt_reg_r with S; [lra|]. rewrite Rmult_plus_distr_r. unfold Rdiv. rewrite Rmult_assoc, Rinv_l by lra. unfold Rdiv in Hfar. lra. }
  lra.
Qed.
(** Values in binary64 are between the bounds of the coefficients, up to rounding. *)
Theorem float_between : forall q d periodic a b n, float_bounds d n a b -> exists s, ub_construct FA q d periodic a b n = Ok s /\
  forall m lower upper (c : chunk_1d FA) M l u x j off, float_coefficients c (n + d) M -> (M <= bpow radix2 1000)%R ->
  (forall i, 0 <= i < n + d -> (l <= float_coefficient c i <= u)%R) ->
  fok x -> (fval (ub_rmin FA s) <= fval x <= fval (ub_rmax FA s))%R -> ub_icell_and_offset FA s x = Ok (j, off) -> j < n ->
  exists y, eval FA (Uniform s) m lower upper x c = Ok y /\
    (l - (M * spline_error d n + IZR (4 * (d + 1)) * half_smallest) <= fval y <= u + (M * spline_error d n + IZR (4 * (d + 1)) * half_smallest))%R.
Proof.
  intros q d periodic a b n H. destruct (float_spline q d periodic a b n H) as (s & Es & G). exists s. split; [exact Es|].
  intros m lower upper c M l u x j off Hc HM Hlu Hx Hin EQ Hj. destruct (G m lower upper c M x j off Hc HM Hx Hin EQ Hj) as (y & EY & _ & _ & B). exists y. split; [exact EY|].
  destruct H as (Ha & Hb & Hd & Hn & Hbig & HA & HB & HL). destruct (fl_facts q d n periodic a b Ha Hb Hd Hn Hbig HA HB HL s Es) as (D & Nc & Sp & _).
  destruct (fl_point q d n periodic a b Ha Hb Hd Hn Hbig HA HB HL s Es x j off Hx Hin EQ Hj) as (_ & _ & _ & P & _).
  destruct (x_space d n (fval (ub_rmin FA s)) (fval (ub_step FA s)) ltac:(lia) Hn Hbig Sp) as (rs & Hrs). pose proof (space_facts _ _ _ _ _ _ _ Hrs) as FF.
  unfold stored_knots in B. rewrite D, Nc in B. assert (EL : stored_last s = (fval (ub_rmin FA s) + IZR n * fval (ub_step FA s))%R) by (unfold stored_last; now rewrite Nc).
  rewrite EL in B, P. unfold stored_first in B.
  pose proof (spline_between _ _ _ _ _ _ _ FF (float_coefficient c) (stands_for s x) l u P Hlu) as BB. apply Rabs_le_inv in B. lra.
Qed.
