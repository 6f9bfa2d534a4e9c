(** Interpolation by periodic splines with uniform knots, at the centres of the B-splines: at most one solution, on any number of cells. *)
From Coq Require Import Reals ZArith Lia Lra Classical List.
From Verif Require Import BSplineSpec BSplineMath BSplineDeriv IntegralMath2 SplineZeros SplineTower SplineUniquePeriodic.
Import ListNotations.
Local Open Scope Z_scope.

Lemma pieces_linear t d c c' u v k x : pieces t d (fun i => u * c i + v * c' i)%R 0 k x = (u * pieces t d c 0 k x + v * pieces t d c' 0 k x)%R.
Proof. unfold pieces. cbn [dcoef]. rewrite <- !zsum_scal, <- zsum_plus. apply zsum_ext. intros r _. ring. Qed.
(** More zeros than cells. *)
Section Extra.
Context (t : Z -> R) (d n : Z) (L : R) (c z : Z -> R) (N lo0 hi0 : Z).
Hypothesis Hd : 1 <= d.
Hypothesis Hn : 1 <= n.
Hypothesis cells : forall k, (t k < t (k + 1)%Z)%R.
Hypothesis period : forall k, t (k + n) = (t k + L)%R.
Hypothesis HN : n < N.
Hypothesis steps : forall i, (z i < z (i + 1)%Z)%R.
Hypothesis period_z : forall i, z (i + N) = (z i + L)%R.
Hypothesis zeros : forall i, exists k, (t k <= z i <= t (k + 1)%Z)%R /\ pieces t d c 0 k (z i) = 0%R.
Hypothesis bounds : (t lo0 < z 0%Z < t hi0)%R.
Lemma extra_cell : exists k, forall l y, (l <= Z.to_nat d)%nat -> pieces t d c l k y = 0%R.
Proof.
  set (Q := Z.to_nat (hi0 - lo0 + d + 2)). set (hi := hi0 + Z.of_nat Q * n).
  assert (Hlh : lo0 < hi0). { destruct (Z.lt_ge_cases lo0 hi0) as [H|H]; [exact H|]. pose proof (p_mono t cells hi0 lo0 H). lra. }
  assert (T : tower (Z.to_nat d) t (pieces t d c) lo0 hi) by (apply spline_tower; [exact Hd | exact (p_mono t cells) | intros; apply cells]).
  assert (END : (z (Z.of_nat Q * N)%Z < t hi)%R).
  { pose proof (p_periods N L z period_z Q 0) as E1. pose proof (p_periods n L t period Q hi0) as E2. rewrite Z.add_0_l in E1. rewrite E1. unfold hi. rewrite E2. lra. }
  assert (ZA : forall i, 0 <= i <= Z.of_nat Q * N -> zero_at t (pieces t d c) lo0 hi (z i)).
  { intros i Hi. destruct (zeros i) as (k & Hk & E). exists k. split; [|exact E].
    assert (z 0%Z <= z i)%R. { destruct (Z.eq_dec i 0) as [C|C]; [rewrite C; lra | left; apply p_step; [exact steps | lia]]. }
    assert (z i <= z (Z.of_nat Q * N)%Z)%R. { destruct (Z.eq_dec i (Z.of_nat Q * N)) as [C|C]; [rewrite C; lra | left; apply p_step; [exact steps | lia]]. }
    split; [|exact Hk]. split.
    - destruct (Z.le_gt_cases lo0 k) as [C|C]; [exact C|]. pose proof (p_mono t cells (k + 1) lo0 ltac:(lia)). lra.
    - destruct (Z.le_gt_cases hi k) as [C|C]; [|exact C]. pose proof (p_mono t cells hi k C). lra. }
  assert (ZF : forall (q : nat) j, 0 <= j -> j + Z.of_nat q <= Z.of_nat Q * N -> zeros_from t (pieces t d c) lo0 hi (z j) (listed_from z (j + 1) q)).
  { induction q as [|q IH]; intros j Hj Hq; [exact I|]. cbn [listed_from zeros_from]. split; [apply steps|]. split; [apply ZA; lia|]. apply IH; lia. }
  destruct (many_zeros (Z.to_nat d) t (pieces t d c) lo0 hi T (z 0) (listed_from z (0 + 1) (Z.to_nat (Z.of_nat Q * N))) 0 0) as (k & _ & K); [lia | apply ZA; nia | apply ZF; nia | lia | lia | lia | lia | | exists k; exact K].
  rewrite listed_length. unfold hi. assert (Z.of_nat Q = hi0 - lo0 + d + 2) by (unfold Q; lia). rewrite !Nat2Z.inj_add, Z2Nat.id by nia. nia.
Qed.
End Extra.

(** Symmetry of knots, reflected B-splines. *)
Lemma piece_reflect t w H : (forall j, t (w - j) = (H - t j)%R) -> forall k p i x, bspline_piece t k p i x = bspline_piece t (w - 1 - k) p (w - i - Z.of_nat p - 1) (H - x).
Proof.
  intros Ht k. induction p as [|p IH]; intros i x.
  - unfold bspline_piece. cbn [cox_de_boor]. destruct (Z.eq_dec i k), (Z.eq_dec (w - i - Z.of_nat 0 - 1) (w - 1 - k)); try lia; reflexivity.
  - unfold bspline_piece in *. rewrite !cdb_S. rewrite (IH i x), (IH (i + 1) x).
    replace (w - i - Z.of_nat (S p) - 1 + 1) with (w - i - Z.of_nat p - 1) by lia. replace (w - (i + 1) - Z.of_nat p - 1) with (w - i - Z.of_nat (S p) - 1) by lia.
    replace (w - i - Z.of_nat (S p) - 1 + Z.of_nat (S p) + 1) with (w - i) by lia. replace (w - i - Z.of_nat (S p) - 1 + Z.of_nat (S p)) with (w - (i + 1)) by lia.
    replace (w - i - Z.of_nat (S p) - 1) with (w - (i + Z.of_nat (S p) + 1)) by lia. replace (w - i - Z.of_nat p - 1) with (w - (i + Z.of_nat (S p))) by lia.
    rewrite !Ht. rewrite Rplus_comm. f_equal; f_equal; f_equal; ring.
Qed.
Section Uniform.
Context (t : Z -> R) (d n m : Z) (h : R).
Hypothesis Hd : 1 <= d.
Hypothesis Hn : 1 <= n.
Hypothesis Hh : (0 < h)%R.
Hypothesis step : forall k, t (k + 1) = (t k + h)%R.
Lemma u_cells k : (t k < t (k + 1)%Z)%R. Proof. rewrite step. lra. Qed.
Lemma u_steps (q : nat) k : t (k + Z.of_nat q) = (t k + IZR (Z.of_nat q) * h)%R.
Proof.
  induction q as [|q IH]; [replace (k + Z.of_nat 0) with k by lia; change (Z.of_nat 0) with 0; ring|].
  replace (k + Z.of_nat (S q)) with (k + Z.of_nat q + 1) by lia. rewrite step, IH. replace (Z.of_nat (S q)) with (Z.of_nat q + 1) by lia. rewrite plus_IZR. ring.
Qed.
Lemma u_knot q k : t (k + q) = (t k + IZR q * h)%R.
Proof.
  destruct (Z.le_gt_cases 0 q) as [H|H].
  - replace q with (Z.of_nat (Z.to_nat q)) by lia. apply u_steps.
  - pose proof (u_steps (Z.to_nat (- q)) (k + q)) as E. replace (Z.of_nat (Z.to_nat (- q))) with (- q) in E by lia. replace (k + q + - q) with k in E by lia. rewrite E, opp_IZR. ring.
Qed.
Lemma u_mirror j k : t (j - k) = (t j - (t k - t 0%Z))%R.
Proof. replace (j - k) with (j + (- k)) by lia. rewrite u_knot, opp_IZR. replace k with (0 + k) at 2 by lia. rewrite (u_knot k 0). ring. Qed.
(** The centre of the B-spline i + m, and the middle between this centre and the next. *)
Definition u_centre (i : Z) : R := (t (i + m)%Z + (IZR d + 1) / 2 * h)%R.
Definition u_middle (i : Z) : R := (t (i + m)%Z + (IZR d + 2) / 2 * h)%R.
Definition u_cell (i : Z) : Z := i + m + (d + 2) / 2.
Lemma u_cell_middle i : (t (u_cell i) <= u_middle i <= t (u_cell i + 1)%Z)%R.
Proof.
  rewrite step. unfold u_cell, u_middle. rewrite u_knot. pose proof (Z.div_mod (d + 2) 2 ltac:(lia)) as DM. pose proof (Z.mod_pos_bound (d + 2) 2 ltac:(lia)) as MB.
  assert (E : (IZR d + 2 = 2 * IZR ((d + 2) / 2) + IZR ((d + 2) mod 2))%R) by (rewrite <- (mult_IZR 2), <- (plus_IZR _ ((d + 2) mod 2)), <- DM, plus_IZR; reflexivity).
  rewrite E. assert (0 <= IZR ((d + 2) mod 2) <= 1)%R by (split; [apply (IZR_le 0); lia | apply (IZR_le _ 1); lia]).
  replace ((2 * IZR ((d + 2) / 2) + IZR ((d + 2) mod 2)) / 2)%R with (IZR ((d + 2) / 2) + IZR ((d + 2) mod 2) / 2)%R by field.
  split; nra.
Qed.
(** A spline with alternating coefficients vanishes at these middles. *)
Section Alternating.
Context (c : Z -> R).
Hypothesis Halt : forall i, c (i + 1) = (- c i)%R.
Lemma alt_even (q : nat) i : c (i + 2 * Z.of_nat q) = c i.
Proof. induction q as [|q IH]; [f_equal; lia|]. replace (i + 2 * Z.of_nat (S q)) with (i + 2 * Z.of_nat q + 1 + 1) by lia. rewrite !Halt, IH. ring. Qed.
Lemma alt_even_z q i : c (i + 2 * q) = c i.
Proof.
  destruct (Z.le_gt_cases 0 q) as [H|H]; [replace q with (Z.of_nat (Z.to_nat q)) by lia; apply alt_even|].
  rewrite <- (alt_even (Z.to_nat (- q)) (i + 2 * q)). f_equal. lia.
Qed.
Lemma alternating_zero i : pieces t d c 0 (u_cell i) (u_middle i) = 0%R.
Proof.
  set (j := i + m). set (w := 2 * j + d + 2). set (y := u_middle i). set (k := u_cell i).
  assert (Hw : forall q, t (w - q) = (2 * y - t q)%R).
  { intros q. rewrite u_mirror. unfold y, u_middle. fold j. replace w with (0 + (j + j + (d + 2))) by (unfold w; lia). replace j with (0 + j) at 3 by lia. rewrite !u_knot, !plus_IZR. field. }
  assert (G : pieces t d c 0 k y = (- pieces t d c 0 (w - 1 - k) y)%R).
  { unfold pieces. change (Z.of_nat 0) with 0. rewrite Z.sub_0_r. cbn [dcoef].
    rewrite <- (zsum_reverse (d + 1) (fun r => c (w - 1 - k - d + r) * V t (w - 1 - k) d r y)%R) by lia.
    replace (- zsum (d + 1) (fun r => c (w - 1 - k - d + (d + 1 - 1 - r)) * V t (w - 1 - k) d (d + 1 - 1 - r) y))%R
      with (-1 * zsum (d + 1) (fun r => c (w - 1 - k - d + (d + 1 - 1 - r)) * V t (w - 1 - k) d (d + 1 - 1 - r) y))%R by ring.
    rewrite <- zsum_scal. apply zsum_ext. intros r Hr. unfold V. rewrite (piece_reflect t w (2 * y) Hw k (Z.to_nat d) (k - d + r) y). rewrite Z2Nat.id by lia.
    replace (w - (k - d + r) - d - 1) with (w - 1 - k - d + (d + 1 - 1 - r)) by lia. replace (2 * y - y)%R with y by ring.
    assert (E : c (w - 1 - k - d + (d + 1 - 1 - r)) = (- c (k - d + r))%R).
    { rewrite <- Halt. rewrite <- (alt_even_z (j - (k - d + r)) (k - d + r + 1)). f_equal. unfold w. lia. }
    rewrite E. ring. }
  assert (S1 : pieces t d c 0 (w - 1 - k) y = pieces t d c 0 k y).
  { pose proof (u_cell_middle i) as B. fold k y in B. set (lo := Z.min k (w - 1 - k)). set (hi := Z.max k (w - 1 - k) + 1).
    assert (T : tower (Z.to_nat d) t (pieces t d c) lo hi) by (apply spline_tower; [exact Hd | exact (p_mono t u_cells) | intros; apply u_cells]).
    apply (at_same _ _ _ _ _ T 0 (w - 1 - k) _ k); [lia | |]; (split; [unfold lo, hi; lia|]).
    - replace (w - 1 - k + 1) with (w - k) by lia. replace (w - 1 - k) with (w - (k + 1)) by lia. rewrite !Hw. lra.
    - exact B. }
  rewrite S1 in G. lra.
Qed.
End Alternating.
(** Uniqueness. *)
Let L := (IZR n * h)%R.
Lemma u_period q k : t (k + q * n) = (t k + IZR q * L)%R.
Proof. rewrite u_knot, mult_IZR. unfold L. ring. Qed.
Lemma u_nest i : (t (i + m)%Z < u_centre i < t (i + m + d + 1)%Z)%R.
Proof. unfold u_centre. replace (i + m + d + 1) with (i + m + (d + 1)) by lia. rewrite (u_knot (d + 1)), plus_IZR. pose proof (IZR_le 1 d Hd). split; nra. Qed.
Lemma u_points i : (u_centre i < u_centre (i + 1)%Z)%R.
Proof. unfold u_centre. replace (i + 1 + m) with (i + m + 1) by lia. rewrite step. lra. Qed.
Definition in_kernel (c : Z -> R) : Prop := (forall i, c (i + n) = c i) /\ forall i k, (t k <= u_centre i <= t (k + 1)%Z)%R -> pieces t d c 0 k (u_centre i) = 0%R.
Lemma kernel_period c : in_kernel c -> forall q i, c (i + q * n) = c i.
Proof.
  intros [Hc _] q i.
  assert (N : forall (q : nat) i, c (i + Z.of_nat q * n) = c i).
  { clear q i. induction q as [|q IH]; intros i; [f_equal; lia|]. replace (i + Z.of_nat (S q) * n) with (i + Z.of_nat q * n + n) by lia. rewrite Hc. apply IH. }
  destruct (Z.le_gt_cases 0 q) as [H|H]; [replace q with (Z.of_nat (Z.to_nat q)) by lia; apply N|].
  rewrite <- (N (Z.to_nat (- q)) (i + q * n)). f_equal. lia.
Qed.
Definition probe (c : Z -> R) : R := pieces t d c 0 (u_cell (n - 1)) (u_middle (n - 1)).
Lemma kernel_probe c : in_kernel c -> probe c = 0%R -> forall i, c i = 0%R.
Proof.
  intros Hk Hp. pose proof (kernel_period c Hk) as Hper. destruct Hk as [Hc Hz].
  assert (KN : forall k, t (k + n) = (t k + L)%R) by (intros k; rewrite u_knot; reflexivity).
  set (z := fun j => let q := j / (n + 1) in let r := j mod (n + 1) in ((if r <? n then u_centre r else u_middle (n - 1)) + IZR q * L)%R).
  assert (RED : forall j, exists r q, j = r + q * (n + 1) /\ 0 <= r < n + 1).
  { intros j. exists (j mod (n + 1)), (j / (n + 1)). pose proof (Z.div_mod j (n + 1) ltac:(lia)). pose proof (Z.mod_pos_bound j (n + 1) ltac:(lia)). split; lia. }
  assert (ZV : forall r q, 0 <= r < n + 1 -> z (r + q * (n + 1)) = ((if r <? n then u_centre r else u_middle (n - 1)) + IZR q * L)%R).
  { intros r q Hr. unfold z. rewrite Z.mod_add, Z.div_add, Z.mod_small, Z.div_small by lia. replace (0 + q) with q by lia. reflexivity. }
  destruct (extra_cell t d n L c z (n + 1) m (m + d + 1)) as (k & K); [exact Hd | exact Hn | exact u_cells | exact KN | lia | | | | |].
  - intros j. destruct (RED j) as (r & q & -> & Hr). rewrite (ZV r q Hr).
    destruct (Z.eq_dec r n) as [E|N].
    + rewrite E. replace (n + q * (n + 1) + 1) with (0 + (q + 1) * (n + 1)) by lia. rewrite ZV by lia. rewrite Z.ltb_irrefl.
      replace (0 <? n) with true by lia. rewrite plus_IZR. unfold u_middle, u_centre. replace (n - 1 + m) with (m + (n - 1)) by lia. rewrite u_knot, minus_IZR. unfold L. replace (0 + m) with m by lia. lra.
    + replace (r + q * (n + 1) + 1) with (r + 1 + q * (n + 1)) by lia. rewrite ZV by lia. replace (r <? n) with true by lia.
      destruct (Z.eq_dec (r + 1) n) as [E|N'].
      * replace (r + 1 <? n) with false by lia. unfold u_middle, u_centre. replace (n - 1 + m) with (r + m) by lia. lra.
      * replace (r + 1 <? n) with true by lia. pose proof (u_points r). lra.
  - intros j. destruct (RED j) as (r & q & -> & Hr). replace (r + q * (n + 1) + (n + 1)) with (r + (q + 1) * (n + 1)) by lia. rewrite !ZV by lia. rewrite plus_IZR. ring.
  - intros j. destruct (RED j) as (r & q & -> & Hr). rewrite ZV by lia.
    assert (B : exists k, (t k <= (if r <? n then u_centre r else u_middle (n - 1)) <= t (k + 1)%Z)%R /\ pieces t d c 0 k (if r <? n then u_centre r else u_middle (n - 1)) = 0%R).
    { destruct (r <? n).
      - pose proof (u_nest r) as B. destruct (at_exists t (r + m) (r + m + d + 1) (u_centre r)) as (k & _ & Hk); [lra | lia|]. exists k. split; [exact Hk | apply Hz; exact Hk].
      - exists (u_cell (n - 1)). split; [apply u_cell_middle | exact Hp]. }
    destruct B as (k & B1 & B2). exists (k + q * n). split.
    + replace (k + q * n + 1) with (k + 1 + q * n) by lia. rewrite !u_period. lra.
    + rewrite <- B2. apply (p_pieces t d c 0 (IZR q * L) (q * n)); [intros; apply u_period | intros; apply Hper].
  - replace 0 with (0 + 0 * (n + 1)) by lia. rewrite ZV by lia. replace (0 <? n) with true by lia. pose proof (u_nest 0) as B. replace (0 + m) with m in B by lia. lra.
  - exact (cell_coefficients t d n L c u_centre m Hd Hn u_cells KN Hc u_points u_nest Hz k K).
Qed.
Lemma shift_pieces c k x : pieces t d (fun i => c (i + 1)) 0 k x = pieces t d c 0 (k + 1) (x + h).
Proof.
  unfold pieces. change (Z.of_nat 0) with 0. rewrite Z.sub_0_r. apply zsum_ext. intros r _. cbn [dcoef]. replace (k - d + r + 1) with (k + 1 - d + r) by lia. f_equal.
  unfold V. replace (k + 1 - d + r) with (k - d + r + 1) by lia. symmetry. apply p_cdb. exact step.
Qed.
Lemma shift_kernel c : in_kernel c -> in_kernel (fun i => c (i + 1)).
Proof.
  intros [Hc Hz]. split; [intros i; replace (i + n + 1) with (i + 1 + n) by lia; apply Hc|]. intros i k Hk. rewrite shift_pieces.
  assert (E : (u_centre i + h = u_centre (i + 1)%Z)%R) by (unfold u_centre; replace (i + 1 + m) with (i + m + 1) by lia; rewrite step; ring).
  rewrite E. apply Hz. rewrite <- E, !step. rewrite step in Hk. lra.
Qed.
Theorem uniform_vanishes c : in_kernel c -> forall i, c i = 0%R.
Proof.
  intros Hk. destruct (Req_dec (probe c) 0) as [E|E]; [exact (kernel_probe c Hk E)|].
  pose proof (shift_kernel c Hk) as Hk'. set (c' := fun i => c (i + 1)) in *.
  assert (G : forall i, (probe c * c' i + (- probe c') * c i = 0)%R).
  { apply kernel_probe.
    - destruct Hk as [A1 A2], Hk' as [B1 B2]. split; [intros i; rewrite A1, B1; reflexivity|]. intros i k H. rewrite pieces_linear, (A2 i k H), (B2 i k H). ring.
    - unfold probe at 1. rewrite pieces_linear. fold (probe c) (probe c'). ring. }
  set (lam := (probe c' / probe c)%R).
  assert (LAM : forall i, c (i + 1) = (lam * c i)%R). { intros i. specialize (G i). unfold c' in G at 1. unfold lam. apply Rmult_eq_reg_l with (probe c); [|exact E]. field_simplify; [lra | exact E]. }
  assert (POW : forall (q : nat) i, c (i + Z.of_nat q) = (lam ^ q * c i)%R).
  { induction q as [|q IH]; intros i; [cbn [pow]; replace (i + Z.of_nat 0) with i by lia; ring|]. replace (i + Z.of_nat (S q)) with (i + Z.of_nat q + 1) by lia. rewrite LAM, IH. cbn [pow]. ring. }
  assert (ALL : c 0 = 0%R -> forall i, c i = 0%R).
  { intros E0 i. rewrite <- (kernel_period c Hk (Z.abs i) i). replace (i + Z.abs i * n) with (0 + Z.of_nat (Z.to_nat (i + Z.abs i * n))) by nia. rewrite POW, E0. ring. }
  destruct (Req_dec (c 0) 0) as [E0|E0]; [exact (ALL E0)|].
  assert (ONE : (lam ^ Z.to_nat n = 1)%R).
  { pose proof (POW (Z.to_nat n) 0) as P1. pose proof (proj1 Hk 0) as P2. rewrite Z2Nat.id in P1 by lia. rewrite P2 in P1. apply Rmult_eq_reg_r with (c 0); [lra | exact E0]. }
  assert (SGN : lam = 1%R \/ lam = (-1)%R).
  { assert (AB : Rabs lam = 1%R).
    { assert (P1 : (Rabs lam ^ Z.to_nat n = 1)%R) by (rewrite RPow_abs, ONE; apply Rabs_R1). pose proof (Rabs_pos lam) as P0. destruct (Rtotal_order (Rabs lam) 1) as [C|[C|C]]; [|exact C|].
      - pose proof (pow_lt_1_compat (Rabs lam) (Z.to_nat n) (conj P0 C) ltac:(lia)). lra.
      - pose proof (Rlt_pow_R1 (Rabs lam) (Z.to_nat n) C ltac:(lia)). lra. }
    unfold Rabs in AB. destruct (Rcase_abs lam); [right | left]; lra. }
  destruct SGN as [E1|E1]; rewrite E1 in *.
  - apply ALL. pose proof (u_nest 0) as B. destruct (at_exists t (0 + m) (0 + m + d + 1) (u_centre 0)) as (k & _ & Hc); [lra | lia|].
    pose proof (proj2 Hk 0 k Hc) as Z0. unfold pieces in Z0. change (Z.of_nat 0) with 0 in Z0. rewrite Z.sub_0_r in Z0. cbn [dcoef] in Z0.
    assert (CST : forall i, c i = c 0).
    { intros i. rewrite <- (kernel_period c Hk (Z.abs i) i). replace (i + Z.abs i * n) with (0 + Z.of_nat (Z.to_nat (i + Z.abs i * n))) by nia. rewrite POW, pow1. ring. }
    rewrite (zsum_ext _ _ (fun r => c 0%Z * V t k d r (u_centre 0%Z))%R) in Z0 by (intros r _; rewrite (CST (k - d + r)); reflexivity). rewrite zsum_scal in Z0.
    pose proof (V_sum t k d (mono_cell t d (p_mono t u_cells) k) (u_cells k) d ltac:(lia) ltac:(lia) (u_centre 0)) as U.
    rewrite (sum_f_R0_zsum (fun r => V t k d r (u_centre 0))), Z2Nat.id in U by lia. rewrite U in Z0. lra.
  - exfalso. apply E. unfold probe. apply alternating_zero. intros i. rewrite LAM. ring.
Qed.
End Uniform.
