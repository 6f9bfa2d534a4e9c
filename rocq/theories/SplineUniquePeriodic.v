(** Interpolation by periodic splines on an odd number of cells has at most one solution. *)
From Coq Require Import Reals ZArith Lia Lra Classical.
From Verif Require Import BSplineSpec BSplineMath BSplineDeriv SplineZeros SplineTower.
Local Open Scope Z_scope.

Section Periodic.
Context (t : Z -> R) (d n : Z) (L : R) (c : Z -> R) (x : Z -> R) (shift : Z).
Hypothesis Hd : 1 <= d.
Hypothesis Hn : 1 <= n.
Hypothesis cells : forall k, (t k < t (k + 1)%Z)%R.
Hypothesis period : forall k, t (k + n) = (t k + L)%R.
Hypothesis period_c : forall i, c (i + n) = c i.
Hypothesis points : forall i, (x i < x (i + 1)%Z)%R.
Hypothesis period_x : forall i, x (i + n) = (x i + L)%R.
Hypothesis nest : forall i, (t (i + shift)%Z < x i < t (i + shift + d + 1)%Z)%R.
Let P := pieces t d c.
Hypothesis zeros : forall i k, (t k <= x i <= t (k + 1)%Z)%R -> P 0 k (x i) = 0%R.

Lemma p_step (f : Z -> R) (H : forall i, (f i < f (i + 1)%Z)%R) i j : i < j -> (f i < f j)%R.
Proof.
  clear -H. intros Hij. replace j with (i + Z.of_nat (S (Z.to_nat (j - i - 1)))) by lia. set (m := Z.to_nat (j - i - 1)). clearbody m. clear Hij j.
  induction m as [|m IH].
  - apply H.
  - pose proof (H (i + Z.of_nat (S m))) as K. replace (i + Z.of_nat (S (S m))) with (i + Z.of_nat (S m) + 1) by lia. lra.
Qed.
Lemma p_lt i j : i < j -> (t i < t j)%R. Proof. apply p_step. exact cells. Qed.
Lemma p_mono i j : i <= j -> (t i <= t j)%R.
Proof. intros H. destruct (Z.eq_dec i j) as [->|]; [lra|]. pose proof (p_lt i j ltac:(lia)). lra. Qed.
Lemma x_lt i j : i < j -> (x i < x j)%R. Proof. apply p_step. exact points. Qed.
Lemma p_periods (f : Z -> R) (H : forall i, f (i + n) = (f i + L)%R) (q : nat) i : f (i + Z.of_nat q * n) = (f i + INR q * L)%R.
Proof.
  clear -H. induction q as [|q IH].
  - cbn [INR]. replace (i + Z.of_nat 0 * n) with i by lia. ring.
  - replace (i + Z.of_nat (S q) * n) with (i + Z.of_nat q * n + n) by lia. rewrite H, IH, S_INR. ring.
Qed.
Lemma p_cdb p h m : (forall k, t (k + m) = (t k + h)%R) -> forall k i z, bspline_piece t (k + m) p (i + m) (z + h) = bspline_piece t k p i z.
Proof.
  clear. intros period k. induction p as [|p IH]; intros i z.
  - unfold bspline_piece. cbn [cox_de_boor]. destruct (Z.eq_dec (i + m) (k + m)), (Z.eq_dec i k); try lia; reflexivity.
  - unfold bspline_piece in *. rewrite !cdb_S. replace (i + m + 1) with (i + 1 + m) by lia. rewrite !IH.
    replace (i + m + Z.of_nat (S p)) with (i + Z.of_nat (S p) + m) by lia. replace (i + Z.of_nat (S p) + m + 1) with (i + Z.of_nat (S p) + 1 + m) by lia.
    rewrite !period. f_equal; f_equal; f_equal; ring.
Qed.
Lemma p_dcoef l h m : (forall k, t (k + m) = (t k + h)%R) -> (forall i, c (i + m) = c i) -> forall i, dcoef t d c l (i + m) = dcoef t d c l i.
Proof.
  clear. intros period period_c. induction l as [|l IH]; intros i; [apply period_c|]. cbn [dcoef]. replace (i + m - 1) with (i - 1 + m) by lia. rewrite !IH.
  replace (i + m + (d - Z.of_nat l)) with (i + (d - Z.of_nat l) + m) by lia. rewrite !period.
  replace (t (i + (d - Z.of_nat l))%Z + h - (t i + h))%R with (t (i + (d - Z.of_nat l))%Z - t i)%R by ring. reflexivity.
Qed.
Lemma p_pieces l h m : (forall k, t (k + m) = (t k + h)%R) -> (forall i, c (i + m) = c i) -> forall k z, P l (k + m) (z + h) = P l k z.
Proof.
  intros H1 H2 k z. unfold P, pieces. apply zsum_ext. intros r _. replace (k + m - (d - Z.of_nat l) + r) with (k - (d - Z.of_nat l) + r + m) by lia.
  rewrite (p_dcoef l h m H1 H2). f_equal. unfold V. replace (k + m - (d - Z.of_nat l) + r) with (k - (d - Z.of_nat l) + r + m) by lia. apply p_cdb. exact H1.
Qed.
Lemma c_periods (q : nat) i : c (i + Z.of_nat q * n) = c i.
Proof. induction q as [|q IH]; [f_equal; lia|]. replace (i + Z.of_nat (S q) * n) with (i + Z.of_nat q * n + n) by lia. rewrite period_c. exact IH. Qed.
Lemma p_q l (q : nat) k z : P l (k + Z.of_nat q * n) (z + INR q * L) = P l k z.
Proof. apply p_pieces; [intro; apply p_periods; exact period | apply c_periods]. Qed.
Lemma p_tower lo hi : tower (Z.to_nat d) t P lo hi.
Proof. apply spline_tower; [exact Hd | exact p_mono | intros; apply cells]. Qed.
Lemma at_point lo hi i : (t lo <= x i <= t hi)%R -> lo < hi -> zero_at t P lo hi (x i).
Proof. intros H1 H2. destruct (at_exists t lo hi (x i) H1 H2) as (k & Hk & Hx). exists k. split; [split; assumption | apply zeros; exact Hx]. Qed.

(** A cell where the spline vanishes, on an odd number of cells. *)
Lemma odd_cell : Z.odd n = true -> exists k, forall l z, (l <= Z.to_nat d)%nat -> P l k z = 0%R.
Proof.
  intros Hodd. apply NNPP. intros Hno.
  set (lo := shift). set (Q := Z.to_nat (n + d + 2 + d)). set (hi := shift + d + 1 + Z.of_nat (Q + 1) * n).
  assert (HL : (0 < L)%R). { pose proof (p_lt 0 n ltac:(lia)) as K. pose proof (period 0) as K2. change (0 + n) with n in K2. lra. }
  assert (Hhi : lo < hi) by (unfold lo, hi; nia).
  pose proof (p_tower lo hi) as T.
  assert (X0 : (t lo < x 0)%R). { pose proof (nest 0) as K. unfold lo. change (0 + shift) with shift in K. lra. }
  assert (XN : (x n < t (shift + d + 1 + n)%Z)%R).
  { pose proof (nest 0) as K. change (0 + shift) with shift in K. pose proof (period_x 0) as K1. change (0 + n) with n in K1. rewrite K1, period. lra. }
  assert (TH : (t (shift + d + 1 + n)%Z <= t hi)%R). { apply p_mono. unfold hi. nia. }
  (* the zeros of one period are separated *)
  assert (SEP : forall m : nat, Z.of_nat m <= n -> separated t P lo hi m (x 0) (x (Z.of_nat m))).
  { induction m as [|m IH]; intros Hm.
    - change (Z.of_nat 0) with 0. apply sep_one. apply at_point; [|exact Hhi]. pose proof (x_lt 0 n ltac:(lia)). lra.
    - apply (sep_more t P lo hi m (x 0) (x (Z.of_nat m)) (x (Z.of_nat (S m)))).
      + apply IH. lia.
      + apply x_lt. lia.
      + apply at_point; [|exact Hhi]. pose proof (x_lt 0 (Z.of_nat (S m)) ltac:(lia)). assert (x (Z.of_nat (S m)) <= x n)%R; [|lra]. destruct (Z.eq_dec (Z.of_nat (S m)) n) as [E|N]; [rewrite E; lra | left; apply x_lt; lia].
      + intros V. apply Hno.
        assert (Z1 : forall j, 0 <= j <= n -> zero_at t P lo hi (x j)).
        { intros j Hj. apply at_point; [|exact Hhi]. assert (x 0 <= x j <= x n)%R; [|lra].
          split; [destruct (Z.eq_dec j 0) as [E|N]; [rewrite E; lra | left; apply x_lt; lia] | destruct (Z.eq_dec j n) as [E|N]; [rewrite E; lra | left; apply x_lt; lia]]. }
        destruct (zero_cell (Z.to_nat d) t P lo hi T (x (Z.of_nat m)) (x (Z.of_nat (S m))) (x_lt (Z.of_nat m) (Z.of_nat (S m)) ltac:(lia)) (Z1 (Z.of_nat m) ltac:(lia)) (Z1 (Z.of_nat (S m)) ltac:(lia)) V) as (k & _ & Z0).
        exists k. exact Z0. }
  destruct (Z.to_nat n) as [|M] eqn:EM; [lia|]. specialize (SEP (S M) ltac:(lia)). replace (Z.of_nat (S M)) with n in SEP by lia.
  destruct (sep_alternates (Z.to_nat d) t P lo hi T M (x 0) (x n) ltac:(lia) SEP) as (s & y & s' & z & _ & Hy & Hz & A).
  pose proof (alt_parity _ _ _ _ _ _ _ _ _ _ A) as Ps.
  assert (Ev : Nat.even (S M) = false). { replace (S M) with (Z.to_nat n) by lia. rewrite <- Nat.negb_odd. assert (Nat.odd (Z.to_nat n) = true) as ->; [|reflexivity]. apply Nat.odd_spec. apply Z.odd_spec in Hodd. destruct Hodd as [j Hj]. exists (Z.to_nat j). lia. }
  rewrite Ev in Ps. subst s'.
  (* the same changes of sign in the next periods *)
  assert (COPY : forall q : nat, (q <= Q)%nat -> alternates t P lo hi 1 (S M) s (y + INR q * L) (- s) (z + INR q * L)).
  { intros q Hq. apply (alt_shift t P lo hi 1 (S M) s y (- s) z (x n) (Z.of_nat q * n) (INR q * L) A Hz).
    intros k w [Hk Hw] Hwn. split; [|apply p_q].
    assert (k < shift + d + 1 + n). { destruct (Z.le_gt_cases (shift + d + 1 + n) k) as [C|C]; [|lia]. pose proof (p_mono _ _ C). lra. }
    split; [unfold hi, lo in *; nia|]. replace (k + Z.of_nat q * n + 1) with (k + 1 + Z.of_nat q * n) by lia. rewrite !(p_periods t period). lra. }
  assert (ALL : forall q : nat, (q <= Q)%nat -> alternates t P lo hi 1 (q * (M + 2) + S M) s y (- s) (z + INR q * L)).
  { induction q as [|q IH]; intros Hq.
    - specialize (COPY 0%nat ltac:(lia)). cbn [INR Nat.mul Nat.add] in *. rewrite Rmult_0_l, !Rplus_0_r in COPY. rewrite Rmult_0_l, Rplus_0_r. exact COPY.
    - specialize (IH ltac:(lia)). specialize (COPY (S q) Hq).
      pose proof (alt_app t P lo hi 1 _ s y (- s)%R _ _ s _ _ _ IH COPY) as B. replace (S q * (M + 2) + S M)%nat with (S (q * (M + 2) + S M + S M)) by lia.
      apply B; [ring|]. rewrite S_INR. pose proof (period_x 0) as K1. change (0 + n) with n in K1. lra. }
  specialize (ALL Q ltac:(lia)).
  pose proof (sign_changes (Z.to_nat d) t P lo hi T (pred (Z.to_nat d)) 1 0 0 _ _ _ _ _ ltac:(lia) ltac:(lia) ltac:(lia) ALL ltac:(lia) ltac:(lia)) as B.
  unfold hi, lo in B. assert (Z.of_nat M = n - 1) by lia. assert (Z.of_nat Q = n + d + 2 + d) by (unfold Q; lia).
  rewrite !Nat2Z.inj_add, Nat2Z.inj_mul in B. nia.
Qed.
(** The spline vanishes on one cell, so on all cells. *)
Lemma cell_all k0 : (forall l z, (l <= Z.to_nat d)%nat -> P l k0 z = 0%R) -> forall k, k0 <= k < k0 + n -> forall l z, (l <= Z.to_nat d)%nat -> P l k z = 0%R.
Proof.
  intros Z0 k Hk l z Hl. destruct (Z.eq_dec k k0) as [->|Nk]; [apply Z0; exact Hl|].
  assert (Z1 : forall l z, (l <= Z.to_nat d)%nat -> P l (k0 + n) z = 0%R).
  { intros l' z' Hl'. replace z' with (z' - L + L)%R by ring. rewrite (p_pieces l' L n period period_c). apply Z0. exact Hl'. }
  set (w := k0 + 1 - d).
  assert (LEFT : forall i, (i < Z.to_nat d)%nat -> P i (d + w) (t (d + w)) = 0%R).
  { intros i Hi. replace (d + w) with (k0 + 1) by (unfold w; lia).
    pose proof (pieces_glue t d c i k0 ltac:(lia) (cells k0) (cells (k0 + 1))) as G0. fold P in G0. rewrite <- G0. apply Z0. lia. }
  assert (RIGHT : forall i, (i < Z.to_nat d)%nat -> P i (d + (n - 1) - 1 + w) (t (d + (n - 1) + w)) = 0%R).
  { intros i Hi. replace (d + (n - 1) - 1 + w) with (k0 + n - 1) by (unfold w; lia). replace (d + (n - 1) + w) with (k0 + n) by (unfold w; lia).
    pose proof (pieces_glue t d c i (k0 + n - 1) ltac:(lia) (cells _) (cells _)) as G0. fold P in G0. replace (k0 + n - 1 + 1) with (k0 + n) in G0 by lia. rewrite G0. apply Z1. lia. }
  pose proof (nested_vanishes (Z.to_nat d) (fun i => t (i + w)) (fun l k => P l (k + w)) (n - 1) true true (Z.to_nat (d - 1)) (Z.to_nat (d - 1)) (fun j => x (j + w - shift))) as W.
  replace (Z.of_nat (Z.to_nat d)) with d in W by lia. replace (Z.of_nat (Z.to_nat (d - 1))) with (d - 1) in W by lia. cbn [one_if] in W. cbv beta in W. replace (d - 1 + 1) with d in W by lia.
  replace k with (k - w + w) by lia. apply W; clear W; try lia.
  - constructor.
    + intros j _. replace (j + 1 + w) with (j + w + 1) by lia. apply cells.
    + intros l' j y Hl' _. apply (pieces_deriv t d p_mono); [lia | apply cells].
    + intros l' j Hl' _ _. replace (j + 1 + w) with (j + w + 1) by lia. apply (pieces_glue t d); [lia | apply cells | apply cells].
    + intros j y y' _. unfold P. rewrite !pieces_top by exact Hd. reflexivity.
  - intros _. apply LEFT. lia.
  - intros _. apply RIGHT. lia.
  - intros i Hi. apply LEFT. lia.
  - intros i Hi. apply RIGHT. lia.
  - intros j k' _ [_ Hx]. apply zeros. replace (k' + w + 1) with (k' + 1 + w) by lia. exact Hx.
  - intros j Hj. pose proof (nest (j + w - shift)) as K. replace (j + w - shift + shift) with (j + w) in K by lia.
    pose proof (p_mono (d + w) (j + w) ltac:(lia)). pose proof (p_mono (j + w + d + 1) (d + (n - 1) + w) ltac:(lia)). lra.
  - intros i j _ _ Hij. apply x_lt. lia.
  - intros j _ _. pose proof (nest (j + w - shift)) as K. replace (j + w - shift + shift) with (j + w) in K by lia. lra.
  - intros j _ _. pose proof (nest (j + w - shift)) as K. replace (j + w - shift + shift) with (j + w) in K by lia. replace (j + d + 1 + w) with (j + w + d + 1) by lia. lra.
Qed.
Lemma cell_coefficients k0 : (forall l z, (l <= Z.to_nat d)%nat -> P l k0 z = 0%R) -> forall i, c i = 0%R.
Proof.
  intros Z0 i.
  assert (K : forall i, k0 <= i < k0 + n -> c i = 0%R).
  { intros j Hj. apply (zero_coefficients t d Hd p_mono c j (cells j)); [|lia]. intros l z Hl. apply (cell_all k0 Z0 j Hj l z Hl). }
  assert (E : forall (q : Z) j, c (j + q * n) = c j).
  { intros q j. destruct (Z.le_gt_cases 0 q) as [H|H].
    - replace q with (Z.of_nat (Z.to_nat q)) by lia. apply c_periods.
    - rewrite <- (c_periods (Z.to_nat (- q)) (j + q * n)). f_equal. lia. }
  rewrite <- (E (- ((i - k0) / n)) i). apply K. pose proof (Z.div_mod (i - k0) n ltac:(lia)). pose proof (Z.mod_pos_bound (i - k0) n ltac:(lia)). nia.
Qed.
Theorem periodic_vanishes : Z.odd n = true -> forall i, c i = 0%R.
Proof. intros H. destruct (odd_cell H) as (k & Hk). exact (cell_coefficients k Hk). Qed.
End Periodic.
