(** The derivatives of a combination of B-splines, on all cells: a tower. *)
From Coq Require Import Reals ZArith Lia Lra.
From Verif Require Import BSplineSpec BSplineMath BSplineDeriv SplineZeros.
Local Open Scope Z_scope.

Section Splines.
Context (t : Z -> R) (d : Z).
Hypothesis Hd : 1 <= d.
Hypothesis mono : forall i j, i <= j -> (t i <= t j)%R.

(** The coefficients of the derivative of order l, of degree d - l. *)
Fixpoint dcoef (c : Z -> R) (l : nat) (i : Z) : R :=
  match l with
  | O => c i
  | S l' => (IZR (d - Z.of_nat l') * ((dcoef c l' i - dcoef c l' (i - 1)) / (t (i + (d - Z.of_nat l'))%Z - t i)))%R
  end.
Definition pieces (c : Z -> R) (l : nat) (k : Z) (x : R) : R :=
  zsum (d - Z.of_nat l + 1) (fun r => dcoef c l (k - (d - Z.of_nat l) + r) * V t k (d - Z.of_nat l) r x)%R.

Lemma mono_cell k : forall a b, k - d + 1 <= a <= b -> b <= k + d -> (t a <= t b)%R.
Proof. intros a b H _. apply mono. lia. Qed.

Lemma pieces_deriv c l k x : (Z.of_nat l < d) -> (t k < t (k + 1)%Z)%R -> derivable_pt_lim (pieces c l k) x (pieces c (S l) k x).
Proof.
  intros Hl Hk. unfold pieces. set (p := d - Z.of_nat l - 1). replace (d - Z.of_nat l) with (p + 1) by lia. replace (d - Z.of_nat (S l)) with p by lia.
  set (g := fun r y => (dcoef c l (k - (p + 1) + r) * (IZR (p + 1) * (Aq t k p (r - 1) y - Aq t k p r y)))%R).
  pose proof (zsum_deriv (p + 1 + 1) (fun r y => dcoef c l (k - (p + 1) + r) * V t k (p + 1) r y)%R g x) as Z1.
  assert (H : forall m, 0 <= m < p + 1 + 1 -> derivable_pt_lim (fun y => dcoef c l (k - (p + 1) + m) * V t k (p + 1) m y)%R x (g m x)).
  { intros m Hm. apply dpl_scal. apply (V_deriv t k d (mono_cell k) Hk); lia. }
  specialize (Z1 H). eapply dpl_ext; [intro y; reflexivity | | exact Z1]. clear Z1 H.
  (* summation by parts *)
  unfold g. set (a := fun r => dcoef c l (k - (p + 1) + r)). set (A := fun r => Aq t k p r x).
  assert (E1 : zsum (p + 1 + 1) (fun m => a m * (IZR (p + 1) * (A (m - 1)%Z - A m)))%R = (IZR (p + 1) * (zsum (p + 1 + 1) (fun m => a m * A (m - 1)%Z)%R + (-1) * zsum (p + 1 + 1) (fun m => a m * A m)%R))%R).
  { rewrite <- zsum_scal, <- zsum_plus, <- zsum_scal. apply zsum_ext. intros m _. ring. }
  change (zsum (p + 1 + 1) (fun m => a m * (IZR (p + 1) * (A (m - 1)%Z - A m)))%R = zsum (p + 1) (fun r => dcoef c (S l) (k - p + r) * V t k p r x)%R).
  rewrite E1. rewrite (zsum_shift (p + 1) (fun m => a m * A (m - 1)%Z)%R) by lia. rewrite (zsum_S (p + 1) (fun m => a m * A m)%R) by lia.
  assert (A0 : A (0 - 1) = 0%R) by (apply Aq_out; lia). assert (A1 : A (p + 1) = 0%R) by (apply Aq_out; lia). rewrite A0, A1.
  assert (E2 : zsum (p + 1) (fun m => a (m + 1)%Z * A (m + 1 - 1)%Z)%R = zsum (p + 1) (fun m => a (m + 1)%Z * A m)%R).
  { apply zsum_ext. intros m _. replace (m + 1 - 1) with m by lia. reflexivity. }
  rewrite E2. replace (a 0%Z * 0 + zsum (p + 1) (fun m => a (m + 1)%Z * A m) + -1 * (zsum (p + 1) (fun m => a m * A m) + a (p + 1)%Z * 0))%R
    with (zsum (p + 1) (fun m => a (m + 1)%Z * A m)%R + -1 * zsum (p + 1) (fun m => a m * A m)%R)%R by ring.
  rewrite <- zsum_scal, <- zsum_plus, <- zsum_scal. apply zsum_ext. intros r Hr. cbn [dcoef]. unfold A. rewrite Aq_in by lia.
  unfold a, G. replace (d - Z.of_nat l) with (p + 1) by lia. replace (k - (p + 1) + (r + 1)) with (k - p + r) by lia. replace (k - (p + 1) + r) with (k - p + r - 1) by lia.
  replace (k - p + r + (p + 1)) with (k + r + 1) by lia. unfold Rdiv. ring.
Qed.
Lemma pieces_top c k x : pieces c (Z.to_nat d) k x = dcoef c (Z.to_nat d) k.
Proof.
  unfold pieces. replace (d - Z.of_nat (Z.to_nat d)) with 0 by lia. rewrite (zsum_S 0) by lia. rewrite zsum_0. rewrite V_0. replace (k - 0 + 0) with k by lia. ring.
Qed.

(** B-splines of degree at least 1 are continuous. *)
Lemma piece_glue p k i : (t k < t (k + 1)%Z)%R -> (t (k + 1)%Z < t (k + 1 + 1)%Z)%R -> bspline_piece t k (S p) i (t (k + 1)%Z) = bspline_piece t (k + 1) (S p) i (t (k + 1)%Z).
Proof.
  intros H1 H2. revert i. induction p as [|p IH]; intros i.
  - unfold bspline_piece. rewrite !cdb_S. cbn [cox_de_boor].
    replace (i + Z.of_nat 1) with (i + 1) by lia.
    destruct (Z.eq_dec i k) as [->|N1].
    + destruct (Z.eq_dec (k + 1) k); [lia|]. destruct (Z.eq_dec k k) as [_|]; [|lia]. destruct (Z.eq_dec k (k + 1)); [lia|]. destruct (Z.eq_dec (k + 1) (k + 1)) as [_|]; [|lia].
      rewrite !ratio_nz by lra. field. lra.
    + destruct (Z.eq_dec (i + 1) k) as [<-|N2].
      * destruct (Z.eq_dec i (i + 1 + 1)); [lia|]. destruct (Z.eq_dec (i + 1) (i + 1 + 1)); [lia|]. rewrite (ratio_nz (t (i + 1 + 1)%Z - t (i + 1 + 1)%Z)) by lra. field. lra.
      * destruct (Z.eq_dec i (k + 1)) as [->|N3].
        -- destruct (Z.eq_dec (k + 1 + 1) (k + 1)); [lia|]. rewrite (ratio_nz (t (k + 1)%Z - t (k + 1)%Z)) by lra. field. lra.
        -- destruct (Z.eq_dec (i + 1) (k + 1)); [lia|]. ring.
  - unfold bspline_piece in *. rewrite (cdb_S _ t (S p)), (cdb_S _ t (S p)). rewrite (IH i), (IH (i + 1)). reflexivity.
Qed.
Lemma pieces_glue c l k : Z.of_nat l < d -> (t k < t (k + 1)%Z)%R -> (t (k + 1)%Z < t (k + 1 + 1)%Z)%R -> pieces c l k (t (k + 1)%Z) = pieces c l (k + 1) (t (k + 1)%Z).
Proof.
  intros Hl H1 H2. unfold pieces. set (p := d - Z.of_nat l). assert (Hp : 1 <= p) by lia. set (x := t (k + 1)%Z). unfold V.
  transitivity (zsum (p + 1 + 1) (fun r => dcoef c l (k - p + r) * bspline_piece t k (Z.to_nat p) (k - p + r) x)%R).
  { rewrite (zsum_S (p + 1)) by lia. rewrite (piece_zero t k (Z.to_nat p) (k - p + (p + 1))) by lia. ring. }
  transitivity (zsum (p + 1 + 1) (fun r => dcoef c l (k - p + r) * bspline_piece t (k + 1) (Z.to_nat p) (k - p + r) x)%R).
  { apply zsum_ext. intros r Hr. f_equal. unfold x. replace (Z.to_nat p) with (S (Z.to_nat (p - 1))) by lia. apply piece_glue; assumption. }
  rewrite (zsum_shift (p + 1)) by lia. rewrite (piece_zero t (k + 1) (Z.to_nat p) (k - p + 0)) by lia. rewrite Rmult_0_r, Rplus_0_l.
  apply zsum_ext. intros r Hr. replace (k - p + (r + 1)) with (k + 1 - p + r) by lia. reflexivity.
Qed.
Lemma spline_tower c lo hi : (forall k, lo <= k < hi -> (t k < t (k + 1)%Z)%R) -> tower (Z.to_nat d) t (pieces c) lo hi.
Proof.
  intros H. constructor.
  - exact H.
  - intros l k x Hl Hk. apply pieces_deriv; [lia | apply H; lia].
  - intros l k Hl H1 H2. apply pieces_glue; [lia | apply H; lia | apply H; lia].
  - intros k x y _. rewrite !pieces_top. reflexivity.
Qed.

(** B-splines are independent on each cell. *)
Lemma zero_coefficients c k : (t k < t (k + 1)%Z)%R -> (forall l x, (l <= Z.to_nat d)%nat -> pieces c l k x = 0%R) -> forall i, k - d <= i <= k -> c i = 0%R.
Proof.
  intros Hk H0.
  assert (K : forall e l, (l + e)%nat = Z.to_nat d -> forall i, k - Z.of_nat e <= i <= k -> dcoef c l i = 0%R).
  { induction e as [|e IH]; intros l Hl i Hi.
    - assert (l = Z.to_nat d) as -> by lia. assert (i = k) as -> by lia. rewrite <- (pieces_top c k 0%R). apply H0. lia.
    - specialize (IH (S l) ltac:(lia)).
      assert (STEP : forall j, k - Z.of_nat (S e) < j <= k -> dcoef c l j = dcoef c l (j - 1)).
      { intros j Hj. specialize (IH j ltac:(lia)). cbn [dcoef] in IH.
        assert (0 < t (j + (d - Z.of_nat l)) - t j)%R as Hg. { pose proof (mono j k ltac:(lia)). pose proof (mono (k + 1) (j + (d - Z.of_nat l)) ltac:(lia)). lra. }
        apply Rmult_integral in IH. destruct IH as [IH|IH]; [apply eq_IZR in IH; lia|].
        unfold Rdiv in IH. apply Rmult_integral in IH. destruct IH as [IH|IH]; [lra|]. exfalso. apply Rinv_neq_0_compat in IH; [exact IH | lra]. }
      assert (ALL : forall n j, (j + Z.of_nat n = k) -> k - Z.of_nat (S e) <= j -> dcoef c l j = dcoef c l k).
      { induction n as [|n IHn]; intros j Hj Hj2; [assert (j = k) as -> by lia; reflexivity|]. rewrite <- (IHn (j + 1)) by lia. rewrite (STEP (j + 1)) by lia. replace (j + 1 - 1) with j by lia. reflexivity. }
      rewrite (ALL (Z.to_nat (k - i)) i) by lia.
      pose proof (H0 l 0%R ltac:(lia)) as Z0. unfold pieces in Z0.
      assert (Z1 : zsum (d - Z.of_nat l + 1) (fun r => dcoef c l (k - (d - Z.of_nat l) + r) * V t k (d - Z.of_nat l) r 0)%R = zsum (d - Z.of_nat l + 1) (fun r => dcoef c l k * V t k (d - Z.of_nat l) r 0)%R).
      { apply zsum_ext. intros r Hr. f_equal. apply (ALL (Z.to_nat (d - Z.of_nat l - r))); lia. }
      rewrite Z1, zsum_scal in Z0. pose proof (V_sum t k d (mono_cell k) Hk (d - Z.of_nat l) ltac:(lia) ltac:(lia) 0%R) as SU.
      rewrite (sum_f_R0_zsum (fun r => V t k (d - Z.of_nat l) r 0%R)) in SU. replace (Z.of_nat (Z.to_nat (d - Z.of_nat l)) + 1) with (d - Z.of_nat l + 1) in SU by lia.
      assert (SU' : zsum (d - Z.of_nat l + 1) (fun r => V t k (d - Z.of_nat l) r 0) = 1%R) by exact SU. rewrite SU' in Z0. lra. }
  intros i Hi. apply (K (Z.to_nat d) 0%nat); lia.
Qed.
(** The derivatives, as polynomials. *)
Lemma pieces_nd c k l : (t k < t (k + 1)%Z)%R -> (Z.of_nat l <= d) -> nth_derivative l (pieces c 0 k) (pieces c l k).
Proof.
  intros Hk Hl. assert (K : forall l m, Z.of_nat (m + l) <= d -> nth_derivative l (pieces c m k) (pieces c (m + l) k)).
  { clear l Hl. induction l as [|l IH]; intros m Hm.
    - rewrite Nat.add_0_r. intro x. reflexivity.
    - exists (pieces c (S m) k). split; [intro x; apply pieces_deriv; [lia | exact Hk]|]. replace (m + S l)%nat with (S m + l)%nat by lia. apply IH. lia. }
  exact (K l 0%nat Hl).
Qed.
(** Linearity. *)
Lemma dcoef_minus c c' l : forall i, dcoef (fun i => c i - c' i)%R l i = (dcoef c l i - dcoef c' l i)%R.
Proof. induction l as [|l IH]; intros i; [reflexivity|]. cbn [dcoef]. rewrite !IH. unfold Rdiv. ring. Qed.
Lemma pieces_minus c c' l k x : pieces (fun i => c i - c' i)%R l k x = (pieces c l k x - pieces c' l k x)%R.
Proof.
  unfold pieces. replace (zsum (d - Z.of_nat l + 1) (fun r => dcoef c l (k - (d - Z.of_nat l) + r) * V t k (d - Z.of_nat l) r x) - zsum (d - Z.of_nat l + 1) (fun r => dcoef c' l (k - (d - Z.of_nat l) + r) * V t k (d - Z.of_nat l) r x))%R
    with (zsum (d - Z.of_nat l + 1) (fun r => dcoef c l (k - (d - Z.of_nat l) + r) * V t k (d - Z.of_nat l) r x) + (-1) * zsum (d - Z.of_nat l + 1) (fun r => dcoef c' l (k - (d - Z.of_nat l) + r) * V t k (d - Z.of_nat l) r x))%R by ring.
  rewrite <- zsum_scal, <- zsum_plus. apply zsum_ext. intros r _. rewrite dcoef_minus. ring.
Qed.
End Splines.
