(** The integral of a B-spline, from an antiderivative on each cell. *)
From Coq Require Import Bool Reals Lia Lra ZifyBool.
From Coquelicot Require Import Coquelicot.
From Verif Require Import BSplineSpec BSplineMath BSplineDeriv.
Local Open Scope bool_scope. Local Open Scope Z_scope.

Section Knots.
Context (t : Z -> R).
Hypothesis Hmono : forall i j, i <= j -> (t i <= t j)%R.
Notation P := (bspline_piece t).

(** *** continuity at a simple knot *)
Lemma piece_simple c q j : (t (c - 1)%Z < t c)%R -> (t c < t (c + 1)%Z)%R -> P (c - 1) (S q) j (t c) = P c (S q) j (t c).
Proof.
  intros H1 H2. revert j. induction q as [|q IH]; intros j; unfold bspline_piece.
  - rewrite !cdb_S. cbn [cox_de_boor Z.of_nat Pos.of_succ_nat].
    destruct (Z.eq_dec j (c - 1)) as [->|N1].
    + destruct (Z.eq_dec (c - 1) c); [lia|]. destruct (Z.eq_dec (c - 1 + 1) (c - 1)); [lia|]. destruct (Z.eq_dec (c - 1 + 1) c) as [_|]; [|lia].
      replace (c - 1 + 1 + 1) with (c + 1) by lia. replace (c - 1 + 1) with c by lia. rewrite !ratio_nz by lra. field. lra.
    + destruct (Z.eq_dec j c) as [->|N2].
      * destruct (Z.eq_dec (c + 1) (c - 1)); [lia|]. destruct (Z.eq_dec (c + 1) c); [lia|]. rewrite !ratio_nz by lra. field. lra.
      * destruct (Z.eq_dec (j + 1) (c - 1)) as [E|N3].
        -- destruct (Z.eq_dec (j + 1) c); [lia|]. replace (j + 1 + 1) with c by lia. replace (j + 1) with (c - 1) by lia. rewrite !(ratio_nz _ (t c - t (c - 1)%Z)) by lra. field. lra.
        -- destruct (Z.eq_dec (j + 1) c); [lia|]. ring.
  - rewrite (cdb_S _ t (S q)), (cdb_S _ t (S q) j). unfold bspline_piece in IH. now rewrite !IH.
Qed.
Lemma piece_at_start c q : (t c < t (c + 1)%Z)%R -> P c (S q) c (t c) = 0%R.
Proof.
  intros H. unfold bspline_piece. rewrite cdb_S. rewrite (cdb_zero _ t q (c + 1)).
  - replace (t c - t c)%R with 0%R by ring. unfold ratio. destruct Req_EM_T; unfold Rdiv; ring.
  - intros j Hj. destruct (Z.eq_dec j c); [lia | reflexivity].
Qed.
(** *** reflection and translation *)
Lemma cdb_reflect b b' t' m s q : (forall k, t' k = (s - t (m - k)%Z)%R) -> (forall j, b j = b' (m - 1 - j)) ->
  forall j x, cox_de_boor b t q j x = cox_de_boor b' t' q (m - j - Z.of_nat q - 1) (s - x)%R.
Proof.
  intros Ht Hb. induction q as [|q IH]; intros j x.
  - cbn [cox_de_boor Z.of_nat]. rewrite Hb. f_equal. lia.
  - rewrite !cdb_S, !IH, !Ht.
    replace (m - (m - j - Z.of_nat (S q) - 1)) with (j + Z.of_nat (S q) + 1) by lia.
    replace (m - (m - j - Z.of_nat (S q) - 1 + Z.of_nat (S q))) with (j + 1) by lia.
    replace (m - (m - j - Z.of_nat (S q) - 1 + Z.of_nat (S q) + 1)) with j by lia.
    replace (m - (m - j - Z.of_nat (S q) - 1 + 1)) with (j + Z.of_nat (S q)) by lia.
    replace (m - j - Z.of_nat (S q) - 1 + 1) with (m - j - Z.of_nat q - 1) by lia.
    replace (m - (j + 1) - Z.of_nat q - 1) with (m - j - Z.of_nat (S q) - 1) by lia.
    rewrite Rplus_comm. f_equal; f_equal; f_equal; ring.
Qed.
Lemma cdb_translate b b' m s q : (forall k, t (k + m) = (t k + s)%R) -> (forall j, b' (j + m) = b j) ->
  forall j x, cox_de_boor b' t q (j + m) (x + s) = cox_de_boor b t q j x.
Proof.
  intros Ht Hb. induction q as [|q IH]; intros j x.
  - cbn [cox_de_boor]. apply Hb.
  - rewrite !cdb_S. replace (j + m + 1) with (j + 1 + m) by lia. rewrite !IH.
    replace (j + m + Z.of_nat (S q) + 1) with (j + Z.of_nat (S q) + 1 + m) by lia. replace (j + m + Z.of_nat (S q)) with (j + Z.of_nat (S q) + m) by lia. rewrite !Ht.
    f_equal; f_equal; f_equal; ring.
Qed.
Lemma piece_translate m s c q j x : (forall k, t (k + m) = (t k + s)%R) -> P (c + m) q (j + m) (x + s) = P c q j x.
Proof. intros H. apply cdb_translate; [exact H|]. intros i. destruct (Z.eq_dec (i + m) (c + m)), (Z.eq_dec i c); try lia; reflexivity. Qed.
(** *** clamped ends *)
Lemma piece_left_end c q : (t c < t (c + 1)%Z)%R -> (forall k, k <= c -> t k = t c) -> forall j, c - Z.of_nat q < j -> P c q j (t c) = 0%R.
Proof.
  intros Hc Hl. induction q as [|q IH]; intros j Hj; unfold bspline_piece in *.
  - cbn [cox_de_boor]. destruct (Z.eq_dec j c); [lia | reflexivity].
  - rewrite cdb_S, (IH (j + 1)) by lia. destruct (Z_le_gt_dec j c) as [Hjc|Hjc].
    + rewrite (Hl j Hjc). replace (t c - t c)%R with 0%R by ring. unfold ratio at 1. destruct Req_EM_T; unfold Rdiv; ring.
    + rewrite (cdb_zero _ t q j); [ring|]. intros k Hk. destruct (Z.eq_dec k c); [lia | reflexivity].
Qed.
Lemma piece_right_end c q : (t c < t (c + 1)%Z)%R -> (forall k, c + 1 <= k -> t k = t (c + 1)%Z) -> forall j, P c q j (t (c + 1)%Z) = (if j =? c then 1 else 0)%R.
Proof.
  intros Hc Hr. induction q as [|q IH]; intros j; unfold bspline_piece in *.
  - cbn [cox_de_boor]. destruct (Z.eq_dec j c), (Z.eqb_spec j c); try lia; reflexivity.
  - rewrite cdb_S, !IH. destruct (Z.eqb_spec j c) as [->|N].
    + replace (c + 1 =? c) with false by lia. rewrite (Hr (c + Z.of_nat (S q))) by lia. rewrite ratio_nz by lra. field. lra.
    + destruct (Z.eqb_spec (j + 1) c) as [E|N2]; [|ring].
      rewrite (Hr (j + Z.of_nat (S q) + 1)) by lia. replace (t (c + 1)%Z - t (c + 1)%Z)%R with 0%R by ring. unfold ratio at 2. destruct Req_EM_T; unfold Rdiv; ring.
Qed.

(** *** the antiderivative *)
Section Degree.
Context (p : Z).
Hypothesis Hp : 0 <= p.
Definition W (i : Z) : R := ((t (i + p + 1)%Z - t i) / IZR (p + 1))%R.
(** the sum of the B-splines of degree p + 1 from the i-th to the (i + n - 1)-th, on the cell c *)
Definition Sg (n c i : Z) (x : R) : R := zsum n (fun m => P c (Z.to_nat (p + 1)) (i + m) x).
Lemma piece_V c q j x : P c (Z.to_nat q) j x = V t c q (j - c + q) x.
Proof. unfold V. f_equal. lia. Qed.
Definition mono_at c d : forall i j, c - d + 1 <= i <= j -> j <= c + d -> (t i <= t j)%R := fun i j H _ => Hmono i j (proj2 H).

Lemma Aq_tele c x n : forall i, 0 <= n ->
  zsum n (fun m => IZR (p + 1) * (Aq t c p (i + m - 1) x - Aq t c p (i + m) x))%R = (IZR (p + 1) * (Aq t c p (i - 1) x - Aq t c p (i + n - 1) x))%R.
Proof.
  intros i Hn. pattern n. apply natlike_ind; [| |exact Hn].
  - rewrite zsum_0. replace (i + 0 - 1) with (i - 1) by lia. ring.
  - clear n Hn. intros n Hn IH. unfold Z.succ. rewrite zsum_S, IH by exact Hn. replace (i + (n + 1) - 1) with (i + n) by lia. ring.
Qed.
Lemma Sg_deriv c n i x : (t c < t (c + 1)%Z)%R -> 0 <= n -> c < i + n -> derivable_pt_lim (fun y => W i * Sg n c i y)%R x (P c (Z.to_nat p) i x).
Proof.
  intros Hc Hn Hin.
  assert (D : derivable_pt_lim (Sg n c i) x (IZR (p + 1) * (Aq t c p (i - c + p) x - Aq t c p (i - c + p + n) x))%R).
  { unfold Sg. eapply dpl_ext; [reflexivity| |apply (zsum_deriv n (fun m => P c (Z.to_nat (p + 1)) (i + m)) (fun m x => IZR (p + 1) * (Aq t c p (i - c + p + 1 + m - 1) x - Aq t c p (i - c + p + 1 + m) x))%R)].
    - rewrite Aq_tele by exact Hn. do 3 f_equal; lia.
    - intros m Hm. eapply dpl_ext; [| |apply (V_deriv t c (p + 1) (mono_at c (p + 1)) Hc p Hp ltac:(lia) (i + m - c + (p + 1)) x)].
      + intros y. symmetry. apply piece_V.
      + do 3 f_equal; lia. }
  apply (dpl_scal (W i)) in D. eapply dpl_ext; [reflexivity| |exact D].
  rewrite (Aq_out t c p (i - c + p + n)) by lia. rewrite piece_V. unfold W.
  assert (Hz : IZR (p + 1) <> 0%R) by (apply not_0_IZR; lia).
  destruct (Z_lt_dec (i - c + p) 0); [rewrite Aq_out, V_out by lia; ring|].
  destruct (Z_lt_dec p (i - c + p)); [rewrite Aq_out, V_out by lia; ring|].
  rewrite Aq_in by lia. unfold G. replace (c + (i - c + p) + 1) with (i + p + 1) by lia. replace (c - p + (i - c + p)) with i by lia. field. split; [|exact Hz].
  pose proof (gap t c (p + 1) (mono_at c (p + 1)) Hc p (i - c + p) ltac:(lia) ltac:(lia)) as Hg.
  replace (c + (i - c + p) + 1) with (i + p + 1) in Hg by lia. replace (c - p + (i - c + p)) with i in Hg by lia. lra.
Qed.
Lemma piece_continuous c q i x : (t c < t (c + 1)%Z)%R -> continuous (P c q i) x.
Proof.
  intros Hc. revert i. induction q as [|q IH]; intros i.
  - apply continuous_const.
  - apply (continuous_ext (fun y => plus (mult (ratio (y - t i) (t (i + Z.of_nat (S q))%Z - t i)) (P c q i y))
      (mult (ratio (t (i + Z.of_nat (S q) + 1)%Z - y) (t (i + Z.of_nat (S q) + 1)%Z - t (i + 1)%Z)) (P c q (i + 1) y)))).
    { intros y. unfold bspline_piece. now rewrite cdb_S. }
    apply (continuous_plus (V := R_NormedModule)); apply (continuous_mult (K := R_AbsRing)); try apply IH; unfold ratio; destruct Req_EM_T; try apply continuous_const;
      apply (ex_derive_continuous (K := R_AbsRing) (V := R_NormedModule)); auto_derive; trivial.
Qed.
Lemma cell_integral c n i : (t c < t (c + 1)%Z)%R -> 0 <= n -> c < i + n ->
  is_RInt (P c (Z.to_nat p) i) (t c) (t (c + 1)%Z) (W i * (Sg n c i (t (c + 1)%Z) - Sg n c i (t c)))%R.
Proof.
  intros Hc Hn Hin. replace (W i * (Sg n c i (t (c + 1)%Z) - Sg n c i (t c)))%R with (minus (W i * Sg n c i (t (c + 1)%Z))%R (W i * Sg n c i (t c))%R) by (unfold minus, plus, opp; cbn; ring).
  apply (is_RInt_derive (fun y => W i * Sg n c i y)%R).
  - intros x _. apply is_derive_Reals. now apply Sg_deriv.
  - intros x _. now apply piece_continuous.
Qed.

(** *** consecutive cells *)
Section Cells.
Context (first ncells : Z) (rmax : R).
Hypothesis Hn : 1 <= ncells.
Hypothesis Hcell : forall c, first <= c < first + ncells -> (t c < t (c + 1)%Z)%R.
Hypothesis Hrmax : t (first + ncells) = rmax.
Lemma knot_below c : first <= c < first + ncells -> (t (c + 1)%Z <= rmax)%R.
Proof. intros H. rewrite <- Hrmax. apply Hmono. lia. Qed.
Lemma bspline_cell c q i x : first <= c < first + ncells -> (t c < x < t (c + 1)%Z)%R -> P c q i x = bspline t rmax q i x.
Proof.
  intros Hc Hx. symmetry. apply (bspline_is_piece t c rmax x q i (Z.min c i) (Z.max (c + 1) (i + Z.of_nat q + 1))); try lia.
  - intros. now apply Hmono.
  - left. pose proof (knot_below c Hc). lra.
Qed.
Lemma cells_integral n i k : 0 <= n -> first + ncells <= i + n -> 1 <= k <= ncells ->
  is_RInt (bspline t rmax (Z.to_nat p) i) (t first) (t (first + k)) (W i * (Sg n (first + k - 1) i (t (first + k)) - Sg n first i (t first)))%R.
Proof.
  intros Hn0 Hin Hk. replace k with (1 + (k - 1)) in * by lia. assert (H0 : 0 <= k - 1) by lia. revert Hk. pattern (k - 1). apply natlike_ind; [| |exact H0]; clear k H0.
  - intros Hk. replace (first + (1 + 0)) with (first + 1) by lia. replace (first + 1 - 1) with first by lia.
    eapply is_RInt_ext; [|apply (cell_integral first n i); try lia; apply Hcell; lia].
    intros x. pose proof (Hcell first ltac:(lia)). rewrite Rmin_left, Rmax_right by lra. intros Hx. apply bspline_cell; [lia | exact Hx].
  - intros k Hk IH Hk'. unfold Z.succ in *. specialize (IH ltac:(lia)). replace (first + (1 + (k + 1))) with (first + (1 + k) + 1) by lia. set (c := first + (1 + k)) in *.
    replace (c + 1 - 1) with c by lia.
    assert (E : Sg n (c - 1) i (t c) = Sg n c i (t c)).
    { unfold Sg. apply zsum_ext. intros m _. replace (Z.to_nat (p + 1)) with (S (Z.to_nat p)) by lia. apply piece_simple; [pose proof (Hcell (c - 1) ltac:(lia)) as Hx; replace (c - 1 + 1) with c in Hx by lia; exact Hx | apply Hcell; lia]. }
    replace (W i * (Sg n c i (t (c + 1)%Z) - Sg n first i (t first)))%R with
      (plus (W i * (Sg n (c - 1) i (t c) - Sg n first i (t first)))%R (W i * (Sg n c i (t (c + 1)%Z) - Sg n c i (t c)))%R) by (unfold plus; cbn; rewrite E; ring).
    apply (is_RInt_Chasles (V := R_NormedModule) _ _ (t c)); [exact IH|].
    eapply is_RInt_ext; [|apply (cell_integral c n i); try lia; apply Hcell; lia].
    intros x. pose proof (Hcell c ltac:(lia)). rewrite Rmin_left, Rmax_right by lra. intros Hx. apply bspline_cell; [lia | exact Hx].
Qed.
Lemma domain_integral n i : 0 <= n -> first + ncells <= i + n ->
  is_RInt (bspline t rmax (Z.to_nat p) i) (t first) rmax (W i * (Sg n (first + ncells - 1) i rmax - Sg n first i (t first)))%R.
Proof. intros Hn0 Hin. pose proof (cells_integral n i ncells Hn0 Hin ltac:(lia)) as H. rewrite Hrmax in H. exact H. Qed.
(** *** clamped knots *)
Lemma Sg_left n i : (forall k, k <= first -> t k = t first) -> first - p <= i -> Sg n first i (t first) = 0%R.
Proof.
  intros Hl Hi. unfold Sg. apply zsum_zero. intros m Hm. apply piece_left_end; [apply Hcell; lia | exact Hl | lia].
Qed.
Lemma zsum_delta n k (v : R) : 0 <= k < n -> zsum n (fun m => if m =? k then v else 0%R) = v.
Proof.
  intros Hk. replace n with (k + 1 + (n - k - 1)) by lia. assert (H0 : 0 <= n - k - 1) by lia. pattern (n - k - 1). apply natlike_ind; [| |exact H0].
  - replace (k + 1 + 0) with (k + 1) by lia. rewrite zsum_S by lia. rewrite zsum_zero; [rewrite Z.eqb_refl; ring|]. intros m Hm. replace (m =? k) with false by lia. reflexivity.
  - intros j Hj IH. replace (k + 1 + Z.succ j) with (k + 1 + j + 1) by lia. rewrite zsum_S, IH by lia. replace (k + 1 + j =? k) with false by lia. ring.
Qed.
Lemma Sg_right n i : (forall k, first + ncells <= k -> t k = rmax) -> i < first + ncells -> first + ncells <= i + n -> Sg n (first + ncells - 1) i rmax = 1%R.
Proof.
  intros Hr Hi Hin. unfold Sg. rewrite (zsum_ext n _ (fun m => if m =? first + ncells - 1 - i then 1%R else 0%R)).
  - apply zsum_delta. lia.
  - intros m Hm. replace rmax with (t (first + ncells - 1 + 1)%Z) by (rewrite <- Hrmax; f_equal; lia). rewrite piece_right_end.
    + replace (i + m =? first + ncells - 1) with (m =? first + ncells - 1 - i) by lia. reflexivity.
    + apply Hcell. lia.
    + intros k Hk. rewrite !Hr by lia. reflexivity.
Qed.
Lemma open_integral i : (forall k, k <= first -> t k = t first) -> (forall k, first + ncells <= k -> t k = rmax) -> first - p <= i < first + ncells ->
  is_RInt (bspline t rmax (Z.to_nat p) i) (t first) rmax (W i).
Proof.
  intros Hl Hr Hi. pose proof (domain_integral (first + ncells - i) i ltac:(lia) ltac:(lia)) as H.
  rewrite Sg_left, Sg_right in H by (assumption || lia). replace (W i * (1 - 0))%R with (W i) in H by ring. exact H.
Qed.
(** *** all the B-splines that are not zero on a cell *)
Lemma Sg_all n c i x : (t c < t (c + 1)%Z)%R -> i <= c - p - 1 -> c < i + n -> Sg n c i x = 1%R.
Proof.
  intros Hc Hi Hin. pose proof (V_sum t c (p + 1) (mono_at c (p + 1)) Hc (p + 1) ltac:(lia) ltac:(lia) x) as H.
  rewrite (sum_f_R0_zsum (fun r => V t c (p + 1) r x)) in H. rewrite Z2Nat.id in H by lia. unfold Sg.
  rewrite (zsum_ext n _ (fun m => V t c (p + 1) (i + m - c + (p + 1)) x)) by (intros; apply piece_V).
  set (k := c - p - 1 - i). replace n with (k + (p + 1 + 1) + (n - k - p - 2)) by lia.
  assert (A : forall u v (f : Z -> R), 0 <= u -> 0 <= v -> zsum (u + v) f = (zsum u f + zsum v (fun m => f (u + m)%Z))%R).
  { intros u v f Hu Hv. pattern v. apply natlike_ind; [| |exact Hv]; [rewrite zsum_0; replace (u + 0) with u by lia; ring|].
    intros w Hw IH. unfold Z.succ. replace (u + (w + 1)) with (u + w + 1) by lia. rewrite !zsum_S, IH by lia. ring. }
  rewrite (A (k + (p + 1 + 1))), (A k) by lia. rewrite (zsum_zero k), (zsum_zero (n - k - p - 2)).
  - rewrite <- H. rewrite Rplus_0_l, Rplus_0_r. apply zsum_ext. intros m Hm. f_equal. lia.
  - intros m Hm. apply V_out; lia.
  - intros m Hm. apply V_out; lia.
Qed.
Lemma Sg_beyond n c i x : c < i -> Sg n c i x = 0%R.
Proof. intros H. unfold Sg. apply zsum_zero. intros m Hm. apply piece_zero. lia. Qed.
Lemma Sg_enough n n' c i x : 0 <= n -> 0 <= n' -> c < i + n -> c < i + n' -> Sg n c i x = Sg n' c i x.
Proof.
  assert (L : forall n n', 0 <= n <= n' -> c < i + n -> Sg n c i x = Sg n' c i x).
  { intros u v Huv Hu. replace v with (u + (v - u)) by lia. assert (H0 : 0 <= v - u) by lia. pattern (v - u). apply natlike_ind; [f_equal; lia| |exact H0].
    intros w Hw IH. unfold Sg in *. replace (u + Z.succ w) with (u + w + 1) by lia. rewrite zsum_S, <- IH by lia. rewrite piece_zero by lia. ring. }
  intros. destruct (Z_le_gt_dec n n'); [apply L; lia | symmetry; apply L; lia].
Qed.
(** *** periodic knots *)
Section Periodic.
Hypothesis Hper : forall k, t (k + ncells) = (t k + (rmax - t first))%R.
Lemma per_cell c : (t c < t (c + 1)%Z)%R.
Proof.
  assert (H : forall j, 0 <= j -> forall c, first <= c < first + ncells -> (t (c + j * ncells) < t (c + j * ncells + 1))%R /\ (t (c - j * ncells) < t (c - j * ncells + 1))%R).
  { intros j Hj. pattern j. apply natlike_ind; [| |exact Hj]; clear j Hj.
    - intros k Hk. replace (k + 0 * ncells) with k by lia. replace (k - 0 * ncells) with k by lia. split; now apply Hcell.
    - intros j Hj IH k Hk. destruct (IH k Hk) as [I1 I2]. split.
      + replace (k + Z.succ j * ncells) with (k + j * ncells + ncells) by lia. replace (k + j * ncells + ncells + 1) with (k + j * ncells + 1 + ncells) by lia. rewrite !Hper. lra.
      + pose proof (Hper (k - Z.succ j * ncells)) as E1. pose proof (Hper (k - Z.succ j * ncells + 1)) as E2.
        replace (k - Z.succ j * ncells + ncells) with (k - j * ncells) in E1 by lia. replace (k - Z.succ j * ncells + 1 + ncells) with (k - j * ncells + 1) in E2 by lia. lra. }
  pose proof (Z.div_mod (c - first) ncells ltac:(lia)) as E. pose proof (Z.mod_pos_bound (c - first) ncells ltac:(lia)) as B.
  set (k := (c - first) / ncells) in *. set (m := (c - first) mod ncells) in *.
  destruct (Z_le_gt_dec 0 k) as [Hk|Hk].
  - destruct (H k Hk (first + m) ltac:(lia)) as [I _]. replace (first + m + k * ncells) with c in I by lia. exact I.
  - destruct (H (- k) ltac:(lia) (first + m) ltac:(lia)) as [_ I]. replace (first + m - - k * ncells) with c in I by lia. exact I.
Qed.
Lemma Sg_wrap n i : Sg n (first + ncells - 1) i rmax = Sg n first (i - ncells) (t first).
Proof.
  unfold Sg. apply zsum_ext. intros m _. replace (Z.to_nat (p + 1)) with (S (Z.to_nat p)) by lia.
  rewrite <- Hrmax. rewrite piece_simple.
  - rewrite (Hper first). replace (i + m) with (i - ncells + m + ncells) by lia. now apply piece_translate.
  - pose proof (per_cell (first + ncells - 1)) as H. now replace (first + ncells - 1 + 1) with (first + ncells) in H by lia.
  - apply per_cell.
Qed.
Lemma W_period i : W (i + ncells) = W i.
Proof. unfold W. replace (i + ncells + p + 1) with (i + p + 1 + ncells) by lia. rewrite !Hper. f_equal. ring. Qed.
(** the copies i, i + ncells, ..., i + (k - 1) ncells of a basis function *)
Lemma copies_integral n i k : 0 <= n -> first + ncells <= i + n -> 0 <= k -> exists v : R,
  is_RInt (fun x => zsum k (fun m => bspline t rmax (Z.to_nat p) (i + m * ncells) x)) (t first) rmax v /\
  v = (W i * (Sg (n + ncells) first (i - ncells) (t first) - Sg (n + ncells) first (i + (k - 1) * ncells) (t first)))%R.
Proof.
  intros Hn0 Hin Hk. pattern k. apply natlike_ind; [| |exact Hk]; clear k Hk.
  - exists 0%R. split.
    + apply (is_RInt_ext (fun _ => 0%R)); [reflexivity|]. pose proof (is_RInt_const (V := R_NormedModule) (t first) rmax 0%R) as H.
      refine (eq_ind _ (fun v => is_RInt _ _ _ v) H _ _). apply Rmult_0_r.
    + replace (i + (0 - 1) * ncells) with (i - ncells) by lia. ring.
  - intros k Hk (v & Hv & Ev). eexists. split.
    + eapply is_RInt_ext; [|apply (is_RInt_plus (V := R_NormedModule) _ _ _ _ _ _ Hv (domain_integral (n + ncells) (i + k * ncells) ltac:(lia) ltac:(nia)))].
      intros x _. unfold Z.succ. rewrite zsum_S by exact Hk. reflexivity.
    + rewrite Ev. unfold plus. cbn. assert (EW : W (i + k * ncells) = W i).
      { pattern k. apply natlike_ind; [f_equal; lia| |exact Hk]. intros j Hj IH. replace (i + Z.succ j * ncells) with (i + j * ncells + ncells) by lia. now rewrite W_period. }
      rewrite EW, Sg_wrap. replace (i + k * ncells - ncells) with (i + (k - 1) * ncells) by lia. replace (i + (Z.succ k - 1) * ncells) with (i + k * ncells) by lia.
      ring.
Qed.
Lemma copies_count n i N (f : Z -> R) : 1 <= n -> 0 <= i < n -> 0 <= N ->
  zsum N (fun j => if j mod n =? i then f j else 0%R) = zsum ((N - i + n - 1) / n) (fun m => f (i + m * n)).
Proof.
  intros Hn1 Hi HN. pattern N. apply natlike_ind; [| |exact HN]; clear N HN.
  - rewrite zsum_0. rewrite Z.div_small by lia. reflexivity.
  - intros N HN IH. unfold Z.succ. rewrite zsum_S, IH by exact HN. pose proof (Z.div_mod N n ltac:(lia)) as E. pose proof (Z.mod_pos_bound N n ltac:(lia)) as B.
    destruct (Z.eqb_spec (N mod n) i) as [Ei|Ei].
    + assert (E1 : (N - i + n - 1) / n = N / n) by (symmetry; apply (Z.div_unique _ n _ (n - 1)); lia).
      assert (E2 : (N + 1 - i + n - 1) / n = N / n + 1) by (symmetry; apply (Z.div_unique _ n _ 0); lia).
      rewrite E1, E2, zsum_S by (apply Z.div_pos; lia). replace (i + N / n * n) with N by lia. reflexivity.
    + rewrite Rplus_0_r. f_equal. destruct (Z_lt_dec (N mod n) i).
      * transitivity (N / n); [symmetry|]; [apply (Z.div_unique _ n _ (N mod n - i + n - 1)) | apply (Z.div_unique _ n _ (N mod n - i + n))]; lia.
      * transitivity (N / n + 1); [symmetry|]; [apply (Z.div_unique _ n _ (N mod n - i - 1)) | apply (Z.div_unique _ n _ (N mod n - i))]; lia.
Qed.
Lemma periodic_integral i : first = p -> 0 <= i < ncells ->
  is_RInt (fun x => zsum (ncells + p) (fun j => if j mod ncells =? i then bspline t rmax (Z.to_nat p) j x else 0%R)) (t first) rmax (W i).
Proof.
  intros Ef Hi. set (k := (ncells + p - i + ncells - 1) / ncells).
  assert (Hk : ncells + p - i <= k * ncells < ncells + p - i + ncells).
  { unfold k. pose proof (Z.div_mod (ncells + p - i + ncells - 1) ncells ltac:(lia)). pose proof (Z.mod_pos_bound (ncells + p - i + ncells - 1) ncells ltac:(lia)). nia. }
  assert (Hk0 : 0 <= k) by (apply Z.div_pos; lia).
  destruct (copies_integral (first + ncells - i) i k ltac:(lia) ltac:(lia) Hk0) as (v & Hv & Ev).
  rewrite Sg_all in Ev; [|apply per_cell|lia|lia].
  assert (Z0 : Sg (first + ncells - i + ncells) first (i + (k - 1) * ncells) (t first) = 0%R).
  { unfold Sg. apply zsum_zero. intros m Hm. destruct (Z.eq_dec (i + (k - 1) * ncells + m) first) as [->|N].
    - replace (Z.to_nat (p + 1)) with (S (Z.to_nat p)) by lia. apply piece_at_start, per_cell.
    - apply piece_zero. lia. }
  rewrite Z0 in Ev. replace (W i) with v by (rewrite Ev; ring). eapply is_RInt_ext; [|exact Hv]. intros x _. cbn beta. symmetry. apply copies_count; lia.
Qed.
End Periodic.
End Cells.
End Degree.
End Knots.
