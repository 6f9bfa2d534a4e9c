(** The spline space is the space of smooth piecewise polynomials. *)
From Coq Require Import Bool Reals ZArith Lia Lra ZifyBool.
From Verif Require Import BSplineSpec BSplineMath BSplineDeriv SplineZeros SplineTower SplineComplete EvaluatorSpec EvaluatorSpace EvaluatorProofs EvaluatorLemmas BuilderSpec WellPosedSpec SplineUnique SplineUniquePeriodic
  WellPosedAlternative ReproduceSpec.
Local Open Scope Z_scope.

(** Polynomials and their derivatives. *)
Definition dq (q : Z -> R) (j : Z) : R := (IZR (j + 1) * q (j + 1)%Z)%R.
Fixpoint dqs (l : nat) (q : Z -> R) : Z -> R := match l with O => q | S l' => dq (dqs l' q) end.
Lemma sum_first_nsum n f : sum_first n f = nsum n f. Proof. induction n as [|n IH]; [reflexivity|]. cbn. rewrite IH. reflexivity. Qed.
Lemma polynomial_0 q d x : d <= 0 -> polynomial q d x = q 0.
Proof. intros H. unfold polynomial. replace (Z.to_nat d) with 0%nat by lia. cbn. ring. Qed.
Lemma polynomial_S q d x : 0 <= d -> polynomial q (d + 1) x = (polynomial q d x + q (d + 1)%Z * x ^ Z.to_nat (d + 1))%R.
Proof.
  intros H. unfold polynomial. replace (Z.to_nat (d + 1)) with (S (Z.to_nat d)) by lia. cbn [sum_first].
  replace (Z.of_nat (S (Z.to_nat d))) with (d + 1) by lia. replace (Z.to_nat (d + 1)) with (S (Z.to_nat d)) by lia. reflexivity.
Qed.
Lemma polynomial_ext q q' d x : (forall j, 0 <= j <= Z.max d 0 -> q j = q' j) -> polynomial q d x = polynomial q' d x.
Proof.
  intros H. unfold polynomial. rewrite !sum_first_nsum.
  assert (E : forall f, nsum (S (Z.to_nat d)) f = zsum (Z.of_nat (S (Z.to_nat d))) f) by (intro f; unfold zsum; rewrite Nat2Z.id; reflexivity). rewrite !E.
  apply zsum_ext. intros m Hm. rewrite H by lia. reflexivity.
Qed.
Lemma polynomial_deriv q d x : 0 <= d -> derivable_pt_lim (polynomial q (d + 1)) x (polynomial (dq q) d x).
Proof.
  intros Hd. pattern d. apply natlike_ind; [| |exact Hd]; clear d Hd.
  - eapply dpl_ext; [| |exact (dpl_affine (q 1) (q 0) x)].
    + intros y. rewrite polynomial_S, polynomial_0 by lia. change (Z.to_nat (0 + 1)) with 1%nat. change (0 + 1) with 1. cbn [pow]. ring.
    + rewrite polynomial_0 by lia. unfold dq. change (0 + 1) with 1. ring.
  - intros d Hd IH. replace (Z.succ d) with (d + 1) by lia.
    eapply dpl_ext; [intro y; symmetry; apply (polynomial_S q (d + 1) y ltac:(lia))| | apply dpl_plus; [exact IH | apply dpl_scal; apply derivable_pt_lim_pow]].
    rewrite polynomial_S by lia. f_equal. unfold dq. rewrite INR_IZR_INZ, Z2Nat.id by lia. replace (Init.Nat.pred (Z.to_nat (d + 1 + 1))) with (Z.to_nat (d + 1)) by lia. ring.
Qed.
Lemma polynomial_nd q d l : Z.of_nat l <= d -> nth_derivative l (polynomial q d) (polynomial (dqs l q) (d - Z.of_nat l)).
Proof.
  intros Hl. assert (K : forall l m, Z.of_nat (m + l) <= d -> nth_derivative l (polynomial (dqs m q) (d - Z.of_nat m)) (polynomial (dqs (m + l) q) (d - Z.of_nat (m + l)))).
  { clear l Hl. induction l as [|l IH]; intros m Hm.
    - rewrite Nat.add_0_r. intro x. reflexivity.
    - exists (polynomial (dqs (S m) q) (d - Z.of_nat (S m))). split.
      + intro x. replace (d - Z.of_nat m) with (d - Z.of_nat (S m) + 1) by lia. cbn [dqs]. apply polynomial_deriv. lia.
      + replace (m + S l)%nat with (S m + l)%nat by lia. apply IH. lia. }
  pose proof (K l 0%nat Hl) as E. change (Z.of_nat 0) with 0 in E. rewrite Z.sub_0_r in E. exact E.
Qed.
(** A function whose derivative of order d is constant is a polynomial. *)
Lemma is_polynomial (n : nat) : forall f g, nth_derivative n f g -> (forall x y, g x = g y) -> exists q, forall x, f x = polynomial q (Z.of_nat n) x.
Proof.
  induction n as [|n IH]; intros f g H K.
  - exists (fun _ => f 0%R). intros x. rewrite polynomial_0 by lia. cbn in H. rewrite !H. apply K.
  - destruct H as (h & H1 & H2). destruct (IH h g H2 K) as (q & Hq). set (p := fun j => if j =? 0 then 0%R else (q (j - 1)%Z / IZR j)%R).
    assert (D : forall x, derivable_pt_lim (polynomial p (Z.of_nat (S n))) x (h x)).
    { intros x. replace (Z.of_nat (S n)) with (Z.of_nat n + 1) by lia. rewrite Hq. replace (polynomial q (Z.of_nat n) x) with (polynomial (dq p) (Z.of_nat n) x); [apply polynomial_deriv; lia|].
      apply polynomial_ext. intros j Hj. unfold dq, p. replace (j + 1 =? 0) with false by lia. replace (j + 1 - 1) with j by lia. field. apply not_0_IZR. lia. }
    set (C := (f 0 - polynomial p (Z.of_nat (S n)) 0)%R).
    exists (fun j => if j =? 0 then C else p j). intros x.
    pose proof (same_derivative f (polynomial p (Z.of_nat (S n))) h H1 D x 0%R) as E.
    replace (f x) with (polynomial p (Z.of_nat (S n)) x + C)%R by (unfold C; lra).
    assert (S0 : forall m, 0 <= m -> polynomial (fun j => if j =? 0 then C else p j) m x = (polynomial p m x + C)%R).
    { intros m Hm. pattern m. apply natlike_ind; [| |exact Hm]; clear m Hm.
      - rewrite !polynomial_0 by lia. unfold p. cbn. ring.
      - intros m Hm IHm. replace (Z.succ m) with (m + 1) by lia. rewrite !(polynomial_S _ m) by lia. rewrite IHm. replace (m + 1 =? 0) with false by lia. ring. }
    rewrite S0 by lia. ring.
Qed.

Section Space.
Context (s : bspline_space RA) (d : Z) (periodic : bool) (ncells : Z) (t : Z -> R) (a b : R).
Hypothesis F : facts s d periodic ncells t a b.
Let Hd : 1 <= d := f_d _ _ _ _ _ _ _ F.
Let Hn : 1 <= ncells := f_n _ _ _ _ _ _ _ F.
Let mono := f_mono _ _ _ _ _ _ _ F.
Let cells := f_cell _ _ _ _ _ _ _ F.

(** The derivatives of the polynomials q(k); after the last cell, those of the first one, one period later. *)
Definition levels (q : Z -> Z -> R) (l : nat) (k : Z) (x : R) : R :=
  if k <? d + ncells then polynomial (dqs l (q k)) (d - Z.of_nat l) x else polynomial (dqs l (q (k - ncells))) (d - Z.of_nat l) (x - (b - a)).
Lemma joined_levels q q' y y' l : joined d q q' y y' -> Z.of_nat l < d -> polynomial (dqs l q) (d - Z.of_nat l) y = polynomial (dqs l q') (d - Z.of_nat l) y'.
Proof. intros J Hl. apply (J l); [lia | apply polynomial_nd; lia | apply polynomial_nd; lia]. Qed.
Lemma polynomial_dpl q l x : Z.of_nat l < d -> derivable_pt_lim (polynomial (dqs l q) (d - Z.of_nat l)) x (polynomial (dqs (S l) q) (d - Z.of_nat (S l)) x).
Proof. intros Hl. replace (d - Z.of_nat l) with (d - Z.of_nat (S l) + 1) by lia. cbn [dqs]. apply polynomial_deriv. lia. Qed.
Lemma levels_tower q : smooth periodic t a b d ncells q -> tower (Z.to_nat d) t (levels q) d (d + ncells + if periodic then 1 else 0).
Proof.
  intros [J1 J2]. constructor.
  - intros k Hk. destruct (Z.lt_ge_cases k (d + ncells)) as [L|G]; [apply cells; lia|]. assert (Ep : periodic = true) by (clear - Hk G; destruct periodic; [reflexivity | lia]). rewrite Ep in Hk. assert (k = d + ncells) as -> by lia.
    rewrite (f_period _ _ _ _ _ _ _ F Ep). replace (d + ncells + 1) with (d + 1 + ncells) by lia. rewrite (f_period _ _ _ _ _ _ _ F Ep). pose proof (cells d ltac:(lia)). lra.
  - intros l k x Hl Hk. unfold levels. destruct (k <? d + ncells); [apply polynomial_dpl; lia|].
    set (p := q (k - ncells)). assert (D : derivable_pt_lim (polynomial (dqs l p) (d - Z.of_nat l)) (x - (b - a)) (polynomial (dqs (S l) p) (d - Z.of_nat (S l)) (x - (b - a)))) by (apply polynomial_dpl; lia).
    replace (x - (b - a))%R with (1 * x + - (b - a))%R in D at 1 by ring.
    eapply dpl_ext; [| |exact (derivable_pt_lim_comp (fun y => 1 * y + - (b - a))%R (polynomial (dqs l p) (d - Z.of_nat l)) x 1%R _ (dpl_affine 1 (- (b - a)) x) D)].
    + intro y. unfold comp. f_equal. ring.
    + ring.
  - intros l k Hl H1 H2. unfold levels. replace (k <? d + ncells) with true by (clear - H2; destruct periodic; lia). destruct (k + 1 <? d + ncells) eqn:E.
    + apply joined_levels; [apply J1; lia | lia].
    + assert (Ep : periodic = true) by (clear - H2 E; destruct periodic; [reflexivity | lia]). rewrite Ep in H2. assert (k + 1 = d + ncells) as E1 by lia. rewrite E1. replace (d + ncells - ncells) with d by lia. rewrite (f_last _ _ _ _ _ _ _ F).
      replace k with (d + ncells - 1) by lia. replace (b - (b - a))%R with a by ring. apply joined_levels; [exact (J2 Ep) | lia].
  - intros k x y Hk. unfold levels. replace (d - Z.of_nat (Z.to_nat d)) with 0 by lia. destruct (k <? d + ncells); rewrite !polynomial_0 by lia; reflexivity.
Qed.
Lemma spline_on_cell c k x : d <= k < d + ncells -> (t k <= x <= t (k + 1)%Z)%R -> spline t b d ncells c x = pieces t d c 0 k x.
Proof. intros Hk Hx. rewrite (pieces_0 s d periodic ncells t a b F) by exact Hk. exact (piece_closed s d periodic ncells t a b F k c x Hk Hx). Qed.
Lemma pieces_unique c c' k : d <= k < d + ncells -> (forall x, pieces t d c 0 k x = pieces t d c' 0 k x) -> forall i, k - d <= i <= k -> c i = c' i.
Proof.
  intros Hk H i Hi. assert (Z0 : (c i - c' i)%R = 0%R); [|lra]. apply (zero_coefficients t d Hd mono (fun i => c i - c' i)%R k (cells k Hk)); [|exact Hi].
  intros l x Hl. rewrite pieces_minus. assert (E : pieces t d c l k x = pieces t d c' l k x); [|lra].
  apply (nd_unique l (pieces t d c 0 k) (pieces t d c l k) (pieces t d c' 0 k) (pieces t d c' l k)); [exact H | apply pieces_nd; [exact mono | exact (cells k Hk) | lia] | apply pieces_nd; [exact mono | exact (cells k Hk) | lia]].
Qed.
Theorem spans q : smooth periodic t a b d ncells q -> exists c, (periodic = true -> periodic_coefficients c d ncells) /\ (forall k x, d <= k < d + ncells -> pieces t d c 0 k x = polynomial (q k) d x).
Proof.
  intros S. pose proof (levels_tower q S) as T. destruct (complete t d (levels q) d _ mono T ltac:(lia)) as (c & Hc). { clear - Hn. destruct periodic; lia. }
  assert (P0 : forall k x, d <= k < d + ncells -> pieces t d c 0 k x = polynomial (q k) d x).
  { intros k x Hk. rewrite Hc by (clear - Hk; destruct periodic; lia). unfold levels. replace (k <? d + ncells) with true by lia. change (Z.of_nat 0) with 0. rewrite Z.sub_0_r. reflexivity. }
  exists c. split; [|exact P0]. intros Ep i Hi. rewrite Ep in Hc.
  pose proof (f_period _ _ _ _ _ _ _ F Ep) as per. set (c' := fun i => c (ncells + i)).
  assert (K : forall x, pieces t d c' 0 d x = pieces t d c 0 d x).
  { intros x. rewrite P0 by lia. pose proof (Hc (d + ncells) (x + (b - a))%R ltac:(lia)) as E. unfold levels in E. replace (d + ncells <? d + ncells) with false in E by lia.
    change (Z.of_nat 0) with 0 in E. rewrite Z.sub_0_r in E. cbn [dqs] in E. replace (d + ncells - ncells) with d in E by lia. replace (x + (b - a) - (b - a))%R with x in E by ring. rewrite <- E.
    unfold pieces. change (Z.of_nat 0) with 0. rewrite Z.sub_0_r. apply zsum_ext. intros r Hr. cbn [dcoef]. unfold c'. f_equal; [f_equal; lia|].
    unfold V. replace (d + ncells - d + r) with (d - d + r + ncells) by lia. symmetry. apply p_cdb. exact per. }
  symmetry. apply (pieces_unique c c' d); [lia | intro x; symmetry; apply K | lia].
Qed.
Lemma level_unique c c' k l x : d <= k < d + ncells -> Z.of_nat l <= d -> (forall y, pieces t d c 0 k y = pieces t d c' 0 k y) -> pieces t d c l k x = pieces t d c' l k x.
Proof. intros Hk Hl H. apply (nd_unique l (pieces t d c 0 k) (pieces t d c l k) (pieces t d c' 0 k) (pieces t d c' l k)); [exact H | |]; (apply pieces_nd; [exact mono | exact (cells k Hk) | exact Hl]). Qed.
(** In periodic spaces the derivatives at both ends are the same. *)
Lemma ends_glue c l : periodic = true -> periodic_coefficients c d ncells -> Z.of_nat l < d -> pieces t d c l (d + ncells - 1) b = pieces t d c l d a.
Proof.
  intros Ep Hp Hl. pose proof (f_period _ _ _ _ _ _ _ F Ep) as per. set (e := fun i => c (i mod ncells)).
  assert (Ee : forall n i, (Z.to_nat i < n)%nat -> 0 <= i < ncells + d -> e i = c i).
  { induction n as [|n IH]; intros i Hi Hi'; [lia|]. destruct (Z.lt_ge_cases i ncells) as [L|G]; [unfold e; rewrite Z.mod_small by lia; reflexivity|].
    replace (e i) with (e (i - ncells)) by (unfold e; f_equal; replace i with (i - ncells + 1 * ncells) at 2 by lia; rewrite Z.mod_add by lia; reflexivity).
    rewrite IH by lia. pose proof (Hp (i - ncells) ltac:(lia)) as E. replace (ncells + (i - ncells)) with i in E by lia. symmetry. exact E. }
  assert (Ez : forall i, e (i + ncells) = e i). { intros i. unfold e. f_equal. replace (i + ncells) with (i + 1 * ncells) by lia. apply Z.mod_add. lia. }
  assert (E0 : forall k y, d <= k < d + ncells -> pieces t d c 0 k y = pieces t d e 0 k y).
  { intros k y Hk. unfold pieces. change (Z.of_nat 0) with 0. rewrite Z.sub_0_r. apply zsum_ext. intros r Hr. cbn [dcoef]. rewrite (Ee (S (Z.to_nat (k - d + r)))) by lia. reflexivity. }
  rewrite !(level_unique c e) by first [lia | intro; apply E0; lia].
  pose proof (cells (d + ncells - 1) ltac:(lia)) as C1. replace (d + ncells - 1 + 1) with (d + ncells) in C1 by lia. pose proof (cells d ltac:(lia)) as C0.
  assert (C2 : (t (d + ncells)%Z < t (d + ncells + 1)%Z)%R). { replace (d + ncells + 1) with (d + 1 + ncells) by lia. rewrite !per. lra. }
  pose proof (pieces_glue t d e l (d + ncells - 1) Hl) as G. replace (d + ncells - 1 + 1) with (d + ncells) in G by lia. specialize (G C1 C2). rewrite (f_last _ _ _ _ _ _ _ F) in G. rewrite G.
  pose proof (p_pieces t d e l (b - a) ncells per Ez d a) as PP. replace (a + (b - a))%R with b in PP by ring. exact PP.
Qed.
Theorem spline_smooth c : (periodic = true -> periodic_coefficients c d ncells) -> exists q, smooth periodic t a b d ncells q /\ piecewise t d ncells q (spline t b d ncells c).
Proof.
  intros Hp.
  destruct (finite_choice (fun m p => forall x, pieces t d c 0 (d + m) x = polynomial p d x) (Z.to_nat ncells)) as (f & Hf).
  { intros m Hm. destruct (is_polynomial (Z.to_nat d) (pieces t d c 0 (d + m)) (pieces t d c (Z.to_nat d) (d + m))) as (p & E).
    - apply pieces_nd; [exact mono | apply cells; lia | lia].
    - intros x y. rewrite !pieces_top by exact Hd. reflexivity.
    - exists p. intros x. rewrite E. rewrite Z2Nat.id by lia. reflexivity. }
  set (q := fun k => f (k - d)). assert (Hq : forall k x, d <= k < d + ncells -> pieces t d c 0 k x = polynomial (q k) d x).
  { intros k x Hk. unfold q. rewrite <- (Hf (k - d) ltac:(lia)). replace (d + (k - d)) with k by lia. reflexivity. }
  assert (Hl : forall k l g z, d <= k < d + ncells -> Z.of_nat l < d -> nth_derivative l (polynomial (q k) d) g -> g z = pieces t d c l k z).
  { intros k l g z Hk Hl Hg. symmetry. apply (nd_unique l (pieces t d c 0 k) (pieces t d c l k) (polynomial (q k) d) g); [intro; apply Hq; exact Hk | | exact Hg]. apply pieces_nd; [exact mono | exact (cells k Hk) | lia]. }
  exists q. split; [split|].
  - intros k H1 H2 l g g' Hl' Hg Hg'. rewrite (Hl k l g), (Hl (k + 1) l g') by first [lia | assumption]. apply pieces_glue; [exact Hl' | apply cells; lia | apply cells; lia].
  - intros Ep l g g' Hl' Hg Hg'. rewrite (Hl (d + ncells - 1) l g), (Hl d l g') by first [lia | assumption]. apply ends_glue; [exact Ep | exact (Hp Ep) | exact Hl'].
  - intros k x Hk Hx. rewrite (spline_on_cell c k x Hk Hx). apply Hq. exact Hk.
Qed.
End Space.
