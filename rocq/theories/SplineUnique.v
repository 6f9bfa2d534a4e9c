(** Interpolation by splines that are not periodic has at most one solution: the theorem of Schoenberg and Whitney, with derivatives at the ends. *)
From Coq Require Import Reals ZArith Lia Lra.
From Verif Require Import BSplineSpec BSplineMath BSplineDeriv SplineZeros SplineTower EvaluatorSpec EvaluatorSpace EvaluatorProofs EvaluatorLemmas BuilderSpec WellPosedSpec.
Local Open Scope Z_scope.

Section Space.
Context (s : bspline_space RA) (d : Z) (periodic : bool) (ncells : Z) (t : Z -> R) (a b : R).
Hypothesis F : facts s d periodic ncells t a b.

Lemma pieces_0 c k x : d <= k < d + ncells -> pieces t d c 0 k x = spline_piece t k d ncells c x.
Proof.
  intros Hk. rewrite (piece_sum _ _ _ _ _ _ _ F k c x Hk). unfold pieces. change (Z.of_nat 0) with 0. rewrite Z.sub_0_r. apply zsum_ext. intros r _. reflexivity.
Qed.
Lemma space_tower c : tower (Z.to_nat d) t (pieces t d c) d (d + ncells).
Proof. apply spline_tower; [exact (f_d _ _ _ _ _ _ _ F) | exact (f_mono _ _ _ _ _ _ _ F) | exact (f_cell _ _ _ _ _ _ _ F)]. Qed.
Lemma pieces_derivative c k o g z : d <= k < d + ncells -> Z.of_nat o <= d -> nth_derivative o (spline_piece t k d ncells c) g -> pieces t d c o k z = g z.
Proof.
  intros Hk Ho H. apply (nd_unique o (pieces t d c 0 k) (pieces t d c o k) (spline_piece t k d ncells c) g); [intro x; apply pieces_0; exact Hk | | exact H].
  apply pieces_nd; [exact (f_mono _ _ _ _ _ _ _ F) | apply (f_cell _ _ _ _ _ _ _ F); exact Hk | exact Ho].
Qed.

Lemma eqs_range cl : 0 <= equations cl d <= d / 2.
Proof. pose proof (f_d _ _ _ _ _ _ _ F). assert (0 <= d / 2) by (apply Z.div_pos; lia). unfold equations. destruct cl; lia. Qed.

Section Two.
Context (lower upper : closure) (n : Z) (x v : Z -> R) (wl wu : Z -> R) (c c' : Z -> R).
Hypothesis Hn : n = points_expected false d ncells lower upper.
Hypothesis Hin : forall i, 0 <= i < n -> (a <= x i <= b)%R.
Hypothesis Hinc : increasing_points n x.
Hypothesis Hnest : nested t d ncells (equations lower d) n x.
Hypothesis Hanc : anchored d lower upper a b n x.
Hypothesis V1 : takes_values t b d ncells n c x v.
Hypothesis V2 : takes_values t b d ncells n c' x v.
Hypothesis L1 : has_derivatives t d d ncells (equations lower d) c a wl.
Hypothesis L2 : has_derivatives t d d ncells (equations lower d) c' a wl.
Hypothesis U1 : has_derivatives t (d + ncells - 1) d ncells (equations upper d) c b wu.
Hypothesis U2 : has_derivatives t (d + ncells - 1) d ncells (equations upper d) c' b wu.
Let e (i : Z) : R := (c i - c' i)%R.
Let el := equations lower d.
Let eu := equations upper d.

Lemma two_count : n = ncells + d - el - eu /\ 1 <= n /\ 0 <= el /\ 0 <= eu.
Proof.
  pose proof (f_d _ _ _ _ _ _ _ F). pose proof (f_n _ _ _ _ _ _ _ F). pose proof (eqs_range lower) as B1. pose proof (eqs_range upper) as B2. fold el in B1. fold eu in B2.
  assert (d / 2 * 2 <= d) by (rewrite Z.mul_comm; apply Z.mul_div_le; lia).
  unfold points_expected, unknowns in Hn. fold el in Hn. fold eu in Hn. lia.
Qed.
Lemma zero_value k i : 0 <= i < n -> d <= k < d + ncells -> (t k <= x i <= t (k + 1)%Z)%R -> pieces t d e 0 k (x i) = 0%R.
Proof.
  intros Hi Hk Hx. unfold e. rewrite pieces_minus, !pieces_0 by exact Hk.
  rewrite <- !(piece_closed _ _ _ _ _ _ _ F k _ _ Hk Hx). rewrite (V1 i Hi), (V2 i Hi). ring.
Qed.
Lemma zero_derivative k m i z (w : Z -> R) : d <= k < d + ncells -> m <= d / 2 -> has_derivatives t k d ncells m c z w -> has_derivatives t k d ncells m c' z w -> 0 <= i < m ->
  pieces t d e (BuilderSpec.order d i) k z = 0%R.
Proof.
  intros Hk Hm H1 H2 Hi. destruct (H1 i Hi) as (g & G1 & E1). destruct (H2 i Hi) as (g' & G2 & E2).
  pose proof (f_d _ _ _ _ _ _ _ F). assert (Ho : Z.of_nat (BuilderSpec.order d i) <= d).
  { unfold BuilderSpec.order. pose proof (Z.mod_pos_bound d 2 ltac:(lia)). pose proof (Z.div_mod d 2 ltac:(lia)). lia. }
  unfold e. rewrite pieces_minus. rewrite (pieces_derivative c k _ g z Hk Ho G1), (pieces_derivative c' k _ g' z Hk Ho G2). rewrite E1, E2. ring.
Qed.
(** What vanishes at an end: perhaps the value, and the derivatives of orders 1 .. m. *)
Lemma end_zeros k z eqs (w : Z -> R) i0 : d <= k < d + ncells -> (t k <= z <= t (k + 1)%Z)%R -> 0 <= eqs <= d / 2 ->
  has_derivatives t k d ncells eqs c z w -> has_derivatives t k d ncells eqs c' z w -> 0 <= i0 < n -> (Z.odd d = false -> 0 < eqs -> x i0 <> z) ->
  exists (u : bool) (m : nat), (m < Z.to_nat d)%nat /\ (x i0 <> z -> Z.of_nat m + one_if u = eqs) /\ (x i0 = z -> u = true /\ Z.of_nat m + one_if u = eqs + 1) /\
    (u = true -> pieces t d e 0 k z = 0%R) /\ forall l, (l < m)%nat -> pieces t d e (S l) k z = 0%R.
Proof.
  intros Hk Hz He H1 H2 Hi0 Hanc0. pose proof (f_d _ _ _ _ _ _ _ F) as Hd.
  pose proof (Z.div_mod d 2 ltac:(lia)) as DM. pose proof (Z.mod_pos_bound d 2 ltac:(lia)) as MB.
  pose proof (Zmod_odd d) as MO.
  destruct (Z.odd d) eqn:Eo; [|destruct (Z.eq_dec eqs 0) as [E0|N0]].
  - (* odd degrees: derivatives of orders 1 .. eqs *)
    assert (DER : forall l, (l < Z.to_nat eqs)%nat -> pieces t d e (S l) k z = 0%R).
    { intros l Hl. replace (S l) with (BuilderSpec.order d (Z.of_nat l)) by (unfold BuilderSpec.order; lia).
      apply (zero_derivative k eqs (Z.of_nat l) z w Hk ltac:(lia) H1 H2). lia. }
    destruct (Req_EM_T (x i0) z) as [E|E]; [exists true | exists false]; exists (Z.to_nat eqs); cbn [one_if]; repeat split; try lia; try contradiction; try discriminate; try exact DER.
    intros _. rewrite <- E. apply zero_value; [exact Hi0 | exact Hk | rewrite E; exact Hz].
  - (* no derivative *)
    destruct (Req_EM_T (x i0) z) as [E|E]; [exists true | exists false]; exists 0%nat; cbn [one_if]; repeat split; try lia; try contradiction; try discriminate.
    intros _. rewrite <- E. apply zero_value; [exact Hi0 | exact Hk | rewrite E; exact Hz].
  - (* even degrees: the value and derivatives of orders 1 .. eqs - 1 *)
    specialize (Hanc0 eq_refl ltac:(lia)).
    assert (DER : forall l, (l < Z.to_nat eqs)%nat -> pieces t d e l k z = 0%R).
    { intros l Hl. replace l with (BuilderSpec.order d (Z.of_nat l)) by (unfold BuilderSpec.order; lia).
      apply (zero_derivative k eqs (Z.of_nat l) z w Hk ltac:(lia) H1 H2). lia. }
    exists true, (Z.to_nat (eqs - 1)). cbn [one_if]. repeat split; try lia; try contradiction.
    + intros _. apply DER. lia.
    + intros l Hl. apply DER. lia.
Qed.
Lemma unique_coefficients i : 0 <= i < ncells + d -> c i = c' i.
Proof.
  intros Hi. pose proof (f_d _ _ _ _ _ _ _ F) as Hd. pose proof (f_n _ _ _ _ _ _ _ F) as Hc. destruct two_count as (Cn & Cn1 & Cl & Cu).
  pose proof (f_first _ _ _ _ _ _ _ F) as Ta. pose proof (f_last _ _ _ _ _ _ _ F) as Tb.
  destruct (end_zeros d a el wl 0) as (zl & m & Hm & Hm2 & Hm3 & VL & ZL); [lia | | apply eqs_range | exact L1 | exact L2 | lia | |].
  { pose proof (f_cell _ _ _ _ _ _ _ F d ltac:(lia)). lra. }
  { intros Eo H. pose proof (proj1 (Hanc Eo) H). lra. }
  destruct (end_zeros (d + ncells - 1) b eu wu (n - 1)) as (zr & r & Hr & Hr2 & Hr3 & VR & ZR); [lia | | apply eqs_range | exact U1 | exact U2 | lia | |].
  { pose proof (f_cell _ _ _ _ _ _ _ F (d + ncells - 1) ltac:(lia)) as K. replace (d + ncells - 1 + 1) with (d + ncells) in * by lia. lra. }
  { intros Eo H. pose proof (proj2 (Hanc Eo) H). lra. }
  assert (Ml : Z.of_nat m + one_if zl = el \/ Z.of_nat m + one_if zl = el + 1) by (destruct (Req_dec (x 0) a) as [E|E]; [right; exact (proj2 (Hm3 E)) | left; exact (Hm2 E)]).
  assert (Mr : Z.of_nat r + one_if zr = eu \/ Z.of_nat r + one_if zr = eu + 1) by (destruct (Req_dec (x (n - 1)) b) as [E|E]; [right; exact (proj2 (Hr3 E)) | left; exact (Hr2 E)]).
  assert (Z0 : forall k, d <= k < d + ncells -> forall l y, (l <= Z.to_nat d)%nat -> pieces t d e l k y = 0%R).
  { assert (Dd : Z.of_nat (Z.to_nat d) = d) by lia.
    assert (INNER : forall j, Z.of_nat m + one_if zl <= j < d + ncells - (Z.of_nat r + one_if zr) -> 0 <= j - el < n /\ (a < x (j - el)%Z < b)%R).
    { intros j Hj. assert (Hj' : 0 <= j - el < n) by lia. split; [exact Hj'|]. pose proof (Hin _ Hj') as Hb.
      pose proof (Hin 0 ltac:(lia)) as B0. pose proof (Hin (n - 1) ltac:(lia)) as B1. split.
      - destruct (Req_dec (x 0) a) as [E|E].
        + specialize (Hm3 E). pose proof (Hinc 0 (j - el) ltac:(lia) ltac:(lia) ltac:(lia)). lra.
        + destruct (Z.eq_dec (j - el) 0) as [->|N]; [lra|]. pose proof (Hinc 0 (j - el) ltac:(lia) ltac:(lia) ltac:(lia)). lra.
      - destruct (Req_dec (x (n - 1)%Z) b) as [E|E].
        + specialize (Hr3 E). pose proof (Hinc (j - el) (n - 1) ltac:(lia) ltac:(lia) ltac:(lia)). lra.
        + destruct (Z.eq_dec (j - el) (n - 1)) as [->|N]; [lra|]. pose proof (Hinc (j - el) (n - 1) ltac:(lia) ltac:(lia) ltac:(lia)). lra. }
    pose proof (nested_vanishes (Z.to_nat d) t (pieces t d e) ncells zl zr m r (fun j => x (j - el))) as W. rewrite Dd in W. cbv beta in W.
    apply W; clear W.
    - lia.
    - apply space_tower.
    - exact Hm.
    - exact Hr.
    - rewrite Ta. exact VL.
    - rewrite Tb. exact VR.
    - rewrite Ta. exact ZL.
    - rewrite Tb. exact ZR.
    - destruct zl; [left; reflexivity|]. destruct zr; [right; left; reflexivity|]. right. right. exists el. cbn [one_if] in *.
      destruct (Req_dec (x 0) a) as [E|E]; [|specialize (Hm2 E)].
      + destruct (Hm3 E). discriminate.
      + destruct (Req_dec (x (n - 1)) b) as [E'|E']; [|specialize (Hr2 E'); lia]. destruct (Hr3 E'). discriminate.
    - intros j k Hj [Hk Hx]. apply zero_value; [apply INNER; exact Hj | exact Hk | exact Hx].
    - rewrite Ta, Tb. intros j Hj. apply INNER. exact Hj.
    - intros i' j Hi' Hj Hlt. destruct (INNER i' Hi') as [Q1 _], (INNER j Hj) as [Q2 _]. apply Hinc; lia.
    - intros j Hj Hdj. destruct (INNER j Hj) as [Q _]. destruct (Hnest (j - el) Q) as [N1 _]. fold el in N1. replace (j - el + el) with j in N1 by lia. apply N1. exact Hdj.
    - intros j Hj Hdj. destruct (INNER j Hj) as [Q _]. destruct (Hnest (j - el) Q) as [_ N2]. fold el in N2. replace (j - el + el) with j in N2 by lia. apply N2. exact Hdj.
    - lia. }
  assert (E0 : e i = 0%R).
  { set (k := Z.max d i). assert (Hk : d <= k < d + ncells) by (unfold k; lia).
    apply (zero_coefficients t d Hd (f_mono _ _ _ _ _ _ _ F) e k (f_cell _ _ _ _ _ _ _ F k Hk) (Z0 k Hk)). unfold k. lia. }
  unfold e in E0. lra.
Qed.
End Two.
End Space.
