(** The builder and the evaluator reproduce piecewise polynomials. *)
From Coq Require Import Bool Reals ZArith Lia Lra ZifyBool.
From Coquelicot Require Import Coquelicot.
From Verif Require Import BSplineSpec BSplineMath BSplineDeriv IntegralSpec SplineZeros SplineTower SplineComplete EvaluatorSpec EvaluatorSpace EvaluatorProofs EvaluatorLemmas BuilderSpec BuilderTheorems Spline2DSpec
  Spline2DBuild Spline2DTheorems WellPosedSpec SplineUnique SplineUniquePeriodic WellPosedAlternative WellPosedProofs WellPosedBuild ReproduceSpec ReproduceProofs.
Local Open Scope Z_scope.

Section Axis.
Context (s : bspline_space RA) (A : axis).
Hypothesis HS : space_of s A.
Let d := ax_degree A.
Let ncells := ax_cells A.
Let t := ax_knots A.
Let a := ax_min A.
Let b := ax_max A.
Let F : facts s d (ax_periodic A) ncells t a b := space_facts _ _ _ _ _ _ _ HS.
Let Hd : 1 <= d := f_d _ _ _ _ _ _ _ F.
Let Hn : 1 <= ncells := f_n _ _ _ _ _ _ _ F.
Let mono := f_mono _ _ _ _ _ _ _ F.
Let cells := f_cell _ _ _ _ _ _ _ F.

(** Cells that share a point are the same or neighbours. *)
Lemma neighbours k k' x : d <= k < d + ncells -> d <= k' < d + ncells -> (t k <= x <= t (k + 1)%Z)%R -> (t k' <= x <= t (k' + 1)%Z)%R ->
  k = k' \/ (k' = k + 1 /\ x = t (k + 1)%Z) \/ (k = k' + 1 /\ x = t (k' + 1)%Z).
Proof.
  intros Hk Hk' Hx Hx'. destruct (Z.lt_trichotomy k k') as [L|[E|L]]; [right; left | left; exact E | right; right].
  - assert (~ k + 1 < k'). { intro L'. pose proof (cells (k + 1) ltac:(lia)). pose proof (mono (k + 1 + 1) k' ltac:(lia)). lra. }
    assert (k' = k + 1) by lia. split; [assumption|]. subst k'. lra.
  - assert (~ k' + 1 < k). { intro L'. pose proof (cells (k' + 1) ltac:(lia)). pose proof (mono (k' + 1 + 1) k ltac:(lia)). lra. }
    assert (k = k' + 1) by lia. split; [assumption|]. subst k. lra.
Qed.
Lemma inside_cell k x : d <= k < d + ncells -> (t k <= x <= t (k + 1)%Z)%R -> (a <= x <= b)%R.
Proof.
  intros Hk Hx. rewrite <- (f_first _ _ _ _ _ _ _ F), <- (f_last _ _ _ _ _ _ _ F). pose proof (mono d k ltac:(lia)). pose proof (mono (k + 1) (d + ncells) ltac:(lia)). lra.
Qed.

Definition represents (q : Z -> Z -> R) (c : Z -> R) : Prop := forall k x, d <= k < d + ncells -> pieces t d c 0 k x = polynomial (q k) d x.
Lemma represents_values q c : represents q c -> piecewise t d ncells q (spline t b d ncells c).
Proof. intros H k x Hk Hx. rewrite (spline_on_cell s d (ax_periodic A) ncells t a b F) with (k := k) by assumption. apply H. exact Hk. Qed.
Lemma represents_ext q c c' : represents q c -> (forall i, 0 <= i < ncells + d -> c' i = c i) -> represents q c'.
Proof.
  intros H E k x Hk. rewrite <- (H k x Hk). unfold pieces. apply zsum_ext. intros r Hr. change (Z.of_nat 0) with 0 in *. rewrite !Z.sub_0_r in *. cbn [dcoef]. rewrite E by lia. reflexivity.
Qed.
Lemma represents_unique q c c' : represents q c -> represents q c' -> forall i, 0 <= i < ncells + d -> c i = c' i.
Proof.
  intros H H' i Hi. set (k := Z.max d (Z.min i (d + ncells - 1))). assert (Hk : d <= k < d + ncells) by lia.
  apply (pieces_unique s d (ax_periodic A) ncells t a b F c c' k Hk); [|lia]. intro x. rewrite (H k x Hk), (H' k x Hk). reflexivity.
Qed.
Lemma represents_piece q c k : represents q c -> d <= k < d + ncells -> forall x, spline_piece t k d ncells c x = polynomial (q k) d x.
Proof. intros H Hk x. rewrite <- (pieces_0 s d (ax_periodic A) ncells t a b F) by exact Hk. apply H. exact Hk. Qed.

Theorem evaluates q c : has_coefficients c (ax_size A) -> (ax_periodic A = true -> periodic_coefficients (coefficient c) d ncells) -> smooth (ax_periodic A) t a b d ncells q ->
  represents q (coefficient c) -> evaluates_to s A q c.
Proof.
  intros Hc Hper [Sm _] H. unfold evaluates_to. cbv zeta. fold d ncells t. split; [exact Hc|]. split; [|split].
  - intros m lower upper k x Hk Hx. rewrite <- (represents_values q _ H k x Hk Hx). exact (eval_inside _ _ _ _ _ _ _ HS m lower upper c x Hc (inside_cell k x Hk Hx)).
  - intros m o k x g Ho Hf Hk Hx Hor Hg.
    destruct (deriv_value _ _ _ _ _ _ _ HS m c x o Hc (inside_cell k x Hk Hx) Ho Hf) as (k' & g' & Hk' & _ & Hx' & _ & Hg' & E).
    fold d ncells t in Hk', Hx', Hg'. rewrite E. f_equal. change (num RA) with R.
    assert (Hg2 : nth_derivative (Z.to_nat o) (polynomial (q k') d) g').
    { eapply nth_derivative_ext; [| |exact Hg']; [|reflexivity]. intro y. apply represents_piece; assumption. }
    destruct (neighbours k k' x Hk Hk' Hx Hx') as [E1|[(E1 & E2)|(E1 & E2)]].
    + subst k'. exact (nd_unique _ _ _ _ _ (fun y => eq_refl) Hg2 Hg x).
    + destruct Hor as [Hor|Hor]; [|lra]. subst k'. rewrite E2. symmetry. refine (Sm k _ _ (Z.to_nat o) g g' _ Hg Hg2); lia.
    + subst k. destruct Hor as [Hor|Hor]; [|lra]. rewrite E2. refine (Sm k' _ _ (Z.to_nat o) g' g _ Hg2 Hg); lia.
  - intros m q' junk out f Ho Hfew Hf.
    destruct (integrate_values _ _ _ _ _ _ _ HS m q' junk 1 (fun _ => c) out ltac:(lia) Ho Hfew) as (w & out' & E & L & _ & V).
    { intros j _. split; [exact Hc | exact Hper]. }
    exists out'. split; [exact E|]. split; [exact L|]. destruct (V 0 ltac:(lia)) as [_ I]. unfold integral in *. eapply is_RInt_ext; [|exact I].
    intros x. pose proof (f_ab _ _ _ _ _ _ _ F). rewrite Rmin_left, Rmax_right by (fold a b; lra). intros Hx. destruct (exists_cell _ _ _ _ _ _ _ F x ltac:(fold a b in Hx; lra)) as (k & Hk).
    pose proof (cell_closed _ _ _ _ _ _ _ F x k Hk) as Hx'. destruct Hk as [Hk _]. fold t b d ncells. rewrite (represents_values q _ H k x Hk Hx'), (Hf k x Hk Hx'). reflexivity.
Qed.

(** A spline that is zero on a cell has its coefficients there equal to zero. *)
Lemma vanish_levels c k : d <= k < d + ncells -> (forall x, (t k <= x <= t (k + 1)%Z)%R -> pieces t d c 0 k x = 0%R) -> forall l x, (l <= Z.to_nat d)%nat -> pieces t d c l k x = 0%R.
Proof.
  intros Hk H. pose proof (cells k Hk) as Hlt.
  assert (D : forall l x, (l < Z.to_nat d)%nat -> derivable_pt_lim (pieces t d c l k) x (pieces t d c (S l) k x)).
  { intros l x Hl. apply (pieces_deriv t d mono c l k x); [lia | exact Hlt]. }
  assert (I : forall l, (l <= Z.to_nat d)%nat -> forall x, (t k < x < t (k + 1)%Z)%R -> pieces t d c l k x = 0%R).
  { induction l as [|l IH]; intros Hl x Hx; [apply H; lra|].
    apply (uniqueness_limite (pieces t d c l k) x); [apply D; lia|].
    apply is_derive_Reals. apply (is_derive_ext_loc (fun _ => 0%R)); [|apply is_derive_Reals, derivable_pt_lim_const].
    assert (P : (0 < Rmin (x - t k) (t (k + 1)%Z - x))%R) by (apply Rmin_pos; lra). exists (mkposreal _ P). intros y Hy. symmetry. apply IH; [lia|].
    change (Rabs (y + - x) < Rmin (x - t k) (t (k + 1)%Z - x))%R in Hy. pose proof (Rmin_l (x - t k) (t (k + 1)%Z - x)). pose proof (Rmin_r (x - t k) (t (k + 1)%Z - x)).
    apply Rabs_def2 in Hy. lra. }
  set (z := ((t k + t (k + 1)%Z) / 2)%R). assert (Hz : (t k < z < t (k + 1)%Z)%R) by (unfold z; lra).
  assert (K : forall e l, (l + e)%nat = Z.to_nat d -> forall x, pieces t d c l k x = 0%R).
  { induction e as [|e IH]; intros l Hl x.
    - assert (l = Z.to_nat d) as -> by lia. rewrite <- (I (Z.to_nat d) (le_n _) z Hz). rewrite !(pieces_top t d Hd). reflexivity.
    - assert (Hl2 : (l <= Z.to_nat d)%nat) by lia. assert (Hl3 : (S l + e)%nat = Z.to_nat d) by lia. rewrite <- (I l Hl2 z Hz).
      apply (SplineComplete.zero_derivative (pieces t d c l k)). intro y. rewrite <- (IH (S l) Hl3 y). apply D. lia. }
  intros l x Hl. apply (K (Z.to_nat d - l)%nat). lia.
Qed.
Lemma same_on_cells c c' : (forall k x, d <= k < d + ncells -> (t k <= x <= t (k + 1)%Z)%R -> pieces t d c 0 k x = pieces t d c' 0 k x) -> forall i, 0 <= i < ncells + d -> c i = c' i.
Proof.
  intros H i Hi. set (k := Z.max d (Z.min i (d + ncells - 1))). assert (Hk : d <= k < d + ncells) by lia.
  assert (Z0 : (c i - c' i)%R = 0%R); [|lra]. apply (zero_coefficients t d Hd mono (fun i => c i - c' i)%R k (cells k Hk)); [|lia].
  apply vanish_levels; [exact Hk|]. intros x Hx. rewrite pieces_minus. rewrite (H k x Hk Hx). ring.
Qed.
(** Any smooth piecewise polynomial is a spline. *)
Definition chunk_of (c : Z -> R) : chunk_1d RA := mk_chunk_1d RA 0 (mk_arr (ax_size A) (c : Z -> num RA)).
Theorem all_smooth q : smooth (ax_periodic A) t a b d ncells q ->
  exists c, evaluates_to s A q c /\ (ax_periodic A = true -> periodic_coefficients (coefficient c) d ncells) /\
    forall c', evaluates_to s A q c' -> forall i, 0 <= i < ax_size A -> coefficient c' i = coefficient c i.
Proof.
  intros Sm. destruct (spans s d (ax_periodic A) ncells t a b F q Sm) as (c & P & E). exists (chunk_of c).
  split; [apply evaluates; [split; reflexivity | exact P | exact Sm | exact E]|]. split; [exact P|].
  intros c' (Hc' & V & _). apply same_on_cells. intros k x Hk Hx. change (coefficient (chunk_of c)) with c. rewrite (E k x Hk).
  rewrite <- (spline_on_cell s d (ax_periodic A) ncells t a b F) with (k := k) by assumption.
  pose (m := mk_scratch (A := RA) (fun _ => 0%R) (fun _ => 0%R) (fun _ => 0%R) (fun _ _ => 0%R) (fun _ _ => 0%R) (fun _ _ => 0%R)). pose (r := (fun y _ => Ok y) : rule RA).
  pose proof (eval_inside _ _ _ _ _ _ _ HS m r r c' x Hc' (inside_cell k x Hk Hx)) as E1. rewrite (V m r r k x Hk Hx) in E1.
  assert (Hinj : forall y z : R, @Ok (num RA) y = Ok z -> y = z) by congruence. apply Hinj in E1. symmetry. exact E1.
Qed.
(** A spline is a smooth piecewise polynomial. *)
Theorem only_smooth c : has_coefficients c (ax_size A) -> (ax_periodic A = true -> periodic_coefficients (coefficient c) d ncells) ->
  exists q, smooth (ax_periodic A) t a b d ncells q /\ evaluates_to s A q c.
Proof.
  intros Hc P. destruct (spline_smooth s d (ax_periodic A) ncells t a b F (coefficient c) P) as (q & Sm & V). exists q. split; [exact Sm|].
  destruct (spans s d (ax_periodic A) ncells t a b F q Sm) as (c' & P' & E). apply evaluates; [exact Hc | exact P | exact Sm|].
  apply represents_ext with (c := c'); [exact E|]. apply same_on_cells. intros k x Hk Hx. rewrite (E k x Hk), <- (V k x Hk Hx). symmetry.
  apply (spline_on_cell s d (ax_periodic A) ncells t a b F); assumption.
Qed.

(** Values and derivatives of the piecewise polynomial q are interpolated by the spline equal to q. *)
Lemma interp_of q c v w : (ax_periodic A = true -> periodic_coefficients c d ncells) -> (forall i, 0 <= i < ax_points A -> (a <= ax_point A i <= b)%R) -> represents q c -> sampled A q v w -> interp A v w c.
Proof.
  intros P Hx H [V W]. split; [|split; [|exact P]].
  - intros i Hi. destruct (exists_cell _ _ _ _ _ _ _ F (ax_point A i) (Hx i Hi)) as (k & Hk). pose proof (cell_closed _ _ _ _ _ _ _ F _ k Hk) as Hx'. destruct Hk as [Hk _].
    rewrite (V i k Hi Hk Hx'). exact (represents_values q c H k _ Hk Hx').
  - intros e i Hi. assert (Ho : Z.of_nat (BuilderSpec.order d i) <= d). { unfold BuilderSpec.order. unfold edge_equations in Hi. pose proof (eqs_range s d (ax_periodic A) ncells t a b F (edge_closure A e)). fold d in Hi. pose proof (Z.div_mod d 2 ltac:(lia)). lia. }
    pose proof (polynomial_nd (q (edge_cell A e)) d _ Ho) as G. exists (polynomial (dqs (BuilderSpec.order d i) (q (edge_cell A e))) (d - Z.of_nat (BuilderSpec.order d i))).
    split; [|symmetry; exact (W e i _ Hi G)]. eapply nth_derivative_ext; [| |exact G]; [|reflexivity]. intro y. symmetry. apply represents_piece; [exact H|]. fold d in Hi. clear - Hd Hn. unfold edge_cell. fold d ncells. destruct e; lia.
Qed.
End Axis.


Theorem builder_reproduces : forall A, posed A -> forall solver s bd X, builder_for solver s A bd -> exact_solvers X ->
  forall q, smooth (ax_periodic A) (ax_knots A) (ax_min A) (ax_max A) (ax_degree A) (ax_cells A) q ->
  forall v dl du, sampled A q (a_at v) (asked_1d A dl du) ->
  forall junk sp c, has_coefficients sp (ax_size A) -> build RA s (ax_lower A) (ax_upper A) X bd junk sp v dl du = Ok c -> evaluates_to s A q c.
Proof.
  intros A P solver s bd X B E q Sm v dl du Sa junk sp c Hsp R. pose proof (builder_space _ _ _ _ B) as HS. pose proof (space_facts _ _ _ _ _ _ _ HS) as F.
  destruct (spans _ _ _ _ _ _ _ F q Sm) as (g & Pg & Rg). pose proof (interp_of s A HS q g _ _ Pg (points_inside _ _ _ _ B) Rg Sa) as (I1 & I2 & I3).
  destruct (builder_exact _ _ _ _ _ B E _ _ _ _ _ _ Hsp R) as [Hc I].
  assert (C : forall i, 0 <= i < ax_size A -> coefficient c i = g i).
  { apply (posed_determined A P _ _ _ _ I). split; [exact I1|]. split; [|exact I3]. intros []; [exact (I2 Lower) | exact (I2 Upper)]. }
  apply evaluates; [exact HS | exact Hc | exact (proj2 (proj2 I)) | exact Sm|]. exact (represents_ext s A HS q g _ Rg C).
Qed.

(** Polynomials. *)
Lemma dqs_zero q d l : (forall j, 1 <= j <= d -> q j = 0%R) -> forall j, 0 <= j -> 1 <= j + Z.of_nat l <= d -> dqs l q j = 0%R.
Proof.
  intros H. assert (K : forall l j, 0 <= j -> 1 <= j + Z.of_nat l <= d -> dqs l q j = 0%R); [|exact (K l)].
  clear l. induction l as [|l IH]; intros j Hj Hl; cbn [dqs]; [apply H; lia|]. unfold dq. rewrite IH by lia. ring.
Qed.
Lemma polynomial_smooth s A q : space_of s A -> admitted_polynomial A q -> smooth (ax_periodic A) (ax_knots A) (ax_min A) (ax_max A) (ax_degree A) (ax_cells A) (fun _ => q).
Proof.
  intros HS H. split.
  - intros k _ _ l g g' _ Hg Hg'. exact (nd_unique _ _ _ _ _ (fun y => eq_refl) Hg Hg' _).
  - intros Ep l g g' Hl Hg Hg'. pose proof (polynomial_nd q (ax_degree A) l ltac:(lia)) as G.
    rewrite (nd_unique _ _ _ _ _ (fun y => eq_refl) Hg G), (nd_unique _ _ _ _ _ (fun y => eq_refl) Hg' G).
    set (z := dqs l q 0). assert (K : forall x, polynomial (dqs l q) (ax_degree A - Z.of_nat l) x = z); [|rewrite !K; reflexivity].
    intro x. assert (K2 : forall m, 0 <= m <= ax_degree A - Z.of_nat l -> polynomial (dqs l q) m x = z).
    { intros m [Hm Hm']. revert Hm'. pattern m. apply natlike_ind; [| |exact Hm]; clear m Hm; [intros; apply polynomial_0; lia|].
      intros m Hm IH Hm'. replace (Z.succ m) with (m + 1) by lia. rewrite polynomial_S, IH by lia. rewrite (dqs_zero q (ax_degree A) l (H Ep)) by lia. ring. }
    apply K2. lia.
Qed.
Lemma sampled_constant A q v w : sampled_polynomial A q v w -> sampled A (fun _ => q) v w.
Proof. intros [H1 H2]. split; [intros i k Hi _ _; exact (H1 i Hi) | exact H2]. Qed.
Theorem evaluates_polynomial : forall s A, space_of s A -> forall q, admitted_polynomial A q -> forall c, evaluates_to s A (fun _ => q) c -> evaluates_to_polynomial s A q c.
Proof.
  intros s A HS q Hq c (Hc & V & _ & I). pose proof (space_facts _ _ _ _ _ _ _ HS) as F. pose proof (polynomial_smooth s A q HS Hq) as Sm.
  assert (Cell : forall x, (ax_min A <= x <= ax_max A)%R -> exists k, ax_degree A <= k < ax_degree A + ax_cells A /\ (ax_knots A k <= x <= ax_knots A (k + 1)%Z)%R).
  { intros x Hx. destruct (exists_cell _ _ _ _ _ _ _ F x Hx) as (k & Hk). exists k. split; [exact (proj1 Hk) | exact (cell_closed _ _ _ _ _ _ _ F x k Hk)]. }
  split; [exact Hc|]. split; [|split].
  - intros m lower upper x Hx. destruct (Cell x Hx) as (k & Hk & Hx'). exact (V m lower upper k x Hk Hx').
  - intros m o x g Ho Hf Hx Hg. destruct (deriv_value _ _ _ _ _ _ _ HS m c x o Hc Hx Ho Hf) as (k & g' & Hk & _ & _ & _ & Hg' & E). rewrite E. f_equal.
    destruct (spans _ _ _ _ _ _ _ F _ Sm) as (c' & _ & R0). refine (nd_unique _ _ _ _ _ (represents_piece s A HS (fun _ => q) (coefficient c) k _ Hk) Hg' Hg x).
    apply (represents_ext s A HS _ c' _ R0). apply (same_on_cells s A HS). intros k' y Hk' Hy. rewrite (R0 k' y Hk').
    rewrite <- (spline_on_cell s _ (ax_periodic A) _ _ _ _ F) with (k := k') by assumption.
    pose proof (eval_inside _ _ _ _ _ _ _ HS m (fun y _ => Ok y) (fun y _ => Ok y) c y Hc (inside_cell s A HS k' y Hk' Hy)) as E1. rewrite (V m _ _ k' y Hk' Hy) in E1.
    assert (Hinj : forall y z : R, @Ok (num RA) y = Ok z -> y = z) by congruence. apply Hinj in E1. symmetry. exact E1.
  - intros m q' junk out Ho Hfew. apply I; [exact Ho | exact Hfew|]. intros k x _ _. reflexivity.
Qed.
Theorem builder_reproduces_polynomial : forall A, posed A -> forall solver s bd X, builder_for solver s A bd -> exact_solvers X ->
  forall q, admitted_polynomial A q -> forall v dl du, sampled_polynomial A q (a_at v) (asked_1d A dl du) ->
  forall junk sp c, has_coefficients sp (ax_size A) -> build RA s (ax_lower A) (ax_upper A) X bd junk sp v dl du = Ok c -> evaluates_to_polynomial s A q c.
Proof.
  intros A P solver s bd X B E q Hq v dl du Sa junk sp c Hsp R. pose proof (builder_space _ _ _ _ B) as HS.
  exact (evaluates_polynomial s A HS q Hq c (builder_reproduces A P solver s bd X B E _ (polynomial_smooth s A q HS Hq) v dl du (sampled_constant A q _ _ Sa) junk sp c Hsp R)).
Qed.

(** Quadrature: the weights integrate smooth piecewise polynomials exactly, whether or not the problem has one solution only. *)
Theorem quadrature_reproduces : forall solver s A start coord,
  interpolation solver s (ax_degree A) (ax_periodic A) (ax_cells A) (ax_knots A) (ax_min A) (ax_max A) (ax_lower A) (ax_upper A) start (ax_points A) coord (ax_point A) ->
  forall m bd, builder_construct RA s m solver (ax_lower A) (ax_upper A) start (ax_points A) coord = Ok bd ->
  suited solver (bs_uniform RA s) (ax_periodic A) (ax_knots A) (ax_min A) (ax_max A) (ax_degree A) (ax_cells A) (ax_lower A) (ax_upper A) (ax_point A) (bd_offset bd) ->
  (bs_uniform RA s = true -> ax_periodic A = false -> ax_degree A <= ax_cells A) -> (ax_periodic A = true -> bs_uniform RA s = true \/ bd_offset bd = 0) ->
  none_negligible (shape_of (problem_of solver (bs_uniform RA s) (ax_periodic A) (ax_degree A) (ax_cells A) (ax_lower A) (ax_upper A)))
    (collocation (ax_periodic A) (ax_knots A) (ax_min A) (ax_max A) (ax_degree A) (ax_cells A) (ax_lower A) (ax_upper A) (ax_point A) (bd_offset bd)) ->
  ax_lower A <> HOMOGENEOUS_HERMITE -> ax_upper A <> HOMOGENEOUS_HERMITE ->
  forall X q junk junk_rows (wl w wu : arr R), exact_solvers X ->
  quadrature_coefficients RA s m (ax_lower A) (ax_upper A) X bd q junk junk_rows = Ok (wl, w, wu) ->
  forall p, smooth (ax_periodic A) (ax_knots A) (ax_min A) (ax_max A) (ax_degree A) (ax_cells A) p -> forall v dl du, sampled A p v (asked_1d A dl du) ->
  forall f, piecewise (ax_knots A) (ax_degree A) (ax_cells A) p f ->
  integral f (ax_min A) (ax_max A) (weighted (given_derivatives (ax_lower A) (ax_degree A)) (ax_points A) (given_derivatives (ax_upper A) (ax_degree A)) (a_at wl) (a_at w) (a_at wu)
    (asked (ax_lower A) dl) v (asked (ax_upper A) du)).
Proof.
  intros solver s A start coord IP m bd Hbd Hs Hfew Hoff Hneg Hl Hu X q junk junk_rows wl w wu HX Eq p Sm v dl du Sa f Hf.
  destruct (quadrature_plain _ _ _ _ _ _ _ _ _ _ _ _ _ _ IP m bd Hbd Hs Hfew Hoff Hneg Hl Hu X q junk junk_rows wl w wu HX Eq) as (_ & _ & _ & Q).
  pose proof (i_space _ _ _ _ _ _ _ _ _ _ _ _ _ _ IP) as HS. pose proof (space_facts _ _ _ _ _ _ _ HS) as F.
  destruct (spans _ _ _ _ _ _ _ F p Sm) as (c & Pc & Rc).
  pose proof (interp_of s A HS p c _ _ Pc (fun i Hi => proj2 (i_points _ _ _ _ _ _ _ _ _ _ _ _ _ _ IP i Hi)) Rc Sa) as (I1 & I2 & I3).
  pose proof (Q v dl du c) as K. unfold integral in *. eapply is_RInt_ext; [|apply K; split; [exact I1|]; split; [exact (I2 Lower)|]; split; [exact (I2 Upper) | exact I3]].
  intros x. pose proof (f_ab _ _ _ _ _ _ _ F). rewrite Rmin_left, Rmax_right by lra. intros Hx.
  destruct (exists_cell _ _ _ _ _ _ _ F x ltac:(lra)) as (k & Hk). pose proof (cell_closed _ _ _ _ _ _ _ F x k Hk) as Hx'. destruct Hk as [Hk _].
  rewrite (represents_values s A HS p c Rc k x Hk Hx'), (Hf k x Hk Hx'). reflexivity.
Qed.
Theorem quadrature_polynomial : forall solver s A start coord,
  interpolation solver s (ax_degree A) (ax_periodic A) (ax_cells A) (ax_knots A) (ax_min A) (ax_max A) (ax_lower A) (ax_upper A) start (ax_points A) coord (ax_point A) ->
  forall m bd, builder_construct RA s m solver (ax_lower A) (ax_upper A) start (ax_points A) coord = Ok bd ->
  suited solver (bs_uniform RA s) (ax_periodic A) (ax_knots A) (ax_min A) (ax_max A) (ax_degree A) (ax_cells A) (ax_lower A) (ax_upper A) (ax_point A) (bd_offset bd) ->
  (bs_uniform RA s = true -> ax_periodic A = false -> ax_degree A <= ax_cells A) -> (ax_periodic A = true -> bs_uniform RA s = true \/ bd_offset bd = 0) ->
  none_negligible (shape_of (problem_of solver (bs_uniform RA s) (ax_periodic A) (ax_degree A) (ax_cells A) (ax_lower A) (ax_upper A)))
    (collocation (ax_periodic A) (ax_knots A) (ax_min A) (ax_max A) (ax_degree A) (ax_cells A) (ax_lower A) (ax_upper A) (ax_point A) (bd_offset bd)) ->
  ax_lower A <> HOMOGENEOUS_HERMITE -> ax_upper A <> HOMOGENEOUS_HERMITE ->
  forall X q junk junk_rows (wl w wu : arr R), exact_solvers X ->
  quadrature_coefficients RA s m (ax_lower A) (ax_upper A) X bd q junk junk_rows = Ok (wl, w, wu) ->
  forall p, admitted_polynomial A p -> forall v dl du, sampled_polynomial A p v (asked_1d A dl du) ->
  integral (polynomial p (ax_degree A)) (ax_min A) (ax_max A) (weighted (given_derivatives (ax_lower A) (ax_degree A)) (ax_points A) (given_derivatives (ax_upper A) (ax_degree A)) (a_at wl) (a_at w) (a_at wu)
    (asked (ax_lower A) dl) v (asked (ax_upper A) du)).
Proof.
  intros solver s A start coord IP m bd Hbd Hs Hfew Hoff Hneg Hl Hu X q junk junk_rows wl w wu HX Eq p Hp v dl du Sa.
  apply (quadrature_reproduces solver s A start coord IP m bd Hbd Hs Hfew Hoff Hneg Hl Hu X q junk junk_rows wl w wu HX Eq (fun _ => p)); [|exact (sampled_constant A p _ _ Sa) | intros k x _ _; reflexivity].
  apply (polynomial_smooth s A p (i_space _ _ _ _ _ _ _ _ _ _ _ _ _ _ IP) Hp).
Qed.
