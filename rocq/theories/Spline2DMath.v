(** Interpolation in two dimensions from interpolation on the lines. *)
From Coq Require Import Bool ZArith Lia Reals Lra FunctionalExtensionality.
From Verif Require Import Spline2DSpec LoopProofs SamplingProofs LinearProofs2 BSplineDeriv IntegralMath IntegralMath2 IntegralProofs EvaluatorSpace EvaluatorProofs Spline2DProofs.
Local Open Scope bool_scope. Local Open Scope Z_scope.

Lemma interpolates_interp A v dl du c :
  interpolates (ax_periodic A) (ax_knots A) (ax_min A) (ax_max A) (ax_degree A) (ax_cells A) (ax_points A) (ax_lower A) (ax_upper A) (ax_point A) v dl du c ->
  interp A v (fun e => match e with Lower => asked (ax_lower A) dl | Upper => asked (ax_upper A) du end) c.
Proof.
  intros (I1 & I2 & I3 & I4). split; [exact I1|]. split; [|exact I4]. intros [|]; [exact I2 | exact I3].
Qed.

Lemma spline_1d_sum A c x : spline_1d A c x = sum_first (Z.to_nat (ax_size A)) (fun i => c i * basis A i x)%R.
Proof. reflexivity. Qed.
Lemma piece_1d_sum A k c x : piece_1d A k c x = sum_first (Z.to_nat (ax_size A)) (fun i => c i * basis_piece A k i x)%R.
Proof. reflexivity. Qed.
Lemma spline_1d_ext A c c' x : (forall i, 0 <= i < ax_size A -> c i = c' i) -> spline_1d A c x = spline_1d A c' x.
Proof. intros H. rewrite !spline_1d_sum, !sum_first_zsum. apply zsum_ext. intros i Hi. now rewrite H. Qed.
Lemma piece_1d_ext A k c c' x : (forall i, 0 <= i < ax_size A -> c i = c' i) -> piece_1d A k c x = piece_1d A k c' x.
Proof. intros H. rewrite !piece_1d_sum, !sum_first_zsum. apply zsum_ext. intros i Hi. now rewrite H. Qed.

Section Axes.
Context (A1 A2 : axis).
Context (s1 s2 : bspline_space RA).
Hypothesis (Sp1 : space_of s1 A1) (Sp2 : space_of s2 A2).
Let F1 := space_facts _ _ _ _ _ _ _ Sp1.
Let F2 := space_facts _ _ _ _ _ _ _ Sp2.
Lemma size1_pos : 1 <= ax_cells A1 /\ 1 <= ax_degree A1. Proof. split; [exact (f_n _ _ _ _ _ _ _ F1) | exact (f_d _ _ _ _ _ _ _ F1)]. Qed.
Lemma size2_pos : 1 <= ax_cells A2 /\ 1 <= ax_degree A2. Proof. split; [exact (f_n _ _ _ _ _ _ _ F2) | exact (f_d _ _ _ _ _ _ _ F2)]. Qed.

(** The spline is the iterated spline, in both orders. *)
Lemma spline_2d_rows c x y : spline_2d A1 A2 c x y = spline_1d A1 (fun i => spline_1d A2 (c i) y) x.
Proof. exact (tensor_rows _ _ _ _ _). Qed.
Lemma spline_2d_columns c x y : spline_2d A1 A2 c x y = spline_1d A2 (fun j => spline_1d A1 (fun i => c i j) x) y.
Proof. pose proof size1_pos. pose proof size2_pos. apply tensor_columns; unfold ax_size; lia. Qed.
Lemma piece_2d_rows k1 k2 c x y : piece_2d A1 A2 k1 k2 c x y = piece_1d A1 k1 (fun i => piece_1d A2 k2 (c i) y) x.
Proof. exact (tensor_rows _ _ _ _ _). Qed.

Lemma order_le A (e : side) l : 1 <= ax_degree A -> 0 <= l < edge_equations A e -> 0 <= l + ax_degree A mod 2 <= ax_degree A /\ BuilderSpec.order (ax_degree A) l = Z.to_nat (l + ax_degree A mod 2).
Proof.
  intros Hd Hl. split; [|reflexivity]. assert (edge_equations A e <= ax_degree A / 2) by (unfold edge_equations, equations; destruct (edge_closure A e); lia).
  pose proof (Z.div_mod (ax_degree A) 2 ltac:(lia)). pose proof (Z.mod_pos_bound (ax_degree A) 2 ltac:(lia)). lia.
Qed.
Lemma edge_cell_in A (e : side) : 1 <= ax_cells A -> ax_degree A <= edge_cell A e < ax_degree A + ax_cells A.
Proof. destruct e; cbn [edge_cell]; lia. Qed.
(** The derivative of a piece in the second dimension: [D2 k o v]. *)
Definition D2 (k : Z) (o : Z) (v : Z -> R) (y : R) : R := deriv_sum (ax_degree A2) (ax_knots A2) k o v y.
Lemma D2_nd k o v : ax_degree A2 <= k < ax_degree A2 + ax_cells A2 -> 0 <= o <= ax_degree A2 -> nth_derivative (Z.to_nat o) (piece_1d A2 k v) (D2 k o v).
Proof. intros Hk Ho. exact (deriv_sum_nd _ _ _ _ _ _ _ F2 k o v Hk Ho). Qed.
Lemma derivatives_D2 e c w l : derivatives_1d A2 e c w -> 0 <= l < edge_equations A2 e -> D2 (edge_cell A2 e) (l + ax_degree A2 mod 2) c (edge_point A2 e) = w l.
Proof.
  intros H Hl. destruct (H l Hl) as (g & Hg & <-). pose proof size2_pos as [N D]. destruct (order_le A2 e l D Hl) as [Ho Eo]. rewrite Eo in Hg.
  pose proof (D2_nd (edge_cell A2 e) (l + ax_degree A2 mod 2) c (edge_cell_in A2 e N) Ho) as K.
  exact (nd_unique _ _ _ _ _ (fun x => eq_refl) K Hg (edge_point A2 e)).
Qed.
(** Sums on the first dimension of pieces of the second, and their derivatives. *)
Lemma rows_nd k o (c : Z -> Z -> R) (f : Z -> R) : ax_degree A2 <= k < ax_degree A2 + ax_cells A2 -> 0 <= o <= ax_degree A2 ->
  nth_derivative (Z.to_nat o) (fun y => tensor (ax_size A1) (ax_size A2) c f (fun j => basis_piece A2 k j y))
    (fun y => sum_first (Z.to_nat (ax_size A1)) (fun i => D2 k o (c i) y * f i)%R).
Proof.
  intros Hk Ho. eapply nth_derivative_ext; [| |apply (nd_zsum (Z.to_nat o) (ax_size A1) (fun i y => f i * piece_1d A2 k (c i) y)%R (fun i y => f i * D2 k o (c i) y)%R)].
  - intros y. cbn beta. rewrite tensor_rows, sum_first_zsum. apply zsum_ext. intros i _. rewrite Rmult_comm. reflexivity.
  - intros y. cbn beta. rewrite sum_first_zsum. apply zsum_ext. intros i _. ring.
  - intros i _. apply nd_scal. now apply D2_nd.
Qed.

Context (c sp : Z -> Z -> R) (sd : side -> Z -> Z -> R) (v : Z -> Z -> R).
Context (w1 : side -> Z -> Z -> R) (w2 : side -> Z -> Z -> R) (w12 : side -> side -> Z -> Z -> R).
(** The lines of the second dimension interpolate the splines of the first, which interpolate the values, *)
Hypothesis (L2 : forall i, 0 <= i < ax_size A1 -> interp A2 (sp i) (fun e => sd e i) (c i)).
Hypothesis (L1 : forall j, 0 <= j < ax_points A2 -> interp A1 (fun i => v i j) (fun e k => w1 e k j) (fun i => sp i j)).
(** and the derivatives. *)
Hypothesis (Ld : forall e l, 0 <= l < edge_equations A2 e -> interp A1 (fun i => w2 e i l) (fun e1 k => w12 e1 e k l) (fun i => sd e i l)).

Lemma values_2d i j : 0 <= i < ax_points A1 -> 0 <= j < ax_points A2 -> spline_2d A1 A2 c (ax_point A1 i) (ax_point A2 j) = v i j.
Proof.
  intros Hi Hj. rewrite spline_2d_rows. rewrite (spline_1d_ext A1 _ (fun i => sp i j)) by (intros i' Hi'; now apply (L2 i' Hi')). exact (proj1 (L1 j Hj) i Hi).
Qed.
Lemma edge_1_holds e k j : 0 <= k < edge_equations A1 e -> 0 <= j < ax_points A2 ->
  mixed_derivative (BuilderSpec.order (ax_degree A1) k) 0 (fun x y => tensor (ax_size A1) (ax_size A2) c (fun i => basis_piece A1 (edge_cell A1 e) i x) (fun j => basis A2 j y))
    (edge_point A1 e) (ax_point A2 j) (w1 e k j).
Proof.
  intros Hk Hj. destruct (proj1 (proj2 (L1 j Hj)) e k Hk) as (g & Hg & Eg). cbn beta in Eg.
  exists (fun x y => tensor (ax_size A1) (ax_size A2) c (fun i => basis_piece A1 (edge_cell A1 e) i x) (fun j => basis A2 j y)), g.
  split; [intros x y; reflexivity|]. split; [|exact Eg]. eapply nth_derivative_ext; [| |exact Hg]; [|reflexivity].
  intros x. rewrite tensor_rows. change (piece_1d A1 (edge_cell A1 e) (fun i => sp i j) x = piece_1d A1 (edge_cell A1 e) (fun i => spline_1d A2 (c i) (ax_point A2 j)) x).
  apply piece_1d_ext. intros i Hi. symmetry. now apply (L2 i Hi).
Qed.
Lemma edge_2_holds e i l : 0 <= i < ax_points A1 -> 0 <= l < edge_equations A2 e ->
  mixed_derivative 0 (BuilderSpec.order (ax_degree A2) l) (fun x y => tensor (ax_size A1) (ax_size A2) c (fun i => basis A1 i x) (fun j => basis_piece A2 (edge_cell A2 e) j y))
    (ax_point A1 i) (edge_point A2 e) (w2 e i l).
Proof.
  intros Hi Hl. pose proof size2_pos as [N D]. destruct (order_le A2 e l D Hl) as [Ho ->].
  exists (fun x y => sum_first (Z.to_nat (ax_size A1)) (fun i => D2 (edge_cell A2 e) (l + ax_degree A2 mod 2) (c i) y * basis A1 i x)%R),
    (fun x => spline_1d A1 (fun i => D2 (edge_cell A2 e) (l + ax_degree A2 mod 2) (c i) (edge_point A2 e)) x).
  split; [intros x; apply rows_nd; [now apply edge_cell_in | exact Ho]|]. split; [intros x; reflexivity|].
  rewrite (spline_1d_ext A1 _ (fun i => sd e i l)).
  - exact (proj1 (Ld e l Hl) i Hi).
  - intros i' Hi'. exact (derivatives_D2 e (c i') (sd e i') l (proj1 (proj2 (L2 i' Hi')) e) Hl).
Qed.
Lemma corner_holds e1 e2 k l : 0 <= k < edge_equations A1 e1 -> 0 <= l < edge_equations A2 e2 ->
  mixed_derivative (BuilderSpec.order (ax_degree A1) k) (BuilderSpec.order (ax_degree A2) l) (piece_2d A1 A2 (edge_cell A1 e1) (edge_cell A2 e2) c)
    (edge_point A1 e1) (edge_point A2 e2) (w12 e1 e2 k l).
Proof.
  intros Hk Hl. pose proof size2_pos as [N D]. destruct (order_le A2 e2 l D Hl) as [Ho ->].
  destruct (proj1 (proj2 (Ld e2 l Hl)) e1 k Hk) as (g & Hg & Eg). cbn beta in Eg.
  exists (fun x y => sum_first (Z.to_nat (ax_size A1)) (fun i => D2 (edge_cell A2 e2) (l + ax_degree A2 mod 2) (c i) y * basis_piece A1 (edge_cell A1 e1) i x)%R), g.
  split; [intros x; apply rows_nd; [now apply edge_cell_in | exact Ho]|]. split; [|exact Eg].
  eapply nth_derivative_ext; [| |exact Hg]; [|reflexivity]. intros x.
  change (piece_1d A1 (edge_cell A1 e1) (fun i => sd e2 i l) x = piece_1d A1 (edge_cell A1 e1) (fun i => D2 (edge_cell A2 e2) (l + ax_degree A2 mod 2) (c i) (edge_point A2 e2)) x).
  apply piece_1d_ext. intros i Hi. symmetry. exact (derivatives_D2 e2 (c i) (sd e2 i) l (proj1 (proj2 (L2 i Hi)) e2) Hl).
Qed.
End Axes.
