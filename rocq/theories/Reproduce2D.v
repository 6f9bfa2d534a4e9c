(** Two dimensions: the spline is determined by the data, and polynomials are reproduced. *)
From Coq Require Import Bool Reals ZArith Lia Lra ZifyBool.
From Coquelicot Require Import Coquelicot.
From Verif Require Import LoopProofs BSplineSpec BSplineMath BSplineDeriv IntegralSpec IntegralMath IntegralMath2 IntegralProofs SplineZeros SplineTower EvaluatorSpec EvaluatorSpace EvaluatorProofs EvaluatorLemmas BuilderSpec BuilderTheorems Spline2DSpec Spline2DProofs Spline2DMath
  Spline2DEval Spline2DEval2 Spline2DBuild Spline2DTheorems WellPosedSpec WellPosedBuild ReproduceSpec ReproduceProofs ReproduceTheorems.
Local Open Scope Z_scope.

Section Unique.
Context (A1 A2 : axis) (s1 s2 : bspline_space RA).
Hypothesis (Sp1 : space_of s1 A1) (Sp2 : space_of s2 A2).
Let F1 := space_facts _ _ _ _ _ _ _ Sp1.
Let F2 := space_facts _ _ _ _ _ _ _ Sp2.
Let P1 := size1_pos A1 s1 Sp1.
Let P2 := size2_pos A2 s2 Sp2.

Lemma D2_ext k o v v' y : ax_degree A2 <= k < ax_degree A2 + ax_cells A2 -> 0 <= o <= ax_degree A2 -> (forall j, 0 <= j < ax_size A2 -> v j = v' j) -> D2 A2 k o v y = D2 A2 k o v' y.
Proof. intros Hk Ho E. exact (nd_unique _ _ _ _ _ (fun x => piece_1d_ext A2 k v v' x E) (D2_nd A2 s2 Sp2 k o v Hk Ho) (D2_nd A2 s2 Sp2 k o v' Hk Ho) y). Qed.

(** The lines of a solution. *)
Definition rows_at (c : Z -> Z -> R) (i j : Z) : R := spline_1d A2 (c i) (ax_point A2 j).
Definition ends_at (c : Z -> Z -> R) (e : side) (i l : Z) : R := D2 A2 (edge_cell A2 e) (l + ax_degree A2 mod 2) (c i) (edge_point A2 e).
Lemma solution_lines D c : interpolates_2d A1 A2 D c -> periodic_2d A1 A2 c ->
  (forall i, 0 <= i < ax_size A1 -> interp A2 (rows_at c i) (fun e => ends_at c e i) (c i)) /\
  (forall j, 0 <= j < ax_points A2 -> interp A1 (fun i => a2_at (c2_vals (dt_values D)) i j) (fun e k => asked_2d (edge_closure A1 e) (dt_edge1 D e) k j) (fun i => rows_at c i j)) /\
  (forall e l, 0 <= l < edge_equations A2 e -> interp A1 (fun i => asked_2d (edge_closure A2 e) (dt_edge2 D e) i l)
     (fun e1 k => asked_corner (edge_closure A1 e1) (edge_closure A2 e) (dt_corner D e1 e) k l) (fun i => ends_at c e i l)).
Proof.
  intros (V & E1 & E2 & K & _) [Q1 Q2]. split; [|split].
  - intros i Hi. split; [intros j Hj; reflexivity|]. split; [|intros Ep; exact (Q2 Ep i Hi)]. intros e l Hl.
    destruct (order_le A2 e l (proj2 P2) Hl) as [Ho Eo]. rewrite Eo. eexists. split; [exact (D2_nd A2 s2 Sp2 (edge_cell A2 e) _ (c i) (edge_cell_in A2 e (proj1 P2)) Ho) | reflexivity].
  - intros j Hj. split; [|split].
    + intros i Hi. rewrite <- (V i j Hi Hj). symmetry. apply spline_2d_rows.
    + intros e k Hk. destruct (E1 e k j Hk Hj) as (G & H & G1 & H1 & HE). exists H. split; [|exact HE]. eapply nth_derivative_ext; [| |exact H1]; [|reflexivity].
      intro x. cbn beta. pose proof (G1 x (ax_point A2 j)) as GE. cbn beta in GE. rewrite <- GE. apply tensor_rows.
    + intros Ep k Hk. unfold rows_at. apply spline_1d_ext. intros j' Hj'. exact (Q1 Ep j' Hj' k Hk).
  - intros e l Hl. destruct (order_le A2 e l (proj2 P2) Hl) as [Ho Eo]. pose proof (edge_cell_in A2 e (proj1 P2)) as Hc. split; [|split].
    + intros i Hi. destruct (E2 e i l Hi Hl) as (G & H & G1 & H1 & HE). rewrite <- HE. rewrite <- (H1 (ax_point A1 i)). rewrite Eo in G1.
      symmetry. exact (nd_unique _ _ _ _ _ (fun y => eq_refl) (G1 (ax_point A1 i)) (rows_nd A1 A2 s2 Sp2 (edge_cell A2 e) (l + ax_degree A2 mod 2) c (fun i0 => basis A1 i0 (ax_point A1 i)) Hc Ho) (edge_point A2 e)).
    + intros e1 k Hk. destruct (K e1 e k l Hk Hl) as (G & H & G1 & H1 & HE). exists H. split; [|exact HE]. eapply nth_derivative_ext; [| |exact H1]; [|reflexivity].
      intro x. cbn beta. rewrite Eo in G1.
      exact (nd_unique _ _ _ _ _ (fun y => eq_refl) (G1 x) (rows_nd A1 A2 s2 Sp2 (edge_cell A2 e) (l + ax_degree A2 mod 2) c (fun i0 => basis_piece A1 (edge_cell A1 e1) i0 x) Hc Ho) (edge_point A2 e)).
    + intros Ep k Hk. apply D2_ext; [exact Hc | exact Ho|]. intros j' Hj'. exact (Q1 Ep j' Hj' k Hk).
Qed.
Theorem unique_2d : determined A1 -> determined A2 -> forall D c c', interpolates_2d A1 A2 D c -> periodic_2d A1 A2 c -> interpolates_2d A1 A2 D c' -> periodic_2d A1 A2 c' ->
  forall i j, 0 <= i < ax_size A1 -> 0 <= j < ax_size A2 -> c i j = c' i j.
Proof.
  intros U1 U2 D c c' I Q I' Q' i j Hi Hj. destruct (solution_lines D c I Q) as (L2 & L1 & Ld). destruct (solution_lines D c' I' Q') as (L2' & L1' & Ld').
  apply (U2 (rows_at c' i) (fun e => ends_at c' e i)); [|exact (L2' i Hi) | exact Hj]. apply (interp_ext A2 (rows_at c i) _ (fun e => ends_at c e i)); [| |exact (L2 i Hi)].
  - intros k Hk. exact (U1 _ _ _ _ (L1 k Hk) (L1' k Hk) i Hi).
  - intros e l Hl. exact (U1 _ _ _ _ (Ld e l Hl) (Ld' e l Hl) i Hi).
Qed.
End Unique.

Lemma finite_choice (T : Type) (x0 : T) (P : Z -> T -> Prop) n : (forall i, 0 <= i < n -> exists r, P i r) -> exists f, forall i, 0 <= i < n -> P i (f i).
Proof.
  intros H. destruct (Z_le_gt_dec n 0) as [Hn|Hn]; [exists (fun _ => x0); intros; lia|]. assert (Hn' : 0 <= n) by lia. clear Hn. revert H. pattern n. apply natlike_ind; [| |exact Hn']; clear n Hn'.
  - intros _. exists (fun _ => x0). intros; lia.
  - intros n Hn IH H. destruct IH as (f & Hf); [intros i Hi; apply H; lia|]. destruct (H n ltac:(lia)) as (r & Hr). exists (fun i => if i =? n then r else f i).
    intros i Hi. destruct (Z.eqb_spec i n) as [->|]; [exact Hr | apply Hf; lia].
Qed.
Lemma polynomial_zsum q d x : 0 <= d -> polynomial q d x = zsum (d + 1) (fun j => q j * x ^ Z.to_nat j)%R.
Proof. intros Hd. unfold polynomial. replace (S (Z.to_nat d)) with (Z.to_nat (d + 1)) by lia. apply sum_first_zsum. Qed.
Lemma polynomial_sum n (r : Z -> Z -> R) (h : Z -> R) d x : 0 <= d -> 0 <= n ->
  sum_first (Z.to_nat n) (fun j => polynomial (fun i => r i j) d x * h j)%R = polynomial (fun i => sum_first (Z.to_nat n) (fun j => r i j * h j)%R) d x.
Proof.
  intros Hd Hn. rewrite polynomial_zsum by exact Hd. rewrite sum_first_zsum. etransitivity; [apply zsum_ext; intros j _; rewrite polynomial_zsum by exact Hd; rewrite Rmult_comm, <- zsum_scal; reflexivity|].
  rewrite zsum_exchange by lia. apply zsum_ext. intros i _. rewrite sum_first_zsum. rewrite Rmult_comm, <- zsum_scal. apply zsum_ext. intros j _. ring.
Qed.

Definition rep (A : axis) (q c : Z -> R) : Prop := represents A (fun _ => q) c.
Definition evals (A : axis) (f : Z -> R) (x : R) : Prop := forall q c, rep A q c -> sum_first (Z.to_nat (ax_size A)) (fun i => c i * f i)%R = polynomial q (ax_degree A) x.
Lemma evals_basis s A x : space_of s A -> (ax_min A <= x <= ax_max A)%R -> evals A (fun i => basis A i x) x.
Proof.
  intros HS Hx q c H. pose proof (space_facts _ _ _ _ _ _ _ HS) as F. destruct (exists_cell _ _ _ _ _ _ _ F x Hx) as (k & Hk). pose proof (cell_closed _ _ _ _ _ _ _ F x k Hk) as Hx'.
  exact (represents_values s A HS _ c H k x (proj1 Hk) Hx').
Qed.
Lemma evals_piece s A k x : space_of s A -> ax_degree A <= k < ax_degree A + ax_cells A -> evals A (fun i => basis_piece A k i x) x.
Proof. intros HS Hk q c H. exact (represents_piece s A HS _ c k H Hk x). Qed.
Lemma rep_zero A q : 1 <= ax_degree A -> (forall j, 0 <= j <= ax_degree A -> q j = 0%R) -> rep A q (fun _ => 0%R).
Proof.
  intros Hd Hq k x Hk. unfold pieces. cbn [dcoef]. rewrite polynomial_zsum by lia. rewrite !zsum_zero; [reflexivity | |].
  - intros j Hj. rewrite Hq by lia. ring.
  - intros j Hj. ring.
Qed.
Lemma rep_ext A q q' c : 1 <= ax_degree A -> (forall j, 0 <= j <= ax_degree A -> q j = q' j) -> rep A q c -> rep A q' c.
Proof. intros Hd E H k x Hk. rewrite (H k x Hk). apply polynomial_ext. intros j Hj. apply E. lia. Qed.
Lemma rep_exists s A q : space_of s A -> admitted_polynomial A q -> exists c, rep A q c /\ (ax_periodic A = true -> periodic_coefficients c (ax_degree A) (ax_cells A)).
Proof.
  intros HS Hq. destruct (spans _ _ _ _ _ _ _ (space_facts _ _ _ _ _ _ _ HS) _ (polynomial_smooth s A q HS Hq)) as (c & H1 & H2). exists c. split; [exact H2 | exact H1].
Qed.

Section Polynomial2D.
Context (A1 A2 : axis) (s1 s2 : bspline_space RA).
Hypothesis (Sp1 : space_of s1 A1) (Sp2 : space_of s2 A2).
Let P1 := size1_pos A1 s1 Sp1.
Let P2 := size2_pos A2 s2 Sp2.
Context (q : Z -> Z -> R).
Let p := polynomial_2d q (ax_degree A1) (ax_degree A2).

Definition coefficients_of (g : Z -> Z -> R) : Prop := forall f h x y, evals A1 f x -> evals A2 h y -> tensor (ax_size A1) (ax_size A2) g f h = p x y.
Lemma spans_2d : admitted_polynomial_2d A1 A2 q -> exists g, coefficients_of g /\ periodic_2d A1 A2 g.
Proof.
  intros [Q1 Q2]. pose proof P1 as [N1 D1]. pose proof P2 as [N2 D2].
  destruct (finite_choice (Z -> R) (fun _ => 0%R) (fun i r => rep A2 (q i) r /\ (ax_periodic A2 = true -> periodic_coefficients r (ax_degree A2) (ax_cells A2)) /\ (ax_periodic A1 = true -> 1 <= i -> forall j, r j = 0%R)) (ax_degree A1 + 1)) as (r & Hr).
  { intros i Hi. destruct (ax_periodic A1 && (1 <=? i)) eqn:E.
    - apply andb_prop in E. destruct E as [E1 E2]. exists (fun _ => 0%R). split; [apply rep_zero; [exact D2|]; intros j Hj; apply Q1; [exact E1 | lia | exact Hj]|]. split; [intros _ k _; reflexivity | intros; reflexivity].
    - destruct (rep_exists s2 A2 (q i) Sp2) as (c & C1 & C2); [intros Ep j Hj; apply Q2; [exact Ep | lia | exact Hj]|]. exists c. split; [exact C1|]. split; [exact C2|].
      intros E1 E2. rewrite E1 in E. cbn in E. lia. }
  destruct (finite_choice (Z -> R) (fun _ => 0%R) (fun j g => rep A1 (fun i => r i j) g /\ (ax_periodic A1 = true -> periodic_coefficients g (ax_degree A1) (ax_cells A1))) (ax_size A2)) as (g & Hg).
  { intros j Hj. apply (rep_exists s1 A1 _ Sp1). intros Ep i Hi. apply (Hr i ltac:(lia)); [exact Ep | lia]. }
  exists (fun i j => g j i). split; [|split].
  - intros f h x y Hf Hh. rewrite tensor_columns by (unfold ax_size; lia).
    transitivity (sum_first (Z.to_nat (ax_size A2)) (fun j => polynomial (fun i => r i j) (ax_degree A1) x * h j)%R).
    { rewrite !sum_first_zsum. apply zsum_ext. intros j Hj. f_equal. apply Hf. exact (proj1 (Hg j Hj)). }
    rewrite polynomial_sum by (unfold ax_size; lia). unfold p, polynomial_2d. apply polynomial_ext. intros i Hi. apply Hh. apply (Hr i ltac:(lia)).
  - intros Ep j Hj. exact (proj2 (Hg j Hj) Ep).
  - intros Ep i Hi k Hk.
    assert (Hk1 : 0 <= ax_cells A2 + k < ax_size A2) by (unfold ax_size; lia). assert (Hk2 : 0 <= k < ax_size A2) by (unfold ax_size; lia).
    apply (represents_unique s1 A1 Sp1 (fun _ i => r i k)); [|exact (proj1 (Hg _ Hk2)) | exact Hi].
    apply (rep_ext A1 (fun i => r i (ax_cells A2 + k))); [exact D1| |exact (proj1 (Hg _ Hk1))]. intros i' Hi'. apply (proj1 (proj2 (Hr i' ltac:(lia))) Ep). exact Hk.
Qed.
Lemma sampled_interpolates g D : coefficients_of g -> periodic_2d A1 A2 g -> (forall i, 0 <= i < ax_points A1 -> (ax_min A1 <= ax_point A1 i <= ax_max A1)%R) -> (forall j, 0 <= j < ax_points A2 -> (ax_min A2 <= ax_point A2 j <= ax_max A2)%R) ->
  sampled_2d A1 A2 p D -> interpolates_2d A1 A2 D g.
Proof.
  intros G Q X1 X2 (V & E1 & E2 & K). pose proof P1 as [N1 D1]. pose proof P2 as [N2 D2']. split; [|split; [|split; [|split]]].
  - intros i j Hi Hj. rewrite (V i j Hi Hj). apply G; [apply (evals_basis s1 A1 _ Sp1), X1; exact Hi | apply (evals_basis s2 A2 _ Sp2), X2; exact Hj].
  - intros e k j Hk Hj. destruct (E1 e k j Hk Hj) as (G' & H & G1 & H1 & HE).
    exists (fun x y => tensor (ax_size A1) (ax_size A2) g (fun i => basis_piece A1 (edge_cell A1 e) i x) (fun j => basis A2 j y)), H. split; [intros x y; reflexivity|]. split; [|exact HE].
    eapply nth_derivative_ext; [| |exact H1]; [|reflexivity]. intro x. cbn beta. rewrite <- (G1 x (ax_point A2 j)). symmetry.
    apply G; [apply (evals_piece s1 A1 _ _ Sp1); exact (edge_cell_in A1 e N1) | apply (evals_basis s2 A2 _ Sp2), X2; exact Hj].
  - intros e i l Hi Hl. destruct (E2 e i l Hi Hl) as (G' & H & G1 & H1 & HE). destruct (order_le A2 e l D2' Hl) as [Ho Eo]. pose proof (edge_cell_in A2 e N2) as Hc.
    exists (fun x y => sum_first (Z.to_nat (ax_size A1)) (fun i => D2 A2 (edge_cell A2 e) (l + ax_degree A2 mod 2) (g i) y * basis A1 i x)%R),
      (fun x => sum_first (Z.to_nat (ax_size A1)) (fun i => D2 A2 (edge_cell A2 e) (l + ax_degree A2 mod 2) (g i) (edge_point A2 e) * basis A1 i x)%R).
    split; [intro x; rewrite Eo; apply (rows_nd A1 A2 s2 Sp2); assumption|]. split; [intro x; reflexivity|]. rewrite <- HE, <- (H1 (ax_point A1 i)). rewrite Eo in G1.
    refine (nd_unique _ _ _ _ _ _ (rows_nd A1 A2 s2 Sp2 (edge_cell A2 e) (l + ax_degree A2 mod 2) g (fun i0 => basis A1 i0 (ax_point A1 i)) Hc Ho) (G1 (ax_point A1 i)) (edge_point A2 e)).
    intro y. apply G; [apply (evals_basis s1 A1 _ Sp1), X1; exact Hi | apply (evals_piece s2 A2 _ _ Sp2); exact Hc].
  - intros e1 e2 k l Hk Hl. destruct (K e1 e2 k l Hk Hl) as (G' & H & G1 & H1 & HE). exists G', H. split; [|split; [exact H1 | exact HE]].
    intro x. eapply nth_derivative_ext; [| |exact (G1 x)]; [|reflexivity]. intro y. symmetry.
    apply G; [apply (evals_piece s1 A1 _ _ Sp1); exact (edge_cell_in A1 e1 N1) | apply (evals_piece s2 A2 _ _ Sp2); exact (edge_cell_in A2 e2 N2)].
  - exact (proj2 Q).
Qed.
End Polynomial2D.

Lemma mixed_unique o1 o2 f f' x y v v' : (forall x y, f x y = f' x y) -> mixed_derivative o1 o2 f x y v -> mixed_derivative o1 o2 f' x y v' -> v = v'.
Proof.
  intros E (G & H & G1 & H1 & HE) (G' & H' & G1' & H1' & HE'). rewrite <- HE, <- HE'. refine (nd_unique _ _ _ _ _ _ H1 H1' x). intro x'. exact (nd_unique _ _ _ _ _ (E x') (G1 x') (G1' x') y).
Qed.
Lemma tensor_ext n1 n2 c c' f g : (forall i j, 0 <= i < n1 -> 0 <= j < n2 -> c i j = c' i j) -> tensor n1 n2 c f g = tensor n1 n2 c' f g.
Proof. intros E. unfold tensor. rewrite !sum_first_zsum. apply zsum_ext. intros i Hi. rewrite !sum_first_zsum. apply zsum_ext. intros j Hj. rewrite E by assumption. reflexivity. Qed.
Theorem reproduces_2d : forall solver1 solver2 s1 s2 A1 A2 X bd1 bd2, builder_for solver1 s1 A1 bd1 -> builder_for solver2 s2 A2 bd2 -> posed A1 -> posed A2 -> exact_solvers X ->
  forall q, admitted_polynomial_2d A1 A2 q -> let p := polynomial_2d q (ax_degree A1) (ax_degree A2) in
  forall D, data_given A1 A2 D -> sampled_2d A1 A2 p D -> forall junk junk_min junk_max work1 work_min work_max work2 sp c, has_coefficients_2d sp (ax_size A1) (ax_size A2) ->
  run_2d s1 s2 A1 A2 X bd1 bd2 junk junk_min junk_max work1 work_min work_max work2 sp D = Ok c ->
  (forall m1 m2 l1 u1 l2 u2 x y, (ax_min A1 <= x <= ax_max A1)%R -> (ax_min A2 <= y <= ax_max A2)%R -> eval_2d RA s1 s2 m1 m2 l1 u1 l2 u2 x y c = Ok (p x y : num RA)) /\
  (forall m1 m2 o1 o2 x y v, (ax_min A1 <= x <= ax_max A1)%R -> (ax_min A2 <= y <= ax_max A2)%R -> order_valid A1 o1 -> order_valid A2 o2 ->
    mixed_derivative (Z.to_nat (order_of o1)) (Z.to_nat (order_of o2)) p x y v -> eval_no_bc_2d RA s1 s2 m1 m2 o1 o2 x y c = Ok (v : num RA)).
Proof.
  intros solver1 solver2 s1 s2 A1 A2 X bd1 bd2 B1 B2 W1 W2 HX q Hq p D HD Sa j1 j2 j3 j4 j5 j6 j7 sp c Hsp E. pose proof (builder_space _ _ _ _ B1) as Sp1. pose proof (builder_space _ _ _ _ B2) as Sp2.
  destruct (spans_2d A1 A2 s1 s2 Sp1 Sp2 q Hq) as (g & G & Q).
  pose proof (sampled_interpolates A1 A2 s1 s2 Sp1 Sp2 q g D G Q (points_inside _ _ _ _ B1) (points_inside _ _ _ _ B2) Sa) as I.
  destruct (build_2d_sound _ _ _ _ _ _ _ _ _ B1 B2 D HD HX _ _ _ _ _ _ _ _ _ Hsp E) as [Hc I'].
  pose proof (build_2d_periodic _ _ _ _ _ _ _ _ _ B1 B2 D HD HX _ _ _ _ _ _ _ _ _ Hsp E (posed_determined A2 W2)) as Q'.
  pose proof (unique_2d A1 A2 s2 Sp2 (posed_determined A1 W1) (posed_determined A2 W2) D _ _ I' Q' I Q) as U. split.
  - intros m1 m2 l1 u1 l2 u2 x y Hx Hy. etransitivity; [apply (eval_2d_inside A1 A2 s1 s2 Sp1 Sp2 m1 m2 l1 u1 l2 u2 x y c Hc Hx Hy)|]. f_equal. unfold spline_2d. rewrite (tensor_ext _ _ _ g) by exact U.
    apply G; [exact (evals_basis s1 A1 x Sp1 Hx) | exact (evals_basis s2 A2 y Sp2 Hy)].
  - intros m1 m2 o1 o2 x y v Hx Hy Ho1 Ho2 Hv. destruct (derivative_2d A1 A2 s1 s2 Sp1 Sp2 m1 m2 o1 o2 x y c Hc Hx Hy Ho1 Ho2) as (k1 & k2 & w & Hk1 & Hk2 & _ & _ & _ & Ew & Hw).
    rewrite Ew. assert (E' : w = v); [|rewrite E'; reflexivity]. refine (mixed_unique _ _ _ _ x y w v _ Hw Hv). intros x' y'. unfold piece_2d. rewrite (tensor_ext _ _ _ g) by exact U.
    apply G; [exact (evals_piece s1 A1 k1 x' Sp1 Hk1) | exact (evals_piece s2 A2 k2 y' Sp2 Hk2)].
Qed.
