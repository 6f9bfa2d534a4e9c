(** The spline space is the space of smooth piecewise polynomials; builders, evaluators and quadratures are exact on it. *)
From Coq Require Import Reals ZArith List Lia Lra.
From Verif Require Import ReproduceSpec WellPosedSpec EvaluatorSpec EvaluatorSpace EvaluatorLemmas BuilderTheorems Spline2DTheorems WellPosedBuild WellPosedExamples LinearGauss ReproduceProofs ReproduceTheorems Reproduce2D ReproduceExamples.
Local Open Scope bool_scope. Local Open Scope Z_scope.

(** * C57 *)
(** Any piecewise polynomial of degree at most d with d - 1 continuous derivatives is a spline: there are coefficients, and one choice of them only, for which the evaluators return its values, derivatives and integral. *)
Theorem C57_all_smooth : forall s A, space_of s A -> forall q, smooth (ax_periodic A) (ax_knots A) (ax_min A) (ax_max A) (ax_degree A) (ax_cells A) q ->
  exists c, evaluates_to s A q c /\ (ax_periodic A = true -> periodic_coefficients (coefficient c) (ax_degree A) (ax_cells A)) /\
    forall c', evaluates_to s A q c' -> forall i, 0 <= i < ax_size A -> coefficient c' i = coefficient c i.
Proof. exact all_smooth. Qed.
Print Assumptions C57_all_smooth.
(** Nothing else is. *)
Theorem C57_only_smooth : forall s A, space_of s A -> forall c, has_coefficients c (ax_size A) -> (ax_periodic A = true -> periodic_coefficients (coefficient c) (ax_degree A) (ax_cells A)) ->
  exists q, smooth (ax_periodic A) (ax_knots A) (ax_min A) (ax_max A) (ax_degree A) (ax_cells A) q /\ evaluates_to s A q c.
Proof. exact only_smooth. Qed.
Print Assumptions C57_only_smooth.
(** What the builder computes from the values and derivatives of such a function is this function. *)
Theorem C57_builder : forall A, posed A -> forall solver s bd X, builder_for solver s A bd -> exact_solvers X ->
  forall q, smooth (ax_periodic A) (ax_knots A) (ax_min A) (ax_max A) (ax_degree A) (ax_cells A) q ->
  forall v dl du, sampled A q (a_at v) (asked_1d A dl du) ->
  forall junk sp c, has_coefficients sp (ax_size A) -> build RA s (ax_lower A) (ax_upper A) X bd junk sp v dl du = Ok c -> evaluates_to s A q c.
Proof. exact builder_reproduces. Qed.
Print Assumptions C57_builder.
(** In particular polynomials are reproduced, with all their derivatives and their integral. *)
Theorem C57_polynomials : forall A, posed A -> forall solver s bd X, builder_for solver s A bd -> exact_solvers X ->
  forall q, admitted_polynomial A q -> forall v dl du, sampled_polynomial A q (a_at v) (asked_1d A dl du) ->
  forall junk sp c, has_coefficients sp (ax_size A) -> build RA s (ax_lower A) (ax_upper A) X bd junk sp v dl du = Ok c -> evaluates_to_polynomial s A q c.
Proof. exact builder_reproduces_polynomial. Qed.
Print Assumptions C57_polynomials.
(** The quadrature weights of the builder give the integral of any smooth piecewise polynomial from its values and derivatives, *)
Theorem C57_quadrature : forall solver s A start coord,
  interpolation solver s (ax_degree A) (ax_periodic A) (ax_cells A) (ax_knots A) (ax_min A) (ax_max A) (ax_lower A) (ax_upper A) start (ax_points A) coord (ax_point A) ->
  forall m bd, builder_construct RA s m solver (ax_lower A) (ax_upper A) start (ax_points A) coord = Ok bd ->
  suited solver (bs_uniform RA s) (ax_periodic A) (ax_knots A) (ax_min A) (ax_max A) (ax_degree A) (ax_cells A) (ax_lower A) (ax_upper A) (ax_point A) (bd_offset bd) ->
  (bs_uniform RA s = true -> ax_periodic A = false -> ax_degree A <= ax_cells A) -> (ax_periodic A = true -> bs_uniform RA s = true \/ bd_offset bd = 0) ->
  none_negligible (shape_of (problem_of solver (bs_uniform RA s) (ax_periodic A) (ax_degree A) (ax_cells A) (ax_lower A) (ax_upper A)))
    (collocation (ax_periodic A) (ax_knots A) (ax_min A) (ax_max A) (ax_degree A) (ax_cells A) (ax_lower A) (ax_upper A) (ax_point A) (bd_offset bd)) ->
  ax_lower A <> HOMOGENEOUS_HERMITE -> ax_upper A <> HOMOGENEOUS_HERMITE ->
  forall X q junk junk_rows (wl w wu : arr R), exact_solvers X ->
  quadrature_coefficients RA s m (ax_lower A) (ax_upper A) X bd q junk junk_rows = Ok (wl, w, wu) ->
  forall p, smooth (ax_periodic A) (ax_knots A) (ax_min A) (ax_max A) (ax_degree A) (ax_cells A) p -> forall v dl du, sampled A p v (asked_1d A dl du) ->
  forall f, piecewise (ax_knots A) (ax_degree A) (ax_cells A) p f ->
  integral f (ax_min A) (ax_max A) (weighted (given_derivatives (ax_lower A) (ax_degree A)) (ax_points A) (given_derivatives (ax_upper A) (ax_degree A)) (a_at wl) (a_at w) (a_at wu)
    (asked (ax_lower A) dl) v (asked (ax_upper A) du)).
Proof. exact quadrature_reproduces. Qed.
Print Assumptions C57_quadrature.
(** so of any polynomial of degree at most d. *)
Theorem C57_quadrature_polynomials : forall solver s A start coord,
  interpolation solver s (ax_degree A) (ax_periodic A) (ax_cells A) (ax_knots A) (ax_min A) (ax_max A) (ax_lower A) (ax_upper A) start (ax_points A) coord (ax_point A) ->
  forall m bd, builder_construct RA s m solver (ax_lower A) (ax_upper A) start (ax_points A) coord = Ok bd ->
  suited solver (bs_uniform RA s) (ax_periodic A) (ax_knots A) (ax_min A) (ax_max A) (ax_degree A) (ax_cells A) (ax_lower A) (ax_upper A) (ax_point A) (bd_offset bd) ->
  (bs_uniform RA s = true -> ax_periodic A = false -> ax_degree A <= ax_cells A) -> (ax_periodic A = true -> bs_uniform RA s = true \/ bd_offset bd = 0) ->
  none_negligible (shape_of (problem_of solver (bs_uniform RA s) (ax_periodic A) (ax_degree A) (ax_cells A) (ax_lower A) (ax_upper A)))
    (collocation (ax_periodic A) (ax_knots A) (ax_min A) (ax_max A) (ax_degree A) (ax_cells A) (ax_lower A) (ax_upper A) (ax_point A) (bd_offset bd)) ->
  ax_lower A <> HOMOGENEOUS_HERMITE -> ax_upper A <> HOMOGENEOUS_HERMITE ->
  forall X q junk junk_rows (wl w wu : arr R), exact_solvers X ->
  quadrature_coefficients RA s m (ax_lower A) (ax_upper A) X bd q junk junk_rows = Ok (wl, w, wu) ->
  forall p, admitted_polynomial A p -> forall v dl du, sampled_polynomial A p v (asked_1d A dl du) ->
  integral (polynomial p (ax_degree A)) (ax_min A) (ax_max A) (weighted (given_derivatives (ax_lower A) (ax_degree A)) (ax_points A) (given_derivatives (ax_upper A) (ax_degree A)) (a_at wl) (a_at w) (a_at wu)
    (asked (ax_lower A) dl) v (asked (ax_upper A) du)).
Proof. exact quadrature_polynomial. Qed.
Print Assumptions C57_quadrature_polynomials.
(** Two dimensions: at most one periodic spline takes the data, if interpolation determines the spline in each dimension; *)
Theorem C57_unique_2d : forall A1 A2 s2, space_of s2 A2 -> determined A1 -> determined A2 -> forall D c c',
  interpolates_2d A1 A2 D c -> periodic_2d A1 A2 c -> interpolates_2d A1 A2 D c' -> periodic_2d A1 A2 c' ->
  forall i j, 0 <= i < ax_size A1 -> 0 <= j < ax_size A2 -> c i j = c' i j.
Proof. exact unique_2d. Qed.
Print Assumptions C57_unique_2d.
(** and polynomials in x and y are reproduced, with their derivatives. *)
Theorem C57_polynomials_2d : forall solver1 solver2 s1 s2 A1 A2 X bd1 bd2, builder_for solver1 s1 A1 bd1 -> builder_for solver2 s2 A2 bd2 -> posed A1 -> posed A2 -> exact_solvers X ->
  forall q, admitted_polynomial_2d A1 A2 q -> let p := polynomial_2d q (ax_degree A1) (ax_degree A2) in
  forall D, data_given A1 A2 D -> sampled_2d A1 A2 p D -> forall junk junk_min junk_max work1 work_min work_max work2 sp c, has_coefficients_2d sp (ax_size A1) (ax_size A2) ->
  run_2d s1 s2 A1 A2 X bd1 bd2 junk junk_min junk_max work1 work_min work_max work2 sp D = Ok c ->
  (forall m1 m2 l1 u1 l2 u2 x y, (ax_min A1 <= x <= ax_max A1)%R -> (ax_min A2 <= y <= ax_max A2)%R -> eval_2d RA s1 s2 m1 m2 l1 u1 l2 u2 x y c = Ok (p x y : num RA)) /\
  (forall m1 m2 o1 o2 x y v, (ax_min A1 <= x <= ax_max A1)%R -> (ax_min A2 <= y <= ax_max A2)%R -> order_valid A1 o1 -> order_valid A2 o2 ->
    mixed_derivative (Z.to_nat (order_of o1)) (Z.to_nat (order_of o2)) p x y v -> eval_no_bc_2d RA s1 s2 m1 m2 o1 o2 x y c = Ok (v : num RA)).
Proof. exact reproduces_2d. Qed.
Print Assumptions C57_polynomials_2d.

(** * Cases that meet the hypotheses *)
(** max(x - 2, 0)^3 is smooth on the cells of [0, 4], x^3 is its own spline; both are built from five values and two derivatives. *)
Example C57_smooth_example : smooth false (uniform_knots 3 0 4 4) 0 4 3 4 truncated /\ posed cubic_axis /\ (exists s, space_of s cubic_axis) /\
  sampled cubic_axis truncated (fun i => if i =? 3 then 1%R else if i =? 4 then 8%R else 0%R) (asked_1d cubic_axis (given 0) (given 12)) /\
  sampled_polynomial cubic_axis cube (fun i => IZR (i * i * i)) (asked_1d cubic_axis (given 0) (given 48)).
Proof. exact (conj truncated_smooth (conj cubic_posed (conj cubic_space (conj truncated_sampled cube_sampled)))). Qed.
Example C57_builder_example : exists s bd, builder_for GINKGO s cubic_axis bd /\
  (exists c, build RA s HERMITE HERMITE gauss_solvers bd (fun _ => 9%R) (mk_chunk_1d RA 0 (mk_arr 7 (fun _ => 9%R : num RA))) (mk_arr 5 (fun i => IZR (i * i * i)) : arr (num RA)) (given 0) (given 48) = Ok c /\
     forall m lower upper x, (0 <= x <= 4)%R -> eval RA s m lower upper x c = Ok (x * x * x : num RA)%R) /\
  (exists c, build RA s HERMITE HERMITE gauss_solvers bd (fun _ => 9%R) (mk_chunk_1d RA 0 (mk_arr 7 (fun _ => 9%R : num RA)))
       (mk_arr 5 (fun i => if i =? 3 then 1%R else if i =? 4 then 8%R else 0%R) : arr (num RA)) (given 0) (given 12) = Ok c /\
     forall m lower upper x, (0 <= x <= 2)%R -> eval RA s m lower upper x c = Ok (0 : num RA)%R).
Proof. exact cubic_examples. Qed.
(** x^3 y on [0, 4] x [0, 2]. *)
Example C57_product_example : (exists s1 bd1 s2 bd2, builder_for GINKGO s1 cubic_axis bd1 /\ builder_for GINKGO s2 line bd2) /\ posed cubic_axis /\ posed line /\ admitted_polynomial_2d cubic_axis line cube_y /\
  data_given cubic_axis line product_data /\ sampled_2d cubic_axis line (polynomial_2d cube_y 3 1) product_data /\ forall x y, polynomial_2d cube_y 3 1 x y = (x * x * x * y)%R.
Proof.
  split; [|split; [exact cubic_posed|]; split; [exact line_posed|]; split; [split; discriminate|]; split; [exact (proj1 product_sampled)|]; split; [exact (proj2 product_sampled) | exact cube_y_value]].
  destruct cubic_built as (s1 & bd1 & B1). destruct line_builder as (s2 & bd2 & B2 & _). exists s1, bd1, s2, bd2. split; assumption.
Qed.
