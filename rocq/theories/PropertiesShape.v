(** Property C59: the shape of the functions that spline evaluators compute, in real arithmetic ([RA]).
    [spline_space s d periodic ncells t a b] says that [s] was constructed as a space of splines of degree d on [a, b], with knots [t] (EvaluatorSpec); the cells are
    [t k, t (k+1)] for d <= k < d + ncells.  [eval] is the call operator of the evaluator, [eval_no_bc s m (requested o)] its value (o = 0) or derivative of order o inside the domain.
    [slope], [is_knot] and [order_allowed] are in ShapeSpec. *)
From Coq Require Import Bool Reals ZArith List Lia Lra.
From Verif Require Import EvaluatorModel EvaluatorSpec EvaluatorLemmas BuilderSpec Spline2DSpec Spline2DTheorems SplineNDSpec SplineNDTheorems WellPosedSpec WellPosedBuild WellPosedExamples ReproduceExamples ShapeSpec ShapeTheorems ShapeExamples.
Import ListNotations.
Local Open Scope Z_scope.

(** * C59 *)
(** ** Bounds *)
(** In a cell the values are between the bounds of the d + 1 coefficients of the cell; *)
Theorem C59_cell_between : forall s d periodic ncells t a b, spline_space s d periodic ncells t a b ->
  forall m lower upper (coef : chunk_1d RA) k x lo hi, has_coefficients coef (ncells + d) -> d <= k < d + ncells -> (t k <= x <= t (k + 1)%Z)%R ->
  (forall i, k - d <= i <= k -> (lo <= coefficient coef i <= hi)%R) -> exists v : R, eval RA s m lower upper x coef = Ok v /\ (lo <= v <= hi)%R.
Proof. exact cell_between. Qed.
Print Assumptions C59_cell_between.
(** in the domain, and at any coordinate in periodic dimensions, between those of all coefficients; *)
Theorem C59_between : forall s d periodic ncells t a b, spline_space s d periodic ncells t a b ->
  forall m lower upper (coef : chunk_1d RA) x lo hi, has_coefficients coef (ncells + d) -> (forall i, 0 <= i < ncells + d -> (lo <= coefficient coef i <= hi)%R) ->
  (if periodic then periodic_coefficients (coefficient coef) d ncells else (a <= x <= b)%R) -> exists v : R, eval RA s m lower upper x coef = Ok v /\ (lo <= v <= hi)%R.
Proof. exact between. Qed.
Print Assumptions C59_between.
(** this holds in any number of dimensions. *)
Theorem C59_between_nd : forall dims As, spaces_of dims As -> forall rules xs (c : chunk_nd RA) lo hi, length rules = length dims -> has_coefficients_nd c (map ax_size As) -> Forall2 SplineNDSpec.inside As xs ->
  (forall is, Forall2 (fun A i => 0 <= i < ax_size A) As is -> (lo <= coefficient_nd c is <= hi)%R) ->
  exists v : R, eval_nd RA dims rules xs c = Ok v /\ (lo <= v <= hi)%R.
Proof. exact between_nd. Qed.
Print Assumptions C59_between_nd.
(** Errors on coefficients are not amplified: if those of the cell are at most eps apart, so are the values. *)
Theorem C59_stable : forall s d periodic ncells t a b, spline_space s d periodic ncells t a b ->
  forall m lower upper (c1 c2 : chunk_1d RA) k x eps, has_coefficients c1 (ncells + d) -> has_coefficients c2 (ncells + d) -> d <= k < d + ncells -> (t k <= x <= t (k + 1)%Z)%R ->
  (forall i, k - d <= i <= k -> (Rabs (coefficient c1 i - coefficient c2 i) <= eps)%R) ->
  exists v1 v2 : R, eval RA s m lower upper x c1 = Ok v1 /\ eval RA s m lower upper x c2 = Ok v2 /\ (Rabs (v1 - v2) <= eps)%R.
Proof. exact stable. Qed.
Print Assumptions C59_stable.

(** ** Locality *)
(** Values and derivatives at a point depend on the d + 1 coefficients of its cell only (and not on what was in memory). *)
Theorem C59_local : forall s d periodic ncells t a b, spline_space s d periodic ncells t a b ->
  forall m m' (c1 c2 : chunk_1d RA) k x o, has_coefficients c1 (ncells + d) -> has_coefficients c2 (ncells + d) -> d <= k < d + ncells ->
  (t k <= x < t (k + 1)%Z)%R \/ (x = b /\ k = d + ncells - 1) -> order_allowed d o ->
  (forall i, k - d <= i <= k -> coefficient c1 i = coefficient c2 i) -> eval_no_bc RA s m (requested o) x c1 = eval_no_bc RA s m' (requested o) x c2.
Proof. exact local. Qed.
Print Assumptions C59_local.
(** A change of the coefficient j has no effect out of [t j, t (j+d+1)]. *)
Theorem C59_support : forall s d periodic ncells t a b, spline_space s d periodic ncells t a b ->
  forall m m' (c1 c2 : chunk_1d RA) j x o, has_coefficients c1 (ncells + d) -> has_coefficients c2 (ncells + d) -> (a <= x <= b)%R -> order_allowed d o ->
  (forall i, 0 <= i < ncells + d -> i <> j -> coefficient c1 i = coefficient c2 i) -> (x < t j \/ t (j + d + 1)%Z < x)%R ->
  eval_no_bc RA s m (requested o) x c1 = eval_no_bc RA s m' (requested o) x c2.
Proof. exact support. Qed.
Print Assumptions C59_support.

(** ** Growth *)
(** Between two points the function grows at a rate between the bounds of the slopes of its coefficients; *)
Theorem C59_growth : forall s d periodic ncells t a b, spline_space s d periodic ncells t a b ->
  forall m lower upper (coef : chunk_1d RA) x y lo hi, has_coefficients coef (ncells + d) -> (a <= x <= y)%R -> (y <= b)%R ->
  (forall i, 1 <= i < ncells + d -> (lo <= slope t d (coefficient coef) i <= hi)%R) ->
  exists vx vy : R, eval RA s m lower upper x coef = Ok vx /\ eval RA s m lower upper y coef = Ok vy /\ (lo * (y - x) <= vy - vx <= hi * (y - x))%R.
Proof. exact growth. Qed.
Print Assumptions C59_growth.
(** so are the first derivatives that the evaluator returns; *)
Theorem C59_derivative_between : forall s d periodic ncells t a b, spline_space s d periodic ncells t a b ->
  forall m (coef : chunk_1d RA) x lo hi, has_coefficients coef (ncells + d) -> (a <= x <= b)%R ->
  (forall i, 1 <= i < ncells + d -> (lo <= slope t d (coefficient coef) i <= hi)%R) -> exists v : R, eval_no_bc RA s m (Some 1) x coef = Ok v /\ (lo <= v <= hi)%R.
Proof. exact derivative_between. Qed.
Print Assumptions C59_derivative_between.
(** coefficients that do not decrease give a function that does not decrease, *)
Theorem C59_nondecreasing : forall s d periodic ncells t a b, spline_space s d periodic ncells t a b ->
  forall m lower upper (coef : chunk_1d RA) x y, has_coefficients coef (ncells + d) -> (a <= x <= y)%R -> (y <= b)%R ->
  (forall i, 1 <= i < ncells + d -> (coefficient coef (i - 1) <= coefficient coef i)%R) ->
  exists vx vy : R, eval RA s m lower upper x coef = Ok vx /\ eval RA s m lower upper y coef = Ok vy /\ (vx <= vy)%R.
Proof. exact nondecreasing. Qed.
Print Assumptions C59_nondecreasing.
(** and slopes that do not decrease give a convex function. *)
Theorem C59_convex : forall s d periodic ncells t a b, spline_space s d periodic ncells t a b ->
  forall m lower upper (coef : chunk_1d RA) x y u, has_coefficients coef (ncells + d) -> (a <= x <= b)%R -> (a <= y <= b)%R -> (0 <= u <= 1)%R ->
  (forall i, 1 <= i < ncells + d - 1 -> (slope t d (coefficient coef) i <= slope t d (coefficient coef) (i + 1))%R) ->
  exists vx vy vz : R, eval RA s m lower upper x coef = Ok vx /\ eval RA s m lower upper y coef = Ok vy /\ eval RA s m lower upper (u * x + (1 - u) * y)%R coef = Ok vz /\
    (vz <= u * vx + (1 - u) * vy)%R.
Proof. exact convex. Qed.
Print Assumptions C59_convex.

(** ** Smoothness *)
(** The function of the derivatives of order o < d that the evaluator returns is continuous inside the domain, and its derivative is what the evaluator returns for the order o + 1,
    at all points if o + 1 < d, and out of the knots if o + 1 = d. *)
Theorem C59_smooth : forall s d periodic ncells t a b, spline_space s d periodic ncells t a b ->
  forall m (coef : chunk_1d RA) o (f : R -> R), has_coefficients coef (ncells + d) -> 0 <= o < d -> order_allowed d o ->
  (forall y, (a <= y <= b)%R -> eval_no_bc RA s m (requested o) y coef = Ok (f y : num RA)) -> forall x, (a < x < b)%R ->
  continuity_pt f x /\
  (order_allowed d (o + 1) -> o + 1 < d \/ ~ is_knot t x -> exists v : R, eval_no_bc RA s m (requested (o + 1)) x coef = Ok v /\ derivable_pt_lim f x v).
Proof. exact smooth_inside. Qed.
Print Assumptions C59_smooth.
(** Periodic splines: what the evaluator returns is the restriction of functions f 0, f 1, ... of period b - a on all of the real line, f 0 being what the call operator returns at any coordinate.
    Those of order less than d are continuous everywhere, also at the ends of the domain, and each is the derivative of the one before. *)
Theorem C59_periodic_smooth : forall s d ncells t a b, spline_space s d true ncells t a b ->
  forall m lower upper (coef : chunk_1d RA), has_coefficients coef (ncells + d) -> periodic_coefficients (coefficient coef) d ncells ->
  exists f : Z -> R -> R,
    (forall x, eval RA s m lower upper x coef = Ok (f 0 x : num RA)) /\
    (forall o y q, order_allowed d o -> (a <= y < b)%R \/ (o < d /\ y = b) -> eval_no_bc RA s m (requested o) y coef = Ok (f o (y + IZR q * (b - a))%R : num RA)) /\
    (forall o, order_allowed d o -> o < d -> continuity (f o)) /\
    (forall o x, 0 <= o -> order_allowed d (o + 1) -> o + 1 < d \/ ~ is_knot t x -> derivable_pt_lim (f o) x (f (o + 1) x)).
Proof. exact periodic_smooth. Qed.
Print Assumptions C59_periodic_smooth.
(** With the values at the ends as rules of extrapolation the evaluated function is continuous everywhere; *)
Theorem C59_constant_continuous : forall s d ncells t a b, spline_space s d false ncells t a b ->
  forall m (coef : chunk_1d RA) (f : R -> R), has_coefficients coef (ncells + d) ->
  (forall x, eval RA s m (constant_rule RA s m a) (constant_rule RA s m b) x coef = Ok (f x : num RA)) -> continuity f.
Proof. exact constant_continuous. Qed.
Print Assumptions C59_constant_continuous.
(** extended by 0 it is continuous only if it is 0 at both ends. *)
Theorem C59_null_continuous : forall s d ncells t a b, spline_space s d false ncells t a b ->
  forall m (coef : chunk_1d RA) (f : R -> R), has_coefficients coef (ncells + d) -> (forall x, eval RA s m (null_rule RA) (null_rule RA) x coef = Ok (f x : num RA)) ->
  continuity f <-> f a = 0%R /\ f b = 0%R.
Proof. exact null_continuous. Qed.
Print Assumptions C59_null_continuous.

(** ** Builders *)
(** What is built from u times some data plus w times others is u times what is built from the first plus w times what is built from the others. *)
Theorem C59_builder_linear : forall A, posed A -> forall solver s bd X, builder_for solver s A bd -> exact_solvers X ->
  forall (u w : R) v1 v2 v3 dl1 dl2 dl3 du1 du2 du3,
  (forall i, 0 <= i < ax_points A -> a_at v3 i = (u * a_at v1 i + w * a_at v2 i)%R) ->
  (forall i, asked (ax_lower A) dl3 i = (u * asked (ax_lower A) dl1 i + w * asked (ax_lower A) dl2 i)%R) ->
  (forall i, asked (ax_upper A) du3 i = (u * asked (ax_upper A) du1 i + w * asked (ax_upper A) du2 i)%R) ->
  forall junk1 junk2 junk3 sp1 sp2 sp3 c1 c2 c3, has_coefficients sp1 (ax_size A) -> has_coefficients sp2 (ax_size A) -> has_coefficients sp3 (ax_size A) ->
  build RA s (ax_lower A) (ax_upper A) X bd junk1 sp1 v1 dl1 du1 = Ok c1 -> build RA s (ax_lower A) (ax_upper A) X bd junk2 sp2 v2 dl2 du2 = Ok c2 ->
  build RA s (ax_lower A) (ax_upper A) X bd junk3 sp3 v3 dl3 du3 = Ok c3 ->
  forall i, 0 <= i < ax_size A -> coefficient c3 i = (u * coefficient c1 i + w * coefficient c2 i)%R.
Proof. exact builder_linear. Qed.
Print Assumptions C59_builder_linear.

(** * Cases that meet the hypotheses *)
(** Degree 3 on four cells of [0, 4], with the squares as coefficients: they do not decrease, and their slopes neither. *)
Example C59_squares : exists s, spline_space s 3 false 4 (uniform_knots 3 0 4 4) 0 4 /\ has_coefficients squares (4 + 3) /\
  (forall i, 1 <= i < 7 -> (coefficient squares (i - 1) <= coefficient squares i)%R) /\
  (forall i, 1 <= i < 7 -> (1 <= slope (uniform_knots 3 0 4 4) 3 (coefficient squares) i <= 11)%R) /\
  (forall i, 1 <= i < 6 -> (slope (uniform_knots 3 0 4 4) 3 (coefficient squares) i <= slope (uniform_knots 3 0 4 4) 3 (coefficient squares) (i + 1))%R) /\
  order_allowed 3 0 /\ order_allowed 3 1 /\ order_allowed 3 2 /\ order_allowed 3 3 /\ ~ is_knot (uniform_knots 3 0 4 4) (1 / 2) /\
  forall m, exists v : R, eval RA s m (null_rule RA) (null_rule RA) (3 / 2)%R squares = Ok v /\ (1 <= v <= 16)%R.
Proof. exact squares_example. Qed.
Example C59_periodic : exists s, spline_space s 3 true 4 (uniform_knots 3 0 4 4) 0 4 /\ has_coefficients waves (4 + 3) /\ periodic_coefficients (coefficient waves) 3 4.
Proof. exact waves_example. Qed.
