(** Specification: piecewise polynomials. *)
From Coq Require Import Reals ZArith.
From Verif Require Export WellPosedSpec EvaluatorSpec Spline2DSpec.
Local Open Scope Z_scope.

(** q(0) + q(1) x + ... + q(d) x^d *)
Definition polynomial (q : Z -> R) (d : Z) (x : R) : R := sum_first (S (Z.to_nat d)) (fun j => q j * x ^ Z.to_nat j)%R.
(** The polynomials of degree d and of coefficients q and q' have at y and y' the same derivatives of orders 0, ..., d - 1. *)
Definition joined (d : Z) (q q' : Z -> R) (y y' : R) : Prop :=
  forall l g g', Z.of_nat l < d -> nth_derivative l (polynomial q d) g -> nth_derivative l (polynomial q' d) g' -> g y = g' y'.
(** One polynomial for each cell [t(k), t(k+1)], joined at the knots inside of [a, b]; in periodic spaces, at the ends too. *)
Definition smooth (periodic : bool) (t : Z -> R) (a b : R) (d ncells : Z) (q : Z -> Z -> R) : Prop :=
  (forall k, d <= k -> k + 1 < d + ncells -> joined d (q k) (q (k + 1)) (t (k + 1)) (t (k + 1))) /\
  (periodic = true -> joined d (q (d + ncells - 1)) (q d) b a).
(** The function f is given by these polynomials. *)
Definition piecewise (t : Z -> R) (d ncells : Z) (q : Z -> Z -> R) (f : R -> R) : Prop :=
  forall k x, d <= k < d + ncells -> (t k <= x <= t (k + 1)%Z)%R -> f x = polynomial (q k) d x.
(** The derivatives asked for at z are those of the polynomial q. *)
Definition derivatives_of (d m : Z) (q : Z -> R) (z : R) (w : Z -> R) : Prop :=
  forall i g, 0 <= i < m -> nth_derivative (BuilderSpec.order d i) (polynomial q d) g -> w i = g z.

(** The evaluator sees the piecewise polynomial q in the coefficients c: its values, in the closed cells; its derivatives, in the closed cells for the orders less than the degree
    and in the open ones for the degree; its integral. *)
Definition evaluates_to (s : bspline_space RA) (A : axis) (q : Z -> Z -> R) (c : chunk_1d RA) : Prop :=
  let d := ax_degree A in let t := ax_knots A in let ncells := ax_cells A in
  has_coefficients c (ax_size A) /\
  (forall m lower upper k x, d <= k < d + ncells -> (t k <= x <= t (k + 1)%Z)%R -> eval RA s m lower upper x c = Ok (polynomial (q k) d x : num RA)) /\
  (forall m o k x g, 1 <= o <= d -> falling_z d (Z.to_nat o) < 2 ^ 31 -> d <= k < d + ncells -> (t k <= x <= t (k + 1)%Z)%R -> o < d \/ (t k < x < t (k + 1)%Z)%R ->
    nth_derivative (Z.to_nat o) (polynomial (q k) d) g -> eval_no_bc RA s m (Some o) x c = Ok (g x : num RA)) /\
  (forall m q' junk (out : arr R) f, a_len out = 1 -> (bs_uniform RA s = true -> ax_periodic A = false -> d <= ncells) -> piecewise t d ncells q f ->
    exists out', integrate RA s m q' junk 0 (ax_size A) 1 (fun _ => c) out = Ok out' /\ a_len out' = 1 /\ integral f (ax_min A) (ax_max A) (a_at out' 0)).
(** The same for one polynomial: values and derivatives everywhere in [a, b]. *)
Definition evaluates_to_polynomial (s : bspline_space RA) (A : axis) (q : Z -> R) (c : chunk_1d RA) : Prop :=
  let d := ax_degree A in
  has_coefficients c (ax_size A) /\
  (forall m lower upper x, (ax_min A <= x <= ax_max A)%R -> eval RA s m lower upper x c = Ok (polynomial q d x : num RA)) /\
  (forall m o x g, 1 <= o <= d -> falling_z d (Z.to_nat o) < 2 ^ 31 -> (ax_min A <= x <= ax_max A)%R ->
    nth_derivative (Z.to_nat o) (polynomial q d) g -> eval_no_bc RA s m (Some o) x c = Ok (g x : num RA)) /\
  (forall m q' junk (out : arr R), a_len out = 1 -> (bs_uniform RA s = true -> ax_periodic A = false -> d <= ax_cells A) ->
    exists out', integrate RA s m q' junk 0 (ax_size A) 1 (fun _ => c) out = Ok out' /\ a_len out' = 1 /\ integral (polynomial q d) (ax_min A) (ax_max A) (a_at out' 0)).
(** The values of the piecewise polynomial q at the points of interpolation, and its derivatives at both ends. *)
Definition sampled (A : axis) (q : Z -> Z -> R) (v : Z -> R) (w : side -> Z -> R) : Prop :=
  (forall i k, 0 <= i < ax_points A -> ax_degree A <= k < ax_degree A + ax_cells A -> (ax_knots A k <= ax_point A i <= ax_knots A (k + 1)%Z)%R -> v i = polynomial (q k) (ax_degree A) (ax_point A i)) /\
  (forall e, derivatives_of (ax_degree A) (edge_equations A e) (q (edge_cell A e)) (edge_point A e) (w e)).
Definition sampled_polynomial (A : axis) (q : Z -> R) (v : Z -> R) (w : side -> Z -> R) : Prop :=
  (forall i, 0 <= i < ax_points A -> v i = polynomial q (ax_degree A) (ax_point A i)) /\
  (forall e, derivatives_of (ax_degree A) (edge_equations A e) q (edge_point A e) (w e)).
(** The derivatives asked for in one dimension. *)
Definition asked_1d (A : axis) (dl du : option (chunk_1d RA)) (e : side) : Z -> R := match e with Lower => asked (ax_lower A) dl | Upper => asked (ax_upper A) du end.
(** Polynomials that are in the space: all those of degree at most d; in periodic spaces the constants only. *)
Definition admitted_polynomial (A : axis) (q : Z -> R) : Prop := ax_periodic A = true -> forall j, 1 <= j <= ax_degree A -> q j = 0%R.

(** Two dimensions. The sum of q(i, j) x^i y^j. *)
Definition polynomial_2d (q : Z -> Z -> R) (d1 d2 : Z) (x y : R) : R := polynomial (fun i => polynomial (q i) d2 y) d1 x.
Definition admitted_polynomial_2d (A1 A2 : axis) (q : Z -> Z -> R) : Prop :=
  (ax_periodic A1 = true -> forall i j, 1 <= i <= ax_degree A1 -> 0 <= j <= ax_degree A2 -> q i j = 0%R) /\
  (ax_periodic A2 = true -> forall i j, 0 <= i <= ax_degree A1 -> 1 <= j <= ax_degree A2 -> q i j = 0%R).
(** The data are those of the function f: its values at the points, its derivatives on the edges, its mixed derivatives at the corners. *)
Definition sampled_2d (A1 A2 : axis) (f : R -> R -> R) (D : data_2d) : Prop :=
  (forall i j, 0 <= i < ax_points A1 -> 0 <= j < ax_points A2 -> a2_at (c2_vals (dt_values D)) i j = f (ax_point A1 i) (ax_point A2 j)) /\
  (forall e k j, 0 <= k < edge_equations A1 e -> 0 <= j < ax_points A2 ->
    mixed_derivative (BuilderSpec.order (ax_degree A1) k) 0 f (edge_point A1 e) (ax_point A2 j) (asked_2d (edge_closure A1 e) (dt_edge1 D e) k j)) /\
  (forall e i l, 0 <= i < ax_points A1 -> 0 <= l < edge_equations A2 e ->
    mixed_derivative 0 (BuilderSpec.order (ax_degree A2) l) f (ax_point A1 i) (edge_point A2 e) (asked_2d (edge_closure A2 e) (dt_edge2 D e) i l)) /\
  (forall e1 e2 k l, 0 <= k < edge_equations A1 e1 -> 0 <= l < edge_equations A2 e2 ->
    mixed_derivative (BuilderSpec.order (ax_degree A1) k) (BuilderSpec.order (ax_degree A2) l) f (edge_point A1 e1) (edge_point A2 e2)
      (asked_corner (edge_closure A1 e1) (edge_closure A2 e2) (dt_corner D e1 e2) k l)).
