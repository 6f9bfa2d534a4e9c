(** Specification for splines in two dimensions, independent of the definitions of the builder and of the evaluator. *)
From Coq Require Import Reals ZArith.
From Verif Require Export BuilderSpec Spline2DModel.
Local Open Scope Z_scope.

(** One dimension of an interpolation problem: the space of splines, the closures, the points. *)
Record axis := mk_axis { ax_degree : Z; ax_periodic : bool; ax_cells : Z; ax_knots : Z -> R; ax_min : R; ax_max : R;
  ax_lower : closure; ax_upper : closure; ax_points : Z; ax_point : Z -> R }.
Definition ax_size (A : axis) : Z := ax_cells A + ax_degree A.
Definition space_of (s : bspline_space RA) (A : axis) : Prop := spline_space s (ax_degree A) (ax_periodic A) (ax_cells A) (ax_knots A) (ax_min A) (ax_max A).
(** The B-spline i, and the polynomial it is on the cell k. *)
Definition basis (A : axis) (i : Z) (x : R) : R := bspline (ax_knots A) (ax_max A) (Z.to_nat (ax_degree A)) i x.
Definition basis_piece (A : axis) (k i : Z) (x : R) : R := bspline_piece (ax_knots A) k (Z.to_nat (ax_degree A)) i x.

(** The coefficients of a spline in two dimensions: one for each pair of B-splines. *)
Definition has_coefficients_2d (c : chunk_2d RA) (n1 n2 : Z) : Prop := c2_front1 c = 0 /\ c2_front2 c = 0 /\ a2_n (c2_vals c) = n1 /\ a2_m (c2_vals c) = n2.
Definition coefficient_2d (c : chunk_2d RA) (i j : Z) : R := a2_at (c2_vals c) i j.
Definition tensor (n1 n2 : Z) (c : Z -> Z -> R) (f g : Z -> R) : R :=
  sum_first (Z.to_nat n1) (fun i => sum_first (Z.to_nat n2) (fun j => c i j * f i * g j)%R).
(** The spline; and the polynomial it is on a product of cells. *)
Definition spline_2d (A1 A2 : axis) (c : Z -> Z -> R) (x y : R) : R :=
  tensor (ax_size A1) (ax_size A2) c (fun i => basis A1 i x) (fun j => basis A2 j y).
Definition piece_2d (A1 A2 : axis) (k1 k2 : Z) (c : Z -> Z -> R) (x y : R) : R :=
  tensor (ax_size A1) (ax_size A2) c (fun i => basis_piece A1 k1 i x) (fun j => basis_piece A2 k2 j y).
(** The derivative of order o1 in x and o2 in y of F is v at the point (x, y). *)
Definition mixed_derivative (o1 o2 : nat) (F : R -> R -> R) (x y v : R) : Prop :=
  exists G H, (forall x', nth_derivative o2 (F x') (G x')) /\ nth_derivative o1 (fun x' => G x' y) H /\ H x = v.

(** The order of derivation in one dimension: none, or between 1 and the degree, with factorials that fit in an [int]. *)
Definition order_of (o : option Z) : Z := match o with None => 0 | Some k => k end.
Definition order_valid (A : axis) (o : option Z) : Prop := match o with None => True | Some k => 1 <= k <= ax_degree A /\ falling_z (ax_degree A) (Z.to_nat k) < 2 ^ 31 end.
(** The coordinate where a spline is evaluated: in periodic dimensions, up to a number of periods. *)
Definition lands (A : axis) (x x' : R) : Prop :=
  (ax_min A <= x' <= ax_max A)%R /\ if ax_periodic A then exists k, (x = x' + IZR k * (ax_max A - ax_min A))%R else x' = x.
(** The nearest point of [a, b]. *)
Definition nearest (a b x : R) : R := Rmax a (Rmin b x).
(** Periodicity of the coefficients, in the dimensions that are periodic. *)
Definition periodic_2d (A1 A2 : axis) (c : Z -> Z -> R) : Prop :=
  (ax_periodic A1 = true -> forall j, 0 <= j < ax_size A2 -> periodic_coefficients (fun i => c i j) (ax_degree A1) (ax_cells A1)) /\
  (ax_periodic A2 = true -> forall i, 0 <= i < ax_size A1 -> periodic_coefficients (c i) (ax_degree A2) (ax_cells A2)).

(** The two ends of a dimension. *)
Inductive side := Lower | Upper.
Definition edge_closure (A : axis) (e : side) : closure := match e with Lower => ax_lower A | Upper => ax_upper A end.
Definition edge_point (A : axis) (e : side) : R := match e with Lower => ax_min A | Upper => ax_max A end.
Definition edge_cell (A : axis) (e : side) : Z := match e with Lower => ax_degree A | Upper => ax_degree A + ax_cells A - 1 end.
Definition edge_equations (A : axis) (e : side) : Z := equations (edge_closure A e) (ax_degree A).
(** The derivatives asked for on an edge, and at a corner: those given, or 0. *)
Definition asked_2d (c : closure) (given : option (chunk_2d RA)) (i j : Z) : R :=
  match c, given with HERMITE, Some w => a2_at (c2_vals w) i j | _, _ => 0%R end.
Definition asked_corner (c1 c2 : closure) (given : option (chunk_2d RA)) (i j : Z) : R :=
  match c1 with HERMITE => asked_2d c2 given i j | _ => 0%R end.
(** The derivatives in x at the end [e] of the first dimension, at the points of the second; *)
Definition edge_1 (A1 A2 : axis) (e : side) (given : option (chunk_2d RA)) (c : Z -> Z -> R) : Prop :=
  forall k j, 0 <= k < edge_equations A1 e -> 0 <= j < ax_points A2 ->
  mixed_derivative (BuilderSpec.order (ax_degree A1) k) 0 (fun x y => tensor (ax_size A1) (ax_size A2) c (fun i => basis_piece A1 (edge_cell A1 e) i x) (fun j => basis A2 j y))
    (edge_point A1 e) (ax_point A2 j) (asked_2d (edge_closure A1 e) given k j).
(** those in y at the end of the second dimension, at the points of the first; *)
Definition edge_2 (A1 A2 : axis) (e : side) (given : option (chunk_2d RA)) (c : Z -> Z -> R) : Prop :=
  forall i l, 0 <= i < ax_points A1 -> 0 <= l < edge_equations A2 e ->
  mixed_derivative 0 (BuilderSpec.order (ax_degree A2) l) (fun x y => tensor (ax_size A1) (ax_size A2) c (fun i => basis A1 i x) (fun j => basis_piece A2 (edge_cell A2 e) j y))
    (ax_point A1 i) (edge_point A2 e) (asked_2d (edge_closure A2 e) given i l).
(** the mixed derivatives at the corners. *)
Definition corner (A1 A2 : axis) (e1 e2 : side) (given : option (chunk_2d RA)) (c : Z -> Z -> R) : Prop :=
  forall k l, 0 <= k < edge_equations A1 e1 -> 0 <= l < edge_equations A2 e2 ->
  mixed_derivative (BuilderSpec.order (ax_degree A1) k) (BuilderSpec.order (ax_degree A2) l) (piece_2d A1 A2 (edge_cell A1 e1) (edge_cell A2 e2) c)
    (edge_point A1 e1) (edge_point A2 e2) (asked_corner (edge_closure A1 e1) (edge_closure A2 e2) given k l).
(** In one dimension: the spline, and the polynomial it is on the cell k. *)
Definition spline_1d (A : axis) (c : Z -> R) (x : R) : R := spline (ax_knots A) (ax_max A) (ax_degree A) (ax_cells A) c x.
Definition piece_1d (A : axis) (k : Z) (c : Z -> R) (x : R) : R := spline_piece (ax_knots A) k (ax_degree A) (ax_cells A) c x.
(** Its derivatives at one end; interpolation in one dimension (C41), and when it has at most one solution. *)
Definition derivatives_1d (A : axis) (e : side) (c : Z -> R) (w : Z -> R) : Prop :=
  has_derivatives (ax_knots A) (edge_cell A e) (ax_degree A) (ax_cells A) (edge_equations A e) c (edge_point A e) w.
Definition interp (A : axis) (v : Z -> R) (w : side -> Z -> R) (c : Z -> R) : Prop :=
  (forall i, 0 <= i < ax_points A -> spline_1d A c (ax_point A i) = v i) /\ (forall e, derivatives_1d A e c (w e)) /\
  (ax_periodic A = true -> periodic_coefficients c (ax_degree A) (ax_cells A)).
Definition determined (A : axis) : Prop := forall v w c c', interp A v w c -> interp A v w c' -> forall i, 0 <= i < ax_size A -> c i = c' i.
(** The data of a problem in two dimensions: values at the points, derivatives on the edges, mixed derivatives at the corners. *)
Record data_2d := mk_data_2d { dt_values : chunk_2d RA; dt_edge1 : side -> option (chunk_2d RA); dt_edge2 : side -> option (chunk_2d RA);
  dt_corner : side -> side -> option (chunk_2d RA) }.
Definition interpolates_2d (A1 A2 : axis) (D : data_2d) (c : Z -> Z -> R) : Prop :=
  (forall i j, 0 <= i < ax_points A1 -> 0 <= j < ax_points A2 -> spline_2d A1 A2 c (ax_point A1 i) (ax_point A2 j) = a2_at (c2_vals (dt_values D)) i j) /\
  (forall e, edge_1 A1 A2 e (dt_edge1 D e) c) /\ (forall e, edge_2 A1 A2 e (dt_edge2 D e) c) /\
  (forall e1 e2, corner A1 A2 e1 e2 (dt_corner D e1 e2) c) /\
  (ax_periodic A2 = true -> forall i, 0 <= i < ax_size A1 -> periodic_coefficients (c i) (ax_degree A2) (ax_cells A2)).

(** [bd] is a builder for the interpolation on the axis, whose points suit the storage used (see C41), without negligible entries (C39). *)
Definition builder_for (solver : spline_solver) (s : bspline_space RA) (A : axis) (bd : builder RA) : Prop :=
  exists start coord m,
  interpolation solver s (ax_degree A) (ax_periodic A) (ax_cells A) (ax_knots A) (ax_min A) (ax_max A) (ax_lower A) (ax_upper A) start (ax_points A) coord (ax_point A) /\
  builder_construct RA s m solver (ax_lower A) (ax_upper A) start (ax_points A) coord = Ok bd /\
  suited solver (bs_uniform RA s) (ax_periodic A) (ax_knots A) (ax_min A) (ax_max A) (ax_degree A) (ax_cells A) (ax_lower A) (ax_upper A) (ax_point A) (bd_offset bd) /\
  (solver = LAPACK -> none_negligible (shape_of (problem_of solver (bs_uniform RA s) (ax_periodic A) (ax_degree A) (ax_cells A) (ax_lower A) (ax_upper A)))
     (collocation (ax_periodic A) (ax_knots A) (ax_min A) (ax_max A) (ax_degree A) (ax_cells A) (ax_lower A) (ax_upper A) (ax_point A) (bd_offset bd))).
(** In one dimension, this builder does not fail on data of the right shape (see C41 for when this is the case). *)
Definition never_fails (s : bspline_space RA) (A : axis) (X : solvers RA) (bd : builder RA) : Prop :=
  forall junk sp v dl du, has_coefficients sp (ax_size A) -> derivatives_given (ax_lower A) (ax_degree A) dl -> derivatives_given (ax_upper A) (ax_degree A) du -> a_len v = ax_points A ->
  exists c, build RA s (ax_lower A) (ax_upper A) X bd junk sp v dl du = Ok c.
(** The data have the shape asked for: the derivatives of the first dimension, d1/2 of them for each point of the second, and so on. *)
Definition given_1 (A1 : axis) (e : side) (w : option (chunk_2d RA)) (front lines : Z) : Prop :=
  match edge_closure A1 e, w with
  | HERMITE, Some w => c2_front1 w = ax_degree A1 mod 2 /\ a2_n (c2_vals w) = ax_degree A1 / 2 /\ c2_front2 w = front /\ a2_m (c2_vals w) = lines
  | HERMITE, None => False
  | _, w => w = None
  end.
Definition given_2 (A2 : axis) (e : side) (w : option (chunk_2d RA)) (lines : Z) : Prop :=
  match edge_closure A2 e, w with
  | HERMITE, Some w => c2_front2 w = ax_degree A2 mod 2 /\ a2_n (c2_vals w) = lines /\ a2_m (c2_vals w) = ax_degree A2 / 2
  | HERMITE, None => False
  | _, w => True
  end.
Definition data_given (A1 A2 : axis) (D : data_2d) : Prop :=
  let v := dt_values D in
  a2_n (c2_vals v) = ax_points A1 /\ a2_m (c2_vals v) = ax_points A2 /\ 0 <= c2_front2 v < 2 ^ 64 /\
  (forall e, given_1 A1 e (dt_edge1 D e) (c2_front2 v) (ax_points A2)) /\ (forall e, given_2 A2 e (dt_edge2 D e) (ax_points A1)) /\
  (forall e1 e2, edge_closure A2 e2 = HERMITE -> given_1 A1 e1 (dt_corner D e1 e2) (ax_degree A2 mod 2) (ax_degree A2 / 2)).
(** The builder, on these data. *)
Definition run_2d (s1 s2 : bspline_space RA) (A1 A2 : axis) (X : solvers RA) (bd1 bd2 : builder RA) (junk junk_min junk_max work1 work_min work_max work2 : Z -> Z -> R)
  (sp : chunk_2d RA) (D : data_2d) : res (chunk_2d RA) :=
  build_2d RA s1 s2 (ax_lower A1) (ax_upper A1) (ax_lower A2) (ax_upper A2) X bd1 bd2 junk junk_min junk_max work1 work_min work_max work2 sp (dt_values D)
    (dt_edge1 D Lower) (dt_edge1 D Upper) (dt_edge2 D Lower) (dt_edge2 D Upper) (dt_corner D Lower Lower) (dt_corner D Upper Lower) (dt_corner D Lower Upper) (dt_corner D Upper Upper).
