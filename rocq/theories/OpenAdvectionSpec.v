(** Specification of the non-periodic advection program: a density on nx + d points in x, of an interval cut in nx cells, by ny points in y. *)
From Coq Require Import ZArith List Reals.
From Verif Require Export AdvectionSpec OpenAdvectionModel PointsSpec.
Local Open Scope R_scope.

Section Open.
(** Degree, number of cells in x, number of points in y, the intervals. *)
Context (d nx ny : Z) (a b c e : R).
(** The points in x: in the middle the break points (odd degrees) or the middles of the cells (even ones), closer to each other near both ends (PointsSpec). *)
Definition open_point (i : Z) : R := uniform_point true true d a b ((b - a) / IZR nx) (nx + d) i.
Notation t := (uniform_knots d a b nx).
(** [f] is the value at [x], any real number, of the spline of coefficients [k], which is 0 outside of [a, b]. *)
Definition cut_value (k : Z -> R) (x f : R) : Prop := (a <= x <= b -> f = spline t b d nx k x) /\ (x < a \/ b < x -> f = 0).
(** [D'] is the density [D] moved by [delta] in x: on each line, the values at [x - delta] of the spline that takes the values of [D] at the points. *)
Definition open_moved (delta : R) (D D' : Z -> Z -> R) : Prop :=
  forall j, (0 <= j < ny)%Z -> exists k,
    (forall i, (0 <= i < nx + d)%Z -> cut_value k (open_point i) (D i j)) /\
    (forall i, (0 <= i < nx + d)%Z -> cut_value k (open_point i - delta) (D' i j)).
(** The densities at the steps: a gaussian, then moved by [delta] at each step. *)
Definition open_history (exp : R -> R) (delta : R) (D : nat -> Z -> Z -> R) : Prop :=
  (forall i j, (0 <= i < nx + d)%Z -> (0 <= j < ny)%Z -> D O i j = gaussian exp (open_point i) (y_point ny c e j)) /\
  forall n, open_moved delta (D n) (D (S n)).
End Open.

(** Sizes for which nothing overflows, and degrees for which the points are in increasing order. *)
Definition open_sizes (d nx ny : Z) : Prop :=
  (1 <= d <= 8 /\ 3 <= nx /\ nx + 1 + 2 * d < 2 ^ 31 /\ 2 <= ny < 2 ^ 31)%Z.
(** With LAPACK: the band has room, and the solver drops no entry of the matrix for being below 1e-14. *)
Definition open_nothing_dropped (solver : spline_solver) (d nx : Z) (a b : R) : Prop :=
  let p := problem_of solver true false d nx GREVILLE GREVILLE in
  sensible p /\ none_negligible (shape_of p) (collocation false (uniform_knots d a b nx) a b d nx GREVILLE GREVILLE (open_point d nx a b) 0).
(** Intervals in x, y and time, a maximal step, an output period, a function that rounds up, exact external solvers. *)
Record open_inputs (d nx ny : Z) (a b c e t0 t1 max_dt : R) (period : Z) (solver : spline_solver) (X : solvers RA) (ceil : R -> R) : Prop := {
  op_sizes : open_sizes d nx ny; op_x : a < b; op_y : c < e; op_t : t0 < t1; op_dt : 0 < max_dt;
  op_steps : (t1 - t0) / max_dt <= IZR (2 ^ 61); op_period : (0 < period)%Z; op_ceil : rounds_up ceil; op_exact : exact_solvers X;
  op_dropped : open_nothing_dropped solver d nx a b }.
