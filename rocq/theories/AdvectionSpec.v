(** Specification of the advection program: a density on nx points in x, periodic, by ny points in y. *)
From Coq Require Import ZArith List Reals.
From Verif Require Export BuilderSpec HeatSpec AdvectionModel WellPosedSpec.
Local Open Scope R_scope.

Section Advection.
(** Degree, number of cells and of points in x, number of points in y, the intervals. *)
Context (d nx ny : Z) (a b c e : R).
(** The points in x: the break points for odd degrees, the middles of the cells for even ones; the points in y. *)
Definition x_point (i : Z) : R := a + (IZR i + if Z.odd d then 0 else 1 / 2) * ((b - a) / IZR nx).
Definition y_point (j : Z) : R := c + IZR j * ((e - c) / IZR (ny - 1)).
Notation t := (uniform_knots d a b nx).
(** [f] is the value at [x], any real number, of the periodic spline of coefficients [k]. *)
Definition periodic_value (k : Z -> R) (x f : R) : Prop :=
  exists y m, a <= y < b /\ x = y + IZR m * (b - a) /\ f = spline t b d nx k y.
(** [D'] is the density [D] moved by [delta] in x: on each line, the values at [x - delta] of the periodic spline that takes the values of [D] at the points. *)
Definition moved (delta : R) (D D' : Z -> Z -> R) : Prop :=
  forall j, (0 <= j < ny)%Z -> exists k, periodic_coefficients k d nx /\
    (forall i, (0 <= i < nx)%Z -> periodic_value k (x_point i) (D i j)) /\
    (forall i, (0 <= i < nx)%Z -> periodic_value k (x_point i - delta) (D' i j)).
(** The densities at the steps: a gaussian, then moved by [delta] at each step. *)
Definition gaussian (exp : R -> R) (x y : R) : R := 9999 / 1000 * exp (- (x * x + y * y) / (2 * (1 / 10))).
Definition advection_history (exp : R -> R) (delta : R) (D : nat -> Z -> Z -> R) : Prop :=
  (forall i j, (0 <= i < nx)%Z -> (0 <= j < ny)%Z -> D O i j = gaussian exp (x_point i) (y_point j)) /\
  forall n, moved delta (D n) (D (S n)).
End Advection.

(** Sizes for which nothing overflows, and degrees for which the support of a B-spline does not overlap itself. *)
Definition advection_sizes (d nx ny : Z) : Prop :=
  (1 <= d /\ d + 1 <= nx /\ nx + 1 + 2 * d < 2 ^ 31 /\ 2 <= ny < 2 ^ 31)%Z.
(** With LAPACK: the band has room, and the solver drops no entry of the matrix for being below 1e-14. *)
Definition nothing_dropped (solver : spline_solver) (d nx : Z) (a b : R) : Prop :=
  let p := problem_of solver true true d nx PERIODIC PERIODIC in
  sensible p /\ none_negligible (shape_of p) (collocation true (uniform_knots d a b nx) a b d nx PERIODIC PERIODIC (x_point d nx a b) (d / 2)).
(** Intervals in x, y and time, a maximal step, an output period, a function that rounds up, exact external solvers. *)
Record advection_inputs (d nx ny : Z) (a b c e t0 t1 max_dt : R) (period : Z) (solver : spline_solver) (X : solvers RA) (ceil : R -> R) : Prop := {
  in_sizes : advection_sizes d nx ny; in_x : a < b; in_y : c < e; in_t : t0 < t1; in_dt : 0 < max_dt;
  in_steps : (t1 - t0) / max_dt <= IZR (2 ^ 61); in_period : (0 < period)%Z; in_ceil : rounds_up ceil; in_exact : exact_solvers X;
  in_dropped : nothing_dropped solver d nx a b }.
