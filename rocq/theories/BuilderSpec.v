(** Specification for the construction of splines by interpolation, independent of the definitions of the builder. *)
From Coq Require Import Reals ZArith List.
From Coquelicot Require Import Coquelicot.
From Verif Require Export EvaluatorSpec BuilderModel LinearContract LinearSpec.
Local Open Scope bool_scope. Local Open Scope Z_scope.

(** The dimension of the space of splines. *)
Definition unknowns (periodic : bool) (d ncells : Z) : Z := if periodic then ncells else ncells + d.
(** The number of equations that a closure adds: derivatives are given at the boundary, d/2 of them,
    of orders 1, 2, ... if d is odd and 0, 1, 2, ... if d is even. *)
Definition equations (c : closure) (d : Z) : Z := match c with HERMITE | HOMOGENEOUS_HERMITE => d / 2 | PERIODIC | GREVILLE => 0 end.
Definition order (d i : Z) : nat := Z.to_nat (i + d mod 2).

(** The spline of coefficients c takes the values v at the points x, *)
Definition takes_values (t : Z -> R) (b : R) (d ncells n : Z) (c x v : Z -> R) : Prop :=
  forall i, 0 <= i < n -> spline t b d ncells c (x i) = v i.
(** and on the cell [k] its derivatives of orders [order d 0], [order d 1], ... at [z] are the values of [w]. *)
Definition has_derivatives (t : Z -> R) (k d ncells m : Z) (c : Z -> R) (z : R) (w : Z -> R) : Prop :=
  forall i, 0 <= i < m -> exists g, nth_derivative (order d i) (spline_piece t k d ncells c) g /\ g z = w i.
(** The derivatives asked for by a closure: those given, or 0. *)
Definition asked (c : closure) (given : option (chunk_1d RA)) (i : Z) : R :=
  match c, given with HERMITE, Some w => a_at (c1_vals RA w) i | _, _ => 0%R end.
(** [c] interpolates: the values at the points, the derivatives at both ends, periodicity. *)
Definition interpolates (periodic : bool) (t : Z -> R) (a b : R) (d ncells n : Z) (lower upper : closure) (x v : Z -> R) (dmin dmax : option (chunk_1d RA)) (c : Z -> R) : Prop :=
  takes_values t b d ncells n c x v /\
  has_derivatives t d d ncells (equations lower d) c a (asked lower dmin) /\
  has_derivatives t (d + ncells - 1) d ncells (equations upper d) c b (asked upper dmax) /\
  (periodic = true -> periodic_coefficients c d ncells).

(** The matrix of these equations, with the derivatives of order k multiplied by h^k, h the mean length of the cells.
    The unknown j is the coefficient of the B-spline j; of the B-spline j + shift, up to the period, in periodic spaces. *)
Definition scaled_derivative (t : Z -> R) (k d : Z) (h : R) (o : nat) (z : R) (j : Z) : R :=
  (h ^ o * Derive_n (bspline_piece t k (Z.to_nat d) j) o z)%R.
Definition collocation (periodic : bool) (t : Z -> R) (a b : R) (d ncells : Z) (lower upper : closure) (x : Z -> R) (shift i j : Z) : R :=
  let n := unknowns periodic d ncells in
  let h := ((b - a) / IZR ncells)%R in
  let first := equations lower d in
  let last := n - equations upper d in
  if i <? first then scaled_derivative t d d h (order d i) a j
  else if i <? last then
    if periodic then periodic_bspline t b d ncells ((j + shift) mod ncells) (x (i - first)) else bspline t b (Z.to_nat d) j (x (i - first))
  else scaled_derivative t (d + ncells - 1) d h (order d (i - last)) b j.

(** The linear problem used: a sparse matrix, or a band with borders for the periodicity or for the closures. *)
Definition border (uniform : bool) (c : closure) (d : Z) : Z :=
  match c with
  | HERMITE | HOMOGENEOUS_HERMITE => if uniform then d / 2 else d / 2 + 1
  | GREVILLE => d - 1
  | PERIODIC => 0
  end.
Definition problem_of (solver : spline_solver) (uniform periodic : bool) (d ncells : Z) (lower upper : closure) : creation :=
  let n := unknowns periodic d ncells in
  let w := if uniform then d / 2 else d - 1 in
  match solver with
  | GINKGO => A_sparse n
  | LAPACK => if periodic then A_periodic_band n w w uniform else Some_blocks n w w uniform (border uniform upper d) (border uniform lower d)
  end.
(** What this linear problem keeps of a matrix is the whole of M. *)
Definition representable (s : shape) (M : Z -> Z -> R) : Prop :=
  (forall i j, 0 <= i < sh_n s -> 0 <= j < sh_n s -> in_shape s i j = false -> M i j = 0%R) /\
  (forall i j kd, sh_kind s = Symmetric kd -> in_main s i = true -> in_main s j = true -> M i j = M j i).

(** An interpolation problem: a space of splines, closures for it, and n points x(0), ..., x(n - 1) of [a, b], at the positions start, ... of the dimension of interpolation. *)
Definition closures_for (periodic : bool) (lower upper : closure) : Prop :=
  if periodic then lower = PERIODIC /\ upper = PERIODIC else lower <> PERIODIC /\ upper <> PERIODIC.
Record interpolation (solver : spline_solver) (s : bspline_space RA) (d : Z) (periodic : bool) (ncells : Z) (t : Z -> R) (a b : R) (lower upper : closure)
  (start n : Z) (coord : Z -> res R) (x : Z -> R) : Prop := {
  i_space : spline_space s d periodic ncells t a b;
  i_closures : closures_for periodic lower upper;
  i_points : forall i, 0 <= i < n -> coord (start + i) = Ok (x i) /\ (a <= x i <= b)%R;
  (** There are cells enough for the support of a B-spline not to overlap itself, *)
  i_cells : periodic = true -> d + 1 <= ncells;
  (** the positions and the factorials fit in an [int], *)
  i_start : 0 <= start; i_small : start + ncells + 1 + 2 * d < 2 ^ 31;
  i_factorials : is_hermite lower || is_hermite upper = true -> falling_z d (Z.to_nat (d / 2)) < 2 ^ 31;
  (** and the matrix has room for its borders. *)
  i_matrix : sensible (problem_of solver (bs_uniform RA s) periodic d ncells lower upper) }.
(** The derivatives given at a boundary: d/2 of them, numbered from their order, for the closure HERMITE; none otherwise. *)
Definition derivatives_given (c : closure) (d : Z) (w : option (chunk_1d RA)) : Prop :=
  match c, w with
  | HERMITE, Some w => c1_front RA w = d mod 2 /\ c1_size RA w = d / 2
  | HERMITE, None => False
  | _, Some w => c1_size RA w = 0
  | _, None => True
  end.

(** The number of points in [lo, hi]. *)
Definition points_in (n : Z) (x : Z -> R) (lo hi : R) : Z :=
  Z.of_nat (length (filter (fun k => if Rle_dec lo (x (Z.of_nat k)) then if Rle_dec (x (Z.of_nat k)) hi then true else false else false) (seq 0 (Z.to_nat n)))).
(** More points than d + 1 in a cell, bounds included. *)
Definition crowded (t : Z -> R) (d ncells n : Z) (x : Z -> R) (c : Z) : Prop := d <= c < d + ncells /\ d + 1 < points_in n x (t c) (t (c + 1)).
(** The number of points that determine a spline. *)
Definition points_expected (periodic : bool) (d ncells : Z) (lower upper : closure) : Z := unknowns periodic d ncells - equations lower d - equations upper d.
Definition increasing_points (n : Z) (x : Z -> R) : Prop := forall i j, 0 <= i -> i < j -> j < n -> (x i < x j)%R.
(** No cell is empty. *)
Definition occupied (t : Z -> R) (d ncells n : Z) (x : Z -> R) : Prop := forall c, d <= c < d + ncells -> exists i, 0 <= i < n /\ (t c <= x i < t (c + 1)%Z)%R.

(** Points for which the matrix fits in the storage that LAPACK is used with (nothing is asked for the sparse matrix).  On the rows of the band:
    uniform splines, the point of the row i is the middle of the support of the B-spline i; other splines, it is between the second and the last but one knots of this support.
    In periodic spaces the row i is associated to the B-spline i + shift. *)
Definition placed (uniform : bool) (t : Z -> R) (a b : R) (d ncells i : Z) (y : R) : Prop :=
  if uniform then y = (t i + (IZR d + 1) / 2 * ((b - a) / IZR ncells))%R else (t (i + 1)%Z <= y <= t (i + d)%Z)%R.
Definition suited (solver : spline_solver) (uniform periodic : bool) (t : Z -> R) (a b : R) (d ncells : Z) (lower upper : closure) (x : Z -> R) (shift : Z) : Prop :=
  match solver with
  | GINKGO => True
  | LAPACK =>
      if periodic then 0 <= shift <= d /\ forall i, 0 <= i < ncells - (if uniform then d / 2 else d - 1) -> placed uniform t a b d ncells (i + shift) (x i)
      else forall i, border uniform lower d <= i < ncells + d - border uniform upper d -> placed uniform t a b d ncells i (x (i - equations lower d))
  end.

(** The number of derivatives that the user gives for a closure. *)
Definition given_derivatives (c : closure) (d : Z) : Z := match c with HERMITE => d / 2 | _ => 0 end.
(** Weights applied to derivatives at the lower bound, to values, to derivatives at the upper bound. *)
Definition weighted (nl n nu : Z) (wl w wu : Z -> R) (dl v du : Z -> R) : R :=
  (rsum nl (fun i => wl i * dl i) + rsum n (fun i => w i * v i) + rsum nu (fun i => wu i * du i))%R.
