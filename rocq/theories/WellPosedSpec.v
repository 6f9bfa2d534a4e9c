(** Specification: the interpolation problems that have exactly one solution. *)
From Coq Require Import Reals ZArith.
From Verif Require Export BuilderSpec Spline2DSpec.
Local Open Scope Z_scope.

(** The equation of the point x(i) comes after those of the lower closure: it is the equation number i + equations lower d.
    The point is inside the support [t(r), t(r + d + 1)] of the B-spline of the same number r (nothing is asked of the parts of the support outside of [a, b]). *)
Definition nested (t : Z -> R) (d ncells first n : Z) (x : Z -> R) : Prop :=
  forall i, 0 <= i < n -> (d < i + first -> (t (i + first)%Z < x i)%R) /\ (i + first + d + 1 < d + ncells -> (x i < t (i + first + d + 1)%Z)%R).
(** With derivatives at one end, even degrees: the value is one of the derivatives (that of order 0), so the end cannot be a point too. Nothing is asked of odd degrees. *)
Definition anchored (d : Z) (lower upper : closure) (a b : R) (n : Z) (x : Z -> R) : Prop :=
  Z.odd d = false -> (0 < equations lower d -> (a < x 0%Z)%R) /\ (0 < equations upper d -> (x (n - 1)%Z < b)%R).
(** In periodic spaces: the points are in one period, and inside the supports of consecutive B-splines. *)
Definition nested_periodic (t : Z -> R) (a b : R) (d shift n : Z) (x : Z -> R) : Prop :=
  (x (n - 1)%Z < x 0%Z + (b - a))%R /\ forall i, 0 <= i < n -> (t (i + shift)%Z < x i < t (i + shift + d + 1)%Z)%R.
(** The equations: values at the points, derivatives at both ends, periodicity. *)
Definition solution (periodic : bool) (t : Z -> R) (a b : R) (d ncells : Z) (lower upper : closure) (n : Z) (x v wl wu : Z -> R) (c : Z -> R) : Prop :=
  takes_values t b d ncells n c x v /\ has_derivatives t d d ncells (equations lower d) c a wl /\
  has_derivatives t (d + ncells - 1) d ncells (equations upper d) c b wu /\ (periodic = true -> periodic_coefficients c d ncells).

(** The problem has at most one solution; exactly one, whatever the values and the derivatives. *)
Definition at_most_one (periodic : bool) (t : Z -> R) (a b : R) (d ncells : Z) (lower upper : closure) (n : Z) (x : Z -> R) : Prop :=
  forall v wl wu c c', solution periodic t a b d ncells lower upper n x v wl wu c -> solution periodic t a b d ncells lower upper n x v wl wu c' ->
  forall i, 0 <= i < ncells + d -> c i = c' i.
Definition well_posed (periodic : bool) (t : Z -> R) (a b : R) (d ncells : Z) (lower upper : closure) (n : Z) (x : Z -> R) : Prop :=
  at_most_one periodic t a b d ncells lower upper n x /\ forall v wl wu, exists c, solution periodic t a b d ncells lower upper n x v wl wu c.

(** A square matrix with no kernel; an iterative solver that succeeds for such matrices. *)
Definition nonsingular (n : Z) (M : Z -> Z -> R) : Prop :=
  forall y : Z -> R, (forall i, 0 <= i < n -> rsum n (fun j => M i j * y j)%R = 0%R) -> forall j, 0 <= j < n -> y j = 0%R.
Definition regular_bicgstab (X : solvers RA) : Prop :=
  forall A : arr2 R, a2_m A = a2_n A -> nonsingular (a2_n A) (a2_at A) -> total_for (a2_n A) (bicgstab X A false).
