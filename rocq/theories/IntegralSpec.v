(** Specification for integrals of basis functions, independent of the model. *)
From Coq Require Import Reals ZArith.
From Coquelicot Require Import Coquelicot.
From Verif Require Export BSplineSpec.
Local Open Scope R_scope.

(** The Riemann integral of f from a to b exists and is v (Coquelicot's definition). *)
Definition integral (f : R -> R) (a b v : R) : Prop := is_RInt f a b v.
(** f(0) + ... + f(n - 1) *)
Fixpoint sum_first (n : nat) (f : Z -> R) : R :=
  match n with O => 0 | S n' => sum_first n' f + f (Z.of_nat n') end.
(** The i-th basis function of a periodic space: on one period [t(d), rmax] it is the sum of its translations, that is of the
    B-splines of indices i, i + ncells, i + 2 ncells, ... among the ncells + d that are not zero on the period. *)
Definition periodic_bspline (t : Z -> R) (rmax : R) (d ncells i : Z) (x : R) : R :=
  sum_first (Z.to_nat (ncells + d)) (fun j => if Z.eqb (j mod ncells) i then bspline t rmax (Z.to_nat d) j x else 0).
