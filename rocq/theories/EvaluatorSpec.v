(** Specification for splines, independent of the definitions of the evaluator. *)
From Coq Require Import Reals ZArith List.
From Verif Require Export IntegralSpec EvaluatorModel.
Local Open Scope Z_scope.

(** [s] is the space of splines of degree [d] on [ncells] cells of [a, b], with knots [t]: uniform, or non-uniform on given break points.
    The bounds by 2^31 say that the number of knots fits in an [int]. *)
Inductive spline_space : bspline_space RA -> Z -> bool -> Z -> (Z -> R) -> R -> R -> Prop :=
| uniform_space q d periodic a b ncells s : 1 <= d -> 1 <= ncells -> (a < b)%R -> ncells + 1 + 2 * d < 2 ^ 31 ->
    ub_construct RA q d periodic a b ncells = Ok s ->
    spline_space (Uniform s) d periodic ncells (uniform_knots d a b ncells) a b
| non_uniform_space junk d (periodic : bool) l s : 1 <= d -> (2 <= length l)%nat -> strictly_increasing l -> Z.of_nat (length l) + 2 * d < 2 ^ 31 ->
    nb_construct RA junk d periodic l = Ok (Some s) ->
    spline_space (NonUniform s) d periodic (Z.of_nat (length l) - 1) (knots periodic d l) (first_point l) (last_point l).

(** The coefficients of a spline: one for each of the ncells + d B-splines, indexed from 0. *)
Definition has_coefficients (c : chunk_1d RA) (n : Z) : Prop := c1_front RA c = 0 /\ c1_size RA c = n.
Definition coefficient (c : chunk_1d RA) (i : Z) : R := a_at (c1_vals RA c) i.
(** In periodic spaces the coefficients of a B-spline and of its translation by one period are the same. *)
Definition periodic_coefficients (c : Z -> R) (d ncells : Z) : Prop := forall i, 0 <= i < d -> c (ncells + i) = c i.
(** The spline: the combination of the B-splines. *)
Definition spline (t : Z -> R) (b : R) (d ncells : Z) (c : Z -> R) (x : R) : R :=
  sum_first (Z.to_nat (ncells + d)) (fun i => c i * bspline t b (Z.to_nat d) i x)%R.
(** The polynomial that the spline is on the cell [t(k), t(k+1)]. *)
Definition spline_piece (t : Z -> R) (k d ncells : Z) (c : Z -> R) (x : R) : R :=
  sum_first (Z.to_nat (ncells + d)) (fun i => c i * bspline_piece t k (Z.to_nat d) i x)%R.
