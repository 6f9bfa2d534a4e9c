(** Specification of interpolation points, independent of the model. *)
From Coq Require Import Reals ZArith List Bool.
Local Open Scope R_scope.

(** The Greville abscissa of the i-th B-spline of degree d: the average of its d inner knots. *)
Definition greville (t : Z -> R) (d i : Z) : R :=
  sum_f_R0 (fun k => t (i + 1 + Z.of_nat k)%Z) (Z.to_nat d - 1) / IZR d.
(** The list f(0), ..., f(n - 1). *)
Definition points_of (n : Z) (f : Z -> R) : list R := map (fun k => f (Z.of_nat k)) (seq 0 (Z.to_nat n)).
(** The points for uniform B-splines of degree d with cells of width h on [a, b]: [e k] near an end where
    Greville points are asked for, [k] being the number of points between this one and the end; elsewhere
    the middles (even degree) or the ends (odd degree) of the cells. *)
Definition edge_point (d : Z) (h : R) (k : Z) : R := h * IZR (k * (k + 1)) / (2 * IZR d).
Definition half_if_even (d : Z) : R := if Z.even d then / 2 else 0.
Definition uniform_point (lower_greville upper_greville : bool) (d : Z) (a b h : R) (count i : Z) : R :=
  if (lower_greville && (i <=? d / 2)%Z)%bool then a + edge_point d h i
  else if (upper_greville && (count - 1 - i <=? d / 2)%Z)%bool then b - edge_point d h (count - 1 - i)
  else a + (IZR (i - (if lower_greville then d / 2 else 0)) + half_if_even d) * h.
