(** Specification of splines on non-uniform cells evaluated in binary64: the exact spline the computed values are compared with. *)
From Coq Require Import Reals ZArith List Floats.SpecFloat.
From Flocq Require Import Core.
From Verif Require Export FloatSpec.
Local Open Scope Z_scope.

(** The knots that a space holds. *)
Definition held_knot (s : n_bsplines FA) (i : Z) : spec_float := match nb_coord FA s i with Ok v => v | _ => S754_zero false end.
Definition held_knots (s : n_bsplines FA) (i : Z) : R := fval (held_knot s i).
(** Break points far from overflow, and cells far from underflow. *)
Definition float_cells (d : Z) (l : list spec_float) : Prop := 1 <= d <= 1000 /\ (2 <= length l)%nat /\ Z.of_nat (length l) + 2 * d < 2 ^ 31 /\
  (forall x, In x l -> fok x /\ (Rabs (fval x) <= bpow radix2 900)%R) /\
  (forall k x y, nth_error l k = Some x -> nth_error l (S k) = Some y -> (bpow radix2 (-900) <= fval y - fval x)%R).
(** The first and the last break point, and the number of cells. *)
Definition first_break (l : list spec_float) : R := fval (nth 0 l (S754_zero false)).
Definition last_break (l : list spec_float) : R := fval (nth (length l - 1) l (S754_zero false)).
Definition cells (l : list spec_float) : Z := Z.of_nat (length l) - 1.
(** The bounds of the errors, of the values of the B-splines of degree [d] and of a spline: they do not depend on the cells. *)
Definition cells_basis_error (d : Z) : R := (IZR (9 * d) / IZR (2 ^ 53))%R.
Definition cells_spline_error (d : Z) : R := (IZR (11 * d + 6) / IZR (2 ^ 53))%R.
(** The first and the last cell are not narrower than half an ulp of the length. *)
Definition wide_ends (l : list spec_float) : Prop :=
  ((last_break l - first_break l) / IZR (2 ^ 53) <= fval (nth 1 l (S754_zero false)) - first_break l)%R /\
  ((last_break l - first_break l) / IZR (2 ^ 53) <= last_break l - fval (nth (length l - 2) l (S754_zero false)))%R.
