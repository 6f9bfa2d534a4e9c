(** Specification of Greville points in binary64. *)
From Coq Require Import Reals ZArith List Floats.SpecFloat.
From Flocq Require Import Core.
From Verif Require Export PointsSpec FloatNonUniformSpec.
Local Open Scope Z_scope.

(** A bound of the sizes of the break points. *)
Definition size_of_breaks (l : list spec_float) : R := Rmax (Rabs (first_break l)) (Rabs (last_break l)).
(** The bound of the errors of the points: (d + 2) 2^-53 times the size of the break points, and half of the smallest number. *)
Definition greville_error (d : Z) (l : list spec_float) : R := (IZR (d + 2) / IZR (2 ^ 53) * size_of_breaks l + half_smallest)%R.
(** The number [x] can be added to itself [d] times without rounding: [d] is at most 2, or [x] is an integer and [d x] is at most 2^53 in size. *)
Definition repeats_exactly (d : Z) (x : R) : Prop := d <= 2 \/ exists z, x = IZR z /\ d * Z.abs z <= 2 ^ 53.
