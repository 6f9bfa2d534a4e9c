(** Specification of sorted lists of points, independent of the model. *)
From Coq Require Import Reals List ZArith.

Definition increasing (l : list R) : Prop :=
  forall i j x y, (i < j)%nat -> nth_error l i = Some x -> nth_error l j = Some y -> (x <= y)%R.
(** A length that fits a [ptrdiff_t]. *)
Definition small (n : nat) : Prop := (Z.of_nat n < 2 ^ 63)%Z.
