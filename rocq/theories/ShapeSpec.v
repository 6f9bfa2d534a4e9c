(** Vocabulary for the shape of the functions that spline evaluators compute. *)
From Coq Require Import Reals ZArith.
From Verif Require Export EvaluatorSpec.
Local Open Scope Z_scope.

(** What is asked of an evaluator: the value (order 0) or a derivative. *)
Definition requested (o : Z) : option Z := if o =? 0 then None else Some o.
(** The orders that can be asked; the last condition says that the factor d (d-1) ... (d-o+1), an [int] of the library, does not overflow (C36). *)
Definition order_allowed (d o : Z) : Prop := 0 <= o <= d /\ falling_z d (Z.to_nat o) < 2 ^ 31.
(** The slopes of the control polygon of a spline: [slope t d c i], for 1 <= i, is the slope between coefficients i-1 and i. *)
Definition slope (t : Z -> R) (d : Z) (c : Z -> R) (i : Z) : R := (IZR d * (c i - c (i - 1)%Z) / (t (i + d)%Z - t i))%R.
Definition is_knot (t : Z -> R) (x : R) : Prop := exists k, t k = x.
