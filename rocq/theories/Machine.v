(** Machine integers: size_t (64-bit unsigned, wraps) and ptrdiff_t (64-bit signed,
    overflow is undefined behaviour).  LP64 targets (the only ones DDC supports in practice)
    are assumed; see src/ddc/discrete_element.hpp:59 and src/ddc/discrete_vector.hpp:58. *)
From Coq Require Export ZArith Lia Bool List.
From Coq Require Export ZifyBool ZifyNat.
Export ListNotations.
#[global] Open Scope Z_scope.

Definition two64 : Z := 2 ^ 64.
Definition two63 : Z := 2 ^ 63.

(** [size_t] values. *)
Definition is_u64 (z : Z) : Prop := 0 <= z < two64.
(** [ptrdiff_t] values. *)
Definition is_i64 (z : Z) : Prop := - two63 <= z < two63.
Definition is_i64b (z : Z) : bool := (- two63 <=? z) && (z <? two63).

(** Conversion to [size_t]: reduction modulo 2^64 (C++ [conv.integral]). *)
Definition u64 (z : Z) : Z := z mod two64.
(** Conversion to [ptrdiff_t]: the representative in [-2^63, 2^63) (C++20 [conv.integral]). *)
Definition i64 (z : Z) : Z := (z + two63) mod two64 - two63.

(** Unsigned arithmetic wraps. *)
Definition u64_add (a b : Z) : Z := u64 (a + b).
Definition u64_sub (a b : Z) : Z := u64 (a - b).
Definition u64_mul (a b : Z) : Z := u64 (a * b).

(** Signed arithmetic: [None] is undefined behaviour. *)
Definition i64_ret (z : Z) : option Z := if is_i64b z then Some z else None.
Definition i64_add (a b : Z) : option Z := i64_ret (a + b).
Definition i64_sub (a b : Z) : option Z := i64_ret (a - b).
Definition i64_mul (a b : Z) : option Z := i64_ret (a * b).
Definition i64_opp (a : Z) : option Z := i64_ret (- a).

(** Outcome of a piece of C++: a value, undefined behaviour, or rejected by the compiler
    (a failed [static_assert] or the absence of a viable overload). *)
Inductive res (A : Type) : Type :=
| Ok (a : A)
| Undef
| Rejected.
Arguments Ok {A} a.
Arguments Undef {A}.
Arguments Rejected {A}.
Definition rbind {A B} (r : res A) (f : A -> res B) : res B :=
  match r with Ok a => f a | Undef => Undef | Rejected => Rejected end.
Definition of_i64 (o : option Z) : res Z := match o with Some z => Ok z | None => Undef end.
