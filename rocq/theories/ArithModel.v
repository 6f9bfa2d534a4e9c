(** The arithmetic of [double] ([ddc::Real], src/ddc/real_type.hpp:11).  The numerical code is modelled
    once, over any type with these operations; it is then read
    - over the real numbers ([RA]): the operations are exact, every theorem about numerical results is
      about this reading unless its statement says otherwise;
    - over the rational numbers ([QA]): the same, but computable, for examples;
    - over binary64 floating-point numbers ([FA]): the operations of IEEE 754 with rounding to nearest
      even, as specified by the standard library's SpecFloat; used for statements about rounding. *)
From Coq Require Export Reals QArith Qround.
From Coq Require Import Floats.SpecFloat.
From Verif Require Export Machine.
#[global] Open Scope Z_scope.

(** What the code uses of [double] (src/ddc/real_type.hpp:11): operations, comparisons, conversions. *)
Record arith := mk_arith {
  num : Type;
  nadd : num -> num -> num;
  nsub : num -> num -> num;
  nmul : num -> num -> num;
  ndiv : num -> num -> num;
  nopp : num -> num;
  nltb : num -> num -> bool;
  nleb : num -> num -> bool;
  nofz : Z -> num;     (** conversion of an integer *)
  ntrunc : num -> Z    (** conversion to an integer: truncation toward zero (C++ [conv.fpint]) *)
}.
Declare Scope num_scope.
Delimit Scope num_scope with N_.
Notation "x + y" := (nadd _ x y) : num_scope.
Notation "x - y" := (nsub _ x y) : num_scope.
Notation "x * y" := (nmul _ x y) : num_scope.
Notation "x / y" := (ndiv _ x y) : num_scope.
Notation "- x" := (nopp _ x) : num_scope.
Notation "x <? y" := (nltb _ x y) : num_scope.
Notation "x <=? y" := (nleb _ x y) : num_scope.

(** Real numbers. *)
Definition R_ltb (x y : R) : bool := if Rlt_dec x y then true else false.
(** Comparison of two reals. *)
Definition R_leb (x y : R) : bool := if Rle_dec x y then true else false.
(** Conversion of a real to an integer: truncation, as in C++. *)
Definition R_trunc (x : R) : Z := if Rlt_dec x 0 then - Int_part (- x) else Int_part x.
(** The arithmetic of exact reals. *)
Definition RA : arith := mk_arith R Rplus Rminus Rmult Rdiv Ropp R_ltb R_leb IZR R_trunc.

(** Rational numbers in lowest terms. *)
Definition Q_trunc (x : Q) : Z := Z.quot (Qnum x) (Zpos (Qden x)).
(** Comparison of two rationals. *)
Definition Q_ltb (x y : Q) : bool := Qnum x * Zpos (Qden y) <? Qnum y * Zpos (Qden x).
(** Comparison of two rationals. *)
Definition Q_leb (x y : Q) : bool := Qnum x * Zpos (Qden y) <=? Qnum y * Zpos (Qden x).
(** The arithmetic of exact rationals, in lowest terms. *)
Definition QA : arith := mk_arith Q
  (fun x y => Qred (x + y)%Q) (fun x y => Qred (x - y)%Q) (fun x y => Qred (x * y)%Q) (fun x y => Qred (x / y)%Q)
  (fun x => Qred (- x)%Q) Q_ltb Q_leb inject_Z Q_trunc.

(** binary64: 53 bits of precision, largest exponent 1024. *)
Definition F_trunc (x : spec_float) : Z :=
  match x with
  | S754_finite s m e =>
      let a := if 0 <=? e then Zpos m * 2 ^ e else Zpos m / 2 ^ (- e) in if s then - a else a
  | S754_zero _ => 0
  | _ => 2 ^ 1024 (* the conversion of an infinity or of a NaN is undefined: out of the range of every type *)
  end.
(** The arithmetic of binary64, round to nearest even. *)
Definition FA : arith := mk_arith spec_float
  (SFadd 53 1024) (SFsub 53 1024) (SFmul 53 1024) (SFdiv 53 1024) SFopp SFltb SFleb
  (fun z => binary_normalize 53 1024 z 0 false) F_trunc.
