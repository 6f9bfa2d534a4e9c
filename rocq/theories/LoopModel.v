(** Arrays and counted loops, used by the models of the numerical kernels.  An access outside the bounds
    of an array is undefined.  An array that the code does not initialise has arbitrary contents: the
    models take them as an argument and the theorems hold for all of them. *)
From Coq Require Import List.
From Verif Require Export Machine.
Import ListNotations.
#[global] Open Scope Z_scope.

Notation "x <- e ;; f" := (rbind e (fun x => f)) (at level 61, e at next level, right associativity).
Notation "' p <- e ;; f" := (rbind e (fun p => f)) (at level 61, p pattern, e at next level, right associativity).

(** [std::array], [std::vector] and 1-D [mdspan]. *)
Record arr (T : Type) := mk_arr { a_len : Z; a_at : Z -> T }.
Arguments mk_arr {T}. Arguments a_len {T}. Arguments a_at {T}.
(** Auxiliary: update of a function at a point. *)
Definition upd {T} (f : Z -> T) (i : Z) (v : T) : Z -> T := fun k => if k =? i then v else f k.
(** Access to an element: out of bounds it is undefined. *)
Definition aget {T} (a : arr T) (i : Z) : res T :=
  if (0 <=? i) && (i <? a_len a) then Ok (a_at a i) else Undef.
(** Assignment of an element: out of bounds it is undefined. *)
Definition aset {T} (a : arr T) (i : Z) (v : T) : res (arr T) :=
  if (0 <=? i) && (i <? a_len a) then Ok (mk_arr (a_len a) (upd (a_at a) i v)) else Undef.
(** Auxiliary: the elements of the array, in order. *)
Definition arr_list {T} (a : arr T) : list T := map (fun k => a_at a (Z.of_nat k)) (seq 0 (Z.to_nat (a_len a))).

(** 2-D [mdspan] (the layout of views is in SpanModel). *)
Record arr2 (T : Type) := mk_arr2 { a2_n : Z; a2_m : Z; a2_at : Z -> Z -> T }.
Arguments mk_arr2 {T}. Arguments a2_n {T}. Arguments a2_m {T}. Arguments a2_at {T}.
(** Auxiliary: update of a function of two arguments at a point. *)
Definition upd2 {T} (f : Z -> Z -> T) (i j : Z) (v : T) : Z -> Z -> T :=
  fun k l => if (k =? i) && (l =? j) then v else f k l.
(** Auxiliary: whether both indices are in bounds. *)
Definition in2 {T} (a : arr2 T) (i j : Z) : bool := (0 <=? i) && (i <? a2_n a) && (0 <=? j) && (j <? a2_m a).
(** Access to an element: out of bounds it is undefined. *)
Definition aget2 {T} (a : arr2 T) (i j : Z) : res T := if in2 a i j then Ok (a2_at a i j) else Undef.
(** Assignment of an element: out of bounds it is undefined. *)
Definition aset2 {T} (a : arr2 T) (i j : Z) (v : T) : res (arr2 T) :=
  if in2 a i j then Ok (mk_arr2 (a2_n a) (a2_m a) (upd2 (a2_at a) i j v)) else Undef.

(** [for (i = lo; i < hi; ++i) body] *)
Fixpoint for_n {S : Type} (n : nat) (i : Z) (body : Z -> S -> res S) (s : S) : res S :=
  match n with
  | O => Ok s
  | Datatypes.S n' => rbind (body i s) (for_n n' (i + 1) body)
  end.
(** [for (i = lo; i < hi; ++i)]: a loop whose body neither breaks nor changes [i]. *)
Definition for_range {S : Type} (lo hi : Z) (body : Z -> S -> res S) (s : S) : res S :=
  for_n (Z.to_nat (hi - lo)) lo body s.
(** [while (cond) body]: [None] when [fuel] iterations do not suffice. *)
Fixpoint while_ {S : Type} (fuel : nat) (cond : S -> res bool) (body : S -> res S) (s : S) : res (option S) :=
  b <- cond s ;;
  if (b : bool) then
    match fuel with
    | O => Ok None
    | Datatypes.S fuel' => s' <- body s ;; while_ fuel' cond body s'
    end
  else Ok (Some s).
(** [assert] and [KOKKOS_ASSERT], active in debug builds: a failure is [Undef]. *)
Definition assert_ {T} (b : bool) (r : res T) : res T := if b then r else Undef.
