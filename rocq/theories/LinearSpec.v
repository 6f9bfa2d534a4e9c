(** Specification of the linear problems, independent of the model. *)
From Coq Require Import Reals ZArith List Bool.
Import ListNotations.
Local Open Scope Z_scope.

(** What a problem of size n keeps of its matrix.  The main block, rows and columns top, ..., top + main - 1,
    is general, or zero outside a band, or symmetric and zero outside a band.  Nothing is lost elsewhere. *)
Inductive kind := General | Banded (kl ku : Z) | Symmetric (kd : Z).
Record shape := mk_shape { sh_n : Z; sh_top : Z; sh_main : Z; sh_kind : kind }.
Definition in_main (s : shape) (i : Z) : bool := (sh_top s <=? i) && (i <? sh_top s + sh_main s).
Definition in_shape (s : shape) (i j : Z) : bool :=
  if in_main s i && in_main s j then
    match sh_kind s with
    | General => true
    | Banded kl ku => (i - j <=? kl) && (j - i <=? ku)
    | Symmetric kd => Z.abs (i - j) <=? kd
    end
  else true.
(** How a band matrix of size n is kept, with kl sub-diagonals and ku super-diagonals. *)
Definition band_kind (n kl ku : Z) (symmetric : bool) : kind :=
  if symmetric && (kl =? ku) then Symmetric kl
  else if n <=? 2 * kl + ku + 1 then General
  else Banded kl ku.
(** The memory for a periodic band matrix kept in blocks. *)
Definition periodic_storage (n kl ku : Z) : Z :=
  let bottom := Z.max kl ku in bottom * (n + (n - bottom)) + (2 * kl + ku + 1) * (n - bottom).
Definition periodic_shape (n kl ku : Z) (symmetric : bool) : shape :=
  let main := n - Z.max kl ku in
  if n * n <=? periodic_storage n kl ku then mk_shape n 0 n General
  else mk_shape n 0 main (band_kind main kl ku symmetric).
(** Two positions are the same entry if they are equal, or mirror images in a symmetric main block. *)
Definition same_entry (s : shape) (i j k l : Z) : bool :=
  (i =? k) && (j =? l)
  || match sh_kind s with
     | Symmetric _ => in_main s i && in_main s j && (i =? l) && (j =? k)
     | _ => false
     end.
(** The last value given to the entry (i, j) by a list of assignments, zero if there is none. *)
Definition last_value {T} (zero : T) (s : shape) (h : list (Z * Z * T)) (i j : Z) : T :=
  match find (fun '(k, l, _) => same_entry s k l i j) (rev h) with
  | Some (_, _, v) => v
  | None => zero
  end.
(** The entry (i, j) of the matrix kept after these assignments. *)
Definition kept {T} (zero : T) (s : shape) (h : list (Z * Z * T)) (i j : Z) : T :=
  if in_shape s i j then last_value zero s h i j else zero.

(** f(0) + ... + f(n - 1) *)
Definition rsum (n : Z) (f : Z -> R) : R := fold_right Rplus 0%R (map (fun k => f (Z.of_nat k)) (seq 0 (Z.to_nat n))).
(** x solves the system of n equations with matrix M (its transpose if tr) and right-hand side b. *)
Definition solves (n : Z) (M : Z -> Z -> R) (tr : bool) (x b : Z -> R) : Prop :=
  forall i, 0 <= i < n -> rsum n (fun j => (if tr then M j i else M i j) * x j)%R = b i.

(** The entries that the block solvers drop because they are smaller than 1e-14: entries of M below and above
    the main block, on the columns of the main block; entries of the solutions of the main block for the
    other columns of M. *)
Definition negligible (v : R) : Prop := v <> 0%R /\ (Rabs v < / 10 ^ 14)%R.
Definition none_negligible (s : shape) (M : Z -> Z -> R) : Prop :=
  (forall i l, 0 <= i < sh_n s -> in_main s i = false -> 0 <= l < sh_main s -> ~ negligible (M i (sh_top s + l))) /\
  (forall j y, 0 <= j < sh_n s -> in_main s j = false ->
     (forall i, 0 <= i < sh_main s -> rsum (sh_main s) (fun l => M (sh_top s + i)%Z (sh_top s + l)%Z * y l)%R = M (sh_top s + i) j) ->
     forall l, 0 <= l < sh_main s -> ~ negligible (y l)).

(** The conventions of LAPACK for the storage of a matrix: general band ([gbtrf]: leading kl rows reserved),
    symmetric band, lower part ([pbtrf]), symmetric tridiagonal ([pttrf]: diagonal and sub-diagonal). *)
Definition gb_matrix (kl ku : Z) (q : Z -> Z -> R) (i j : Z) : R :=
  if (i - j <=? kl) && (j - i <=? ku) then q (kl + ku + (i - j)) j else 0%R.
Definition pb_matrix (kd : Z) (q : Z -> Z -> R) (i j : Z) : R :=
  if Z.abs (i - j) <=? kd then q (Z.abs (i - j)) (Z.min i j) else 0%R.
Definition pt_matrix (d e : Z -> R) (i j : Z) : R :=
  if i =? j then d i else if Z.abs (i - j) =? 1 then e (Z.min i j) else 0%R.

(** The intervals [(l0, h0), (l1, h1), ...] are consecutive, non-empty, and cover lo, ..., hi - 1. *)
Fixpoint consecutive (lo hi : Z) (l : list (Z * Z)) : Prop :=
  match l with
  | [] => lo = hi
  | (a, b) :: l' => a = lo /\ a < b /\ consecutive b hi l'
  end.
