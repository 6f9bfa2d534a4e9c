(** Specification of B-splines, independent of the model: the Cox-de Boor recursion on real knots. *)
From Coq Require Import Reals ZArith List.
Local Open Scope R_scope.

(** x / y, with the convention that it is 0 when y = 0. *)
Definition ratio (x y : R) : R := if Req_EM_T y 0 then 0 else x / y.

(** The recursion, from given values of degree 0: knots t(k), k an integer. *)
Fixpoint cox_de_boor (base : Z -> R) (t : Z -> R) (p : nat) (i : Z) (x : R) : R :=
  match p with
  | O => base i
  | S q =>
      ratio (x - t i) (t (i + Z.of_nat p)%Z - t i) * cox_de_boor base t q i x
      + ratio (t (i + Z.of_nat p + 1)%Z - x) (t (i + Z.of_nat p + 1)%Z - t (i + 1)%Z) * cox_de_boor base t q (i + 1)%Z x
  end.

(** B-splines of degree 0: indicator functions of the cells [t(i), t(i+1)); at the right end [rmax] of the
    domain, the limit from the left, that is the indicator functions of (t(i), t(i+1)]. *)
Definition indicator (t : Z -> R) (rmax x : R) (i : Z) : R :=
  if Req_EM_T x rmax
  then (if Rlt_dec (t i) x then if Rle_dec x (t (i + 1)%Z) then 1 else 0 else 0)
  else (if Rle_dec (t i) x then if Rlt_dec x (t (i + 1)%Z) then 1 else 0 else 0).
(** The i-th B-spline of degree p, with knots t(i), ..., t(i + p + 1). *)
Definition bspline (t : Z -> R) (rmax : R) (p : nat) (i : Z) (x : R) : R :=
  cox_de_boor (indicator t rmax x) t p i x.

(** The polynomial that the i-th B-spline is on the cell [t(c), t(c+1)]. *)
Definition bspline_piece (t : Z -> R) (c : Z) (p : nat) (i : Z) (x : R) : R :=
  cox_de_boor (fun j => if Z.eq_dec j c then 1 else 0) t p i x.

(** g is the k-th derivative of f. *)
Fixpoint nth_derivative (k : nat) (f g : R -> R) : Prop :=
  match k with
  | O => forall x, f x = g x
  | S k' => exists h, (forall x, derivable_pt_lim f x (h x)) /\ nth_derivative k' h g
  end.

(** Strictly increasing list of break points. *)
Definition strictly_increasing (l : list R) : Prop :=
  forall i j x y, (i < j)%nat -> nth_error l i = Some x -> nth_error l j = Some y -> x < y.

(** The knots of B-splines of degree d on the break points l: the break points are the knots d, d+1, ... *)
Definition first_point (l : list R) : R := nth 0 l 0.
Definition last_point (l : list R) : R := nth (length l - 1) l 0.
(** The end points are repeated. *)
Definition open_knots (d : Z) (l : list R) (k : Z) : R := nth (Nat.min (Z.to_nat (k - d)) (length l - 1)) l 0.
(** t(k + number of cells) = t(k) + period. *)
Definition periodic_knots (d : Z) (l : list R) (k : Z) : R :=
  let ncells := (Z.of_nat (length l) - 1)%Z in
  nth (Z.to_nat ((k - d) mod ncells)) l 0 + IZR ((k - d) / ncells) * (last_point l - first_point l).
Definition knots (periodic : bool) (d : Z) (l : list R) : Z -> R :=
  if periodic then periodic_knots d l else open_knots d l.

(** d (d-1) ... (d-k+1), the factor of the k-th derivative of a polynomial of degree d *)
Fixpoint falling_z (d : Z) (k : nat) : Z :=
  match k with O => 1%Z | S k' => (falling_z d k' * (d - Z.of_nat k'))%Z end.
(** The knots of uniform B-splines: the break points are the knots d, ..., d + ncells, and the knots continue
    with the same step on both sides, for periodic and for other B-splines. *)
Definition uniform_knots (d : Z) (a b : R) (ncells : Z) (k : Z) : R := a + IZR (k - d) * ((b - a) / IZR ncells).
