(** Specification of splines evaluated in binary64: the exact spline the computed values are compared with. *)
From Coq Require Import Reals ZArith Floats.SpecFloat.
From Flocq Require Import Core.
From Verif Require Export EvaluatorSpec FloatLink.
Local Open Scope Z_scope.

(** The uniform knots that the stored numbers [rmin()] and [step()] of a space stand for, and the last break point they give. *)
Definition stored_first (s : u_bsplines FA) : R := fval (ub_rmin FA s).
Definition stored_last (s : u_bsplines FA) : R := (fval (ub_rmin FA s) + IZR (ub_ncells FA s) * fval (ub_step FA s))%R.
Definition stored_knots (s : u_bsplines FA) : Z -> R := uniform_knots (ub_degree FA s) (stored_first s) (stored_last s) (ub_ncells FA s).
(** The point of the exact space that a number of [rmin(), rmax()] stands for: itself, except that [rmax()], and what exceeds the last break point, is that break point. *)
Definition stands_for (s : u_bsplines FA) (x : spec_float) : R :=
  if Rle_dec (fval x) (stored_first s) then stored_first s
  else if Rlt_dec (fval x) (fval (ub_rmax FA s)) then Rmin (fval x) (stored_last s) else stored_last s.
(** Finite coefficients, one for each B-spline, bounded by [M]. *)
Definition float_coefficients (c : chunk_1d FA) (n : Z) (M : R) : Prop := c1_front FA c = 0 /\ c1_size FA c = n /\
  (forall i, 0 <= i < n -> fok (a_at (c1_vals FA c) i) /\ (Rabs (fval (a_at (c1_vals FA c) i)) <= M)%R).
Definition float_coefficient (c : chunk_1d FA) (i : Z) : R := fval (a_at (c1_vals FA c) i).
(** The bounds of the relative errors: of the values of the B-splines of degree [d] on [n] cells, and of a spline. *)
Definition basis_error (d n : Z) : R := (IZR (d * (d + 21) + 64 * (n + 2)) / IZR (2 ^ 54))%R.
Definition spline_error (d n : Z) : R := (IZR (d * (d + 25) + 64 * n + 140) / IZR (2 ^ 54))%R.
(** Half of the smallest positive number. *)
Definition half_smallest : R := bpow radix2 (-1075).
(** Bounds of a domain and numbers of cells far from overflow and underflow. *)
Definition float_bounds (d n : Z) (a b : spec_float) : Prop := fok a /\ fok b /\ 1 <= d <= 1000 /\ 1 <= n /\ n + 1 + 2 * d < 2 ^ 31 /\
  (Rabs (fval a) <= bpow radix2 900)%R /\ (Rabs (fval b) <= bpow radix2 900)%R /\ (IZR n * bpow radix2 (-900) <= fval b - fval a)%R.
