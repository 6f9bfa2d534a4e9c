(** Property C60: splines on uniform cells computed in double precision ([FA], IEEE binary64 with rounding to nearest).
    [fok x]: x is a number (neither infinite nor NaN); [fval x] is its value.  [stored_knots s], [stored_last s], [stands_for s x], [basis_error d n] = (d (d + 21) + 64 (n + 2)) 2^-54 and
    [spline_error d n] = (d (d + 25) + 64 n + 140) 2^-54 are in FloatSpec; [spline] and [bspline] are the exact ones of EvaluatorSpec and BSplineSpec.
    The hypothesis [j < n] leaves out the points of C52, next to the last break point, for which the located cell does not exist; [C60_cell] says which points these may be. *)
From Coq Require Import Bool Reals ZArith List Lia Lra Floats.SpecFloat.
From Flocq Require Import Core.
From Verif Require Import BSplineModel BSplineSpec EvaluatorModel EvaluatorSpec FloatLink FloatSpec FloatTheorems FloatExamples.
Import ListNotations.
Local Open Scope Z_scope.

(** * C60 *)
(** The knots that are stored are those that were asked for, up to rounding. *)
Theorem C60_knots : forall q d periodic a b n, float_bounds d n a b -> exists s, ub_construct FA q d periodic a b n = Ok s /\ ub_degree FA s = d /\ ub_ncells FA s = n /\
  (Rabs (IZR n * fval (ub_step FA s) - (fval b - fval a)) <= 4 / IZR (2 ^ 53) * (fval b - fval a))%R /\
  (Rabs (stored_first s - fval a) <= 4 / IZR (2 ^ 53) * (Rabs (fval a) + IZR d * fval (ub_step FA s)))%R /\
  (Rabs (stored_last s - fval b) <= 4 / IZR (2 ^ 53) * (Rabs (fval a) + IZR d * fval (ub_step FA s) + (fval b - fval a)))%R.
Proof. exact float_ends. Qed.
Print Assumptions C60_knots.
(** The cell is one of the space at [rmax()] and for all points that are at least (n + 2) 2^-49 steps before the last break point. *)
Theorem C60_cell : forall q d periodic a b n, float_bounds d n a b -> exists s, ub_construct FA q d periodic a b n = Ok s /\
  forall x, fok x -> (fval (ub_rmin FA s) <= fval x <= fval (ub_rmax FA s))%R ->
  fval x = fval (ub_rmax FA s) \/ (fval x + IZR (n + 2) / IZR (2 ^ 49) * fval (ub_step FA s) < stored_last s)%R ->
  exists j off, ub_icell_and_offset FA s x = Ok (j, off) /\ 0 <= j < n.
Proof. exact float_cell. Qed.
Print Assumptions C60_cell.
(** The values of the B-splines: numbers that are not negative, whose sum is 1 up to rounding, and whose distances to the exact values add up to at most [basis_error d n]. *)
Theorem C60_basis : forall q d periodic a b n, float_bounds d n a b -> exists s, ub_construct FA q d periodic a b n = Ok s /\
  forall x j off (values : arr spec_float), fok x -> (fval (ub_rmin FA s) <= fval x <= fval (ub_rmax FA s))%R -> ub_icell_and_offset FA s x = Ok (j, off) -> j < n -> a_len values = d + 1 ->
  exists v, ub_eval_basis FA s values x = Ok (v, j) /\ a_len v = d + 1 /\ (forall r, 0 <= r <= d -> fok (a_at v r) /\ (0 <= fval (a_at v r))%R) /\
    (sum_first (Z.to_nat (d + 1)) (fun r => Rabs (fval (a_at v r) - bspline (stored_knots s) (stored_last s) (Z.to_nat d) (j + r) (stands_for s x))) <= basis_error d n)%R /\
    (Rabs (sum_first (Z.to_nat (d + 1)) (fun r => fval (a_at v r)) - 1) <= IZR (d * (d + 21)) / IZR (2 ^ 54))%R.
Proof. exact float_basis. Qed.
Print Assumptions C60_basis.
(** The values of splines, for coefficients bounded by M: no overflow, and an error of at most M [spline_error d n], up to a few of the smallest positive numbers. *)
Theorem C60_spline : forall q d periodic a b n, float_bounds d n a b -> exists s, ub_construct FA q d periodic a b n = Ok s /\
  forall m lower upper (c : chunk_1d FA) M x j off, float_coefficients c (n + d) M -> (M <= bpow radix2 1000)%R ->
  fok x -> (fval (ub_rmin FA s) <= fval x <= fval (ub_rmax FA s))%R -> ub_icell_and_offset FA s x = Ok (j, off) -> j < n ->
  exists y, eval FA (Uniform s) m lower upper x c = Ok y /\ eval_no_bc FA (Uniform s) m None x c = Ok y /\ fok y /\
    (Rabs (fval y - spline (stored_knots s) (stored_last s) d n (float_coefficient c) (stands_for s x)) <= M * spline_error d n + IZR (4 * (d + 1)) * half_smallest)%R.
Proof. exact float_spline. Qed.
Print Assumptions C60_spline.
(** The values stay between the bounds of the coefficients, up to the same error. *)
Theorem C60_between : forall q d periodic a b n, float_bounds d n a b -> exists s, ub_construct FA q d periodic a b n = Ok s /\
  forall m lower upper (c : chunk_1d FA) M l u x j off, float_coefficients c (n + d) M -> (M <= bpow radix2 1000)%R ->
  (forall i, 0 <= i < n + d -> (l <= float_coefficient c i <= u)%R) ->
  fok x -> (fval (ub_rmin FA s) <= fval x <= fval (ub_rmax FA s))%R -> ub_icell_and_offset FA s x = Ok (j, off) -> j < n ->
  exists y, eval FA (Uniform s) m lower upper x c = Ok y /\
    (l - (M * spline_error d n + IZR (4 * (d + 1)) * half_smallest) <= fval y <= u + (M * spline_error d n + IZR (4 * (d + 1)) * half_smallest))%R.
Proof. exact float_between. Qed.
Print Assumptions C60_between.
(** Ten cells of [0, 10], coefficients 100 to 112: at 5/2 the cell is 2 and the spline, a line, is 103.5 (and the memory was full of NaNs). *)
Example C60_ex : float_bounds 3 10 (nofz FA 0) (nofz FA 10) /\ float_coefficients coefs_ex (10 + 3) 112 /\ (112 <= bpow radix2 1000)%R /\
  scaled_ex 1000 (ndiv FA (nofz FA 5) (nofz FA 2)) = Some (2, 103500) /\ scaled_ex 1000 (nofz FA 0) = Some (0, 101000) /\ scaled_ex 1000 (nofz FA 10) = Some (9, 111000).
Proof. split; [exact bounds_ex|]. split; [exact coefs_ok|]. split; [exact big_enough|]. vm_compute. repeat split. Qed.
