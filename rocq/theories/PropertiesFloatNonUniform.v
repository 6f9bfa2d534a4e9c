(** Property C68: splines on non-uniform cells computed in double precision ([FA], IEEE binary64 with rounding to nearest).
    [fok x]: x is a number (neither infinite nor NaN); [fval x] is its value.  [float_cells d l]: the break points [l] are at most 2^900 in size and at least 2^-900 apart, for a degree d of 1 to 1000.
    [held_knot s i] is the i-th knot that the space holds and [held_knots s i] its value; [first_break l], [last_break l], [cells l], [cells_basis_error d] = 9 d 2^-53 and
    [cells_spline_error d] = (11 d + 6) 2^-53 are in FloatNonUniformSpec; [spline] and [bspline] are the exact ones of EvaluatorSpec and BSplineSpec.
    The bounds depend neither on the cells nor on their number, and unlike on uniform cells (C60) they hold at every point between the first and the last break point. *)
From Coq Require Import Bool Reals ZArith List Lia Lra Floats.SpecFloat.
From Flocq Require Import Core.
From Verif Require Import BSplineModel BSplineSpec EvaluatorModel EvaluatorSpec FloatLink FloatSpec FloatNonUniformSpec FloatExamples FloatNonUniformTheorems FloatNonUniformExamples.
Import ListNotations.
Local Open Scope Z_scope.

(** * C68 *)
(** Without periodicity the space is always made; with it, when neither the first nor the last cell is narrower than the length times 2^-53. *)
Theorem C68_construct : forall junk d periodic l, float_cells d l -> periodic = false \/ wide_ends l -> exists s, nb_construct FA junk d periodic l = Ok (Some s).
Proof. exact cells_construct. Qed.
Print Assumptions C68_construct.
(** Without the condition on these cells the periodic constructor may refuse break points that are strictly increasing: those of [thin_end] for instance. *)
Theorem C68_construct_refuted : ~ (forall junk d periodic l, float_cells d l -> exists s, nb_construct FA junk d periodic l = Ok (Some s)).
Proof. exact thin_refuted. Qed.
Print Assumptions C68_construct_refuted.
(** The knots: the break points are held as they are given; outside them the knots are the first and the last break point, or those of the other end moved by a period, up to rounding. *)
Theorem C68_knots : forall junk d periodic l s, float_cells d l -> nb_construct FA junk d periodic l = Ok (Some s) ->
  (forall k x, nth_error l k = Some x -> held_knot s (d + Z.of_nat k) = x) /\
  (forall i, 1 <= i <= d ->
    if periodic then
      (Rabs (held_knots s (d - i) - (held_knots s (d + cells l - i) - (last_break l - first_break l))) <= (last_break l - first_break l + 2 * Rabs (held_knots s (d - i))) / IZR (2 ^ 53))%R /\
      (Rabs (held_knots s (d + cells l + i) - (held_knots s (d + i) + (last_break l - first_break l))) <= (last_break l - first_break l + 2 * Rabs (held_knots s (d + cells l + i))) / IZR (2 ^ 53))%R
    else held_knots s (d - i) = first_break l /\ held_knots s (d + cells l + i) = last_break l).
Proof. exact cells_knots. Qed.
Print Assumptions C68_knots.
(** The cell of a point contains it. *)
Theorem C68_cell : forall junk d periodic l s x, float_cells d l -> nb_construct FA junk d periodic l = Ok (Some s) -> fok x -> (first_break l <= fval x <= last_break l)%R ->
  exists k, nb_cell FA s x = Ok (d + k) /\ 0 <= k < cells l /\ ((held_knots s (d + k) <= fval x < held_knots s (d + k + 1))%R \/ (fval x = last_break l /\ k = cells l - 1)).
Proof. exact cells_cell. Qed.
Print Assumptions C68_cell.
(** The values of the B-splines: numbers that are not negative, whose sum is 1 up to rounding, and whose distances to the exact values add up to at most [cells_basis_error d]. *)
Theorem C68_basis : forall junk d periodic l s x left_ right_ (values : arr spec_float), float_cells d l -> nb_construct FA junk d periodic l = Ok (Some s) ->
  fok x -> (first_break l <= fval x <= last_break l)%R -> a_len values = d + 1 ->
  exists v k, nb_eval_basis FA s left_ right_ values x = Ok (v, k) /\ nb_cell FA s x = Ok (d + k) /\ 0 <= k < cells l /\ a_len v = d + 1 /\
    (forall r, 0 <= r <= d -> fok (a_at v r) /\ (0 <= fval (a_at v r))%R) /\
    (sum_first (Z.to_nat (d + 1)) (fun r => Rabs (fval (a_at v r) - bspline (held_knots s) (last_break l) (Z.to_nat d) (k + r) (fval x))) <= cells_basis_error d)%R /\
    (Rabs (sum_first (Z.to_nat (d + 1)) (fun r => fval (a_at v r)) - 1) <= cells_basis_error d)%R.
Proof. exact cells_basis. Qed.
Print Assumptions C68_basis.
(** The values of splines, for coefficients bounded by M: no overflow, and an error of at most M [cells_spline_error d], up to a few of the smallest positive numbers. *)
Theorem C68_spline : forall junk d periodic l s m lower upper (c : chunk_1d FA) M x, float_cells d l -> nb_construct FA junk d periodic l = Ok (Some s) ->
  float_coefficients c (cells l + d) M -> (M <= bpow radix2 1000)%R -> fok x -> (first_break l <= fval x <= last_break l)%R ->
  exists y, eval FA (NonUniform s) m lower upper x c = Ok y /\ eval_no_bc FA (NonUniform s) m None x c = Ok y /\ fok y /\
    (Rabs (fval y - spline (held_knots s) (last_break l) d (cells l) (float_coefficient c) (fval x)) <= M * cells_spline_error d + IZR (4 * (d + 1)) * half_smallest)%R.
Proof. exact cells_spline. Qed.
Print Assumptions C68_spline.
(** The values stay between the bounds of the coefficients, up to the same error. *)
Theorem C68_between : forall junk d periodic l s m lower upper (c : chunk_1d FA) M lo hi x, float_cells d l -> nb_construct FA junk d periodic l = Ok (Some s) ->
  float_coefficients c (cells l + d) M -> (M <= bpow radix2 1000)%R -> (forall i, 0 <= i < cells l + d -> (lo <= float_coefficient c i <= hi)%R) ->
  fok x -> (first_break l <= fval x <= last_break l)%R ->
  exists y, eval FA (NonUniform s) m lower upper x c = Ok y /\
    (lo - (M * cells_spline_error d + IZR (4 * (d + 1)) * half_smallest) <= fval y <= hi + (M * cells_spline_error d + IZR (4 * (d + 1)) * half_smallest))%R.
Proof. exact cells_between. Qed.
Print Assumptions C68_between.
(** The cells between 0, 1, 3, 7 and 12, cubic, with coefficients 100 to 106 (and memory full of NaNs): the cell and a thousand times the value at 0, 2 and 12, and at 2 with periodic knots. *)
Example C68_ex : float_cells 3 breaks_ex /\ wide_ends breaks_ex /\ float_coefficients cells_coefs_ex (cells breaks_ex + 3) 112 /\ (112 <= bpow radix2 1000)%R /\
  cells_scaled_ex false 1000 (nofz FA 0) = Some (3, 100000) /\ cells_scaled_ex false 1000 (nofz FA 2) = Some (4, 102249) /\ cells_scaled_ex false 1000 (nofz FA 12) = Some (6, 106000) /\
  cells_scaled_ex true 1000 (nofz FA 2) = Some (4, 102284).
Proof. split; [exact cells_ex|]. split; [exact wide_ex|]. split; [exact cells_coefs_ok|]. split; [exact big_enough|]. vm_compute. repeat split. Qed.
