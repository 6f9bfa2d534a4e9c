(** Property C69: integrals of splines on non-uniform cells computed in double precision ([FA], IEEE binary64 with rounding to nearest).
    [fok x]: x is a number (neither infinite nor NaN); [fval x] is its value.  [float_cells d l], [held_knots s], [first_break l], [last_break l] and [cells l] are in FloatNonUniformSpec,
    [float_coefficients c n M] (n finite coefficients bounded by M) and [half_smallest] in FloatSpec, [integral f a b I] (I is the Riemann integral of f from a to b) in IntegralSpec,
    the exact [bspline] and [spline] in BSplineSpec and EvaluatorSpec. *)
From Coq Require Import Bool Reals ZArith List Lia Lra Floats.SpecFloat.
From Flocq Require Import Core.
From Verif Require Import BSplineModel BSplineSpec IntegralModel IntegralSpec EvaluatorModel EvaluatorSpec FloatLink FloatSpec FloatNonUniformSpec FloatExamples FloatNonUniformTheorems FloatNonUniformExamples FloatIntegralTheorems.
Import ListNotations.
Local Open Scope Z_scope.

(** * C69 *)
(** [integrals] gives each B-spline the width of its support divided by d + 1 with a relative error of at most 4 2^-53, and zero to the repeated B-splines of a periodic space;
    without periodicity that quotient is the integral of the exact B-spline of the knots the space holds. *)
Theorem C69_integrals : forall junk d periodic l s q (iv : chunk_1d FA), float_cells d l -> nb_construct FA junk d periodic l = Ok (Some s) ->
  let n := if periodic then cells l else cells l + d in
  c1_front FA iv = 0 -> c1_size FA iv = n \/ (periodic = true /\ c1_size FA iv = cells l + d) ->
  exists c, non_uniform_bsplines_integrals FA q s iv = Ok c /\ c1_front FA c = 0 /\ c1_size FA c = c1_size FA iv /\
    (forall i, 0 <= i < n -> let w := ((held_knots s (i + d + 1) - held_knots s i) / IZR (d + 1))%R in let v := a_at (c1_vals FA c) i in
       fok v /\ (0 <= fval v)%R /\ (Rabs (fval v - w) <= 4 / IZR (2 ^ 53) * w)%R /\
       (periodic = false -> integral (bspline (held_knots s) (last_break l) (Z.to_nat d) i) (first_break l) (last_break l) w)) /\
    (forall i, n <= i < c1_size FA iv -> a_at (c1_vals FA c) i = nofz FA 0).
Proof. exact cells_integrals. Qed.
Print Assumptions C69_integrals.
(** Without periodicity, [integrate] gives finite numbers, each close to the integral of the exact spline: the error is at most the bound of the coefficients times the length times (3 N + 5) 2^-53,
    and 3 N halves of the smallest number, for N coefficients. *)
Theorem C69_integrate : forall junk d l s m q mem M nbatch (coef : Z -> chunk_1d FA) (out : arr spec_float), float_cells d l -> nb_construct FA junk d false l = Ok (Some s) ->
  0 <= nbatch -> a_len out = nbatch -> (M * (last_break l - first_break l) <= bpow radix2 1000)%R -> (forall j, 0 <= j < nbatch -> float_coefficients (coef j) (cells l + d) M) ->
  exists out', integrate FA (NonUniform s) m q mem 0 (cells l + d) nbatch coef out = Ok out' /\ a_len out' = nbatch /\
    forall j, 0 <= j < nbatch -> fok (a_at out' j) /\
      exists I, integral (spline (held_knots s) (last_break l) d (cells l) (float_coefficient (coef j))) (first_break l) (last_break l) I /\
        (Rabs (fval (a_at out' j) - I) <= M * (last_break l - first_break l) * (IZR (3 * (cells l + d) + 5) / IZR (2 ^ 53)) + IZR (3 * (cells l + d)) * half_smallest)%R.
Proof. exact cells_integrate. Qed.
Print Assumptions C69_integrate.
(** When all the coefficients are equal to [v], the result is close to v times the length of the domain. *)
Theorem C69_constant : forall junk d l s m q mem c (v : spec_float) (out : arr spec_float), float_cells d l -> nb_construct FA junk d false l = Ok (Some s) ->
  a_len out = 1 -> fok v -> (Rabs (fval v) * (last_break l - first_break l) <= bpow radix2 1000)%R ->
  c1_front FA c = 0 -> c1_size FA c = cells l + d -> (forall i, 0 <= i < cells l + d -> a_at (c1_vals FA c) i = v) ->
  exists out', integrate FA (NonUniform s) m q mem 0 (cells l + d) 1 (fun _ => c) out = Ok out' /\ fok (a_at out' 0) /\
    (Rabs (fval (a_at out' 0) - fval v * (last_break l - first_break l)) <= Rabs (fval v) * (last_break l - first_break l) * (IZR (3 * (cells l + d) + 5) / IZR (2 ^ 53)) + IZR (3 * (cells l + d)) * half_smallest)%R.
Proof. exact cells_integrate_length. Qed.
Print Assumptions C69_constant.
(** The cells between 0, 1, 3, 7 and 12, cubic (and memory full of NaNs): a thousand times the integrals of the B-splines, with open and with periodic knots, and a thousand times the integral
    of the spline with coefficients 100 to 106. *)
Example C69_ex : float_cells 3 breaks_ex /\ (exists s, nb_construct FA (fun _ => S754_nan) 3 false breaks_ex = Ok (Some s)) /\
  float_coefficients cells_coefs_ex (cells breaks_ex + 3) 112 /\ (112 * (last_break breaks_ex - first_break breaks_ex) <= bpow radix2 1000)%R /\
  integrals_ex false 1000 = Some [250; 750; 1750; 3000; 2750; 2250; 1250] /\ integrals_ex true 1000 = Some [3000; 3000; 3000; 3000; 0; 0; 0] /\ integrate_ex 1000 = Some 1243000.
Proof.
  split; [exact cells_ex|]. split; [exact (cells_construct _ 3 false breaks_ex cells_ex (or_introl eq_refl))|]. split; [exact cells_coefs_ok|]. split; [exact bound_ex|]. vm_compute. repeat split.
Qed.
