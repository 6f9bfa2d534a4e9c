(** Property C70: Greville points of non-uniform cells computed in double precision ([FA], IEEE binary64 with rounding to nearest), without periodicity.
    [fok x]: x is a number (neither infinite nor NaN); [fval x] is its value.  [float_cells d l], [held_knots s], [first_break l], [last_break l] and [cells l] are in FloatNonUniformSpec;
    [greville_error d l] and [repeats_exactly d x] in FloatGrevilleSpec; the exact [greville t d i] (the average of the knots i + 1 to i + d) in PointsSpec. *)
From Coq Require Import Bool Reals ZArith List Lia Lra Floats.SpecFloat.
From Flocq Require Import Core.
From Verif Require Import BSplineModel BSplineSpec PointsModel EvaluatorModel EvaluatorSpec FloatLink FloatSpec FloatNonUniformSpec FloatGrevilleSpec FloatExamples FloatNonUniformTheorems FloatNonUniformExamples FloatGrevilleTheorems FloatGreville3.
Import ListNotations.
Local Open Scope Z_scope.

(** * C70 *)
(** The sampling of the Greville points is made: it has one point for each B-spline, in increasing order (two points may coincide), and each point is within [greville_error d l],
    that is (d + 2) 2^-53 times the size of the break points and half of the smallest number, of the average of the knots, so that no point leaves the interval by more. *)
Theorem C70_points : forall junk d l s, float_cells d l -> nb_construct FA junk d false l = Ok (Some s) ->
  exists p, ng_points FA s = Ok (Some p) /\ Z.of_nat (length (ns_points FA p)) = cells l + d /\
    (forall i x, nth_error (ns_points FA p) i = Some x -> fok x /\ (Rabs (fval x - greville (held_knots s) d (Z.of_nat i)) <= greville_error d l)%R /\
      (first_break l - greville_error d l <= fval x <= last_break l + greville_error d l)%R) /\
    (forall i j x y, (i <= j)%nat -> nth_error (ns_points FA p) i = Some x -> nth_error (ns_points FA p) j = Some y -> (fval x <= fval y)%R).
Proof. exact greville_points. Qed.
Print Assumptions C70_points.
(** When the ends can be added to themselves d times without rounding (always if d is at most 2), the first and the last point are the ends, and all points are in the interval. *)
Theorem C70_inside : forall junk d l s p, float_cells d l -> nb_construct FA junk d false l = Ok (Some s) -> ng_points FA s = Ok (Some p) ->
  repeats_exactly d (first_break l) -> repeats_exactly d (last_break l) ->
  (forall x, nth_error (ns_points FA p) 0 = Some x -> fval x = first_break l) /\
  (forall x, nth_error (ns_points FA p) (length (ns_points FA p) - 1) = Some x -> fval x = last_break l) /\
  (forall x, In x (ns_points FA p) -> (first_break l <= fval x <= last_break l)%R).
Proof. exact greville_inside. Qed.
Print Assumptions C70_inside.
(** Otherwise points may leave the interval: with the break points 0, 0.05 and 0.1 and degree 3 the last one is the number after 0.1. *)
Theorem C70_inside_refuted : ~ (forall junk d l s p x, float_cells d l -> nb_construct FA junk d false l = Ok (Some s) -> ng_points FA s = Ok (Some p) -> In x (ns_points FA p) ->
  (first_break l <= fval x <= last_break l)%R).
Proof. exact greville_inside_refuted. Qed.
Print Assumptions C70_inside_refuted.
(** There an evaluator with null extrapolation gives 0 for a spline that is 1 everywhere. *)
Theorem C70_value_refuted : exists junk d l s p m x (c : chunk_1d FA) y, float_cells d l /\ nb_construct FA junk d false l = Ok (Some s) /\ ng_points FA s = Ok (Some p) /\ In x (ns_points FA p) /\
  float_coefficients c (cells l + d) 1 /\ (forall i, 0 <= i < cells l + d -> float_coefficient c i = 1%R) /\
  eval FA (NonUniform s) m (null_rule FA) (null_rule FA) x c = Ok y /\ fval y = 0%R.
Proof. exact greville_value_refuted. Qed.
Print Assumptions C70_value_refuted.
(** Points of different B-splines may coincide, so that no interpolation has a unique solution: with the break points 1, 1 + 2^-52 and 2 and degree 3 the first two points are 1. *)
Theorem C70_distinct_refuted : ~ (forall junk d l s p i j x y, float_cells d l -> nb_construct FA junk d false l = Ok (Some s) -> ng_points FA s = Ok (Some p) ->
  (i < j)%nat -> nth_error (ns_points FA p) i = Some x -> nth_error (ns_points FA p) j = Some y -> (fval x < fval y)%R).
Proof. exact greville_distinct_refuted. Qed.
Print Assumptions C70_distinct_refuted.
(** The knots as interpolation points are the break points themselves, with or without periodicity: nothing is rounded, so that they are distinct and in the interval. *)
Theorem C70_knots : forall junk d periodic l s, float_cells d l -> nb_construct FA junk d periodic l = Ok (Some s) -> nk_points FA s = Ok (Some (mk_ns FA l 0)).
Proof. exact knot_points. Qed.
Print Assumptions C70_knots.
(** The cells between 0, 1, 3, 7 and 12, cubic: a thousand times the points. *)
Example C70_ex : float_cells 3 breaks_ex /\ (exists s, nb_construct FA (fun _ => S754_nan) 3 false breaks_ex = Ok (Some s)) /\
  repeats_exactly 3 (first_break breaks_ex) /\ repeats_exactly 3 (last_break breaks_ex) /\ greville_ex 1000 = Some [0; 333; 1333; 3666; 7333; 10333; 12000].
Proof.
  split; [exact cells_ex|]. split; [exact (cells_construct _ 3 false breaks_ex cells_ex (or_introl eq_refl))|]. split; [|split; [|vm_compute; reflexivity]].
  - right. exists 0. split; [exact (proj2 (fofz_exact 0 ltac:(lia))) | lia].
  - right. exists 12. split; [exact (proj2 (fofz_exact 12 ltac:(lia))) | lia].
Qed.
