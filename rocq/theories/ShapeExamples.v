(** Cases that meet the hypotheses of C59. *)
From Coq Require Import Bool Reals ZArith Lia Lra ZifyBool.
From Verif Require Import EvaluatorModel EvaluatorSpec EvaluatorLemmas ReproduceExamples ShapeSpec ShapeTheorems.
Local Open Scope Z_scope.
Definition squares : chunk_1d RA := mk_chunk_1d RA 0 (mk_arr 7 (fun i => IZR (i * i) : num RA)).
Definition waves : chunk_1d RA := mk_chunk_1d RA 0 (mk_arr 7 (fun i => IZR (i mod 4) : num RA)).
Lemma squares_slope i : slope (uniform_knots 3 0 4 4) 3 (coefficient squares) i = IZR (2 * i - 1).
Proof.
  unfold slope, coefficient, squares. cbn [c1_vals a_at]. rewrite !cubic_knot. replace (i + 3 - 3) with i by lia. rewrite <- (minus_IZR i), <- minus_IZR. replace (i - (i - 3)) with 3 by lia.
  replace (i * i - (i - 1) * (i - 1)) with (2 * i - 1) by lia. field.
Qed.
Lemma squares_example : exists s, spline_space s 3 false 4 (uniform_knots 3 0 4 4) 0 4 /\ has_coefficients squares (4 + 3) /\
  (forall i, 1 <= i < 7 -> (coefficient squares (i - 1) <= coefficient squares i)%R) /\
  (forall i, 1 <= i < 7 -> (1 <= slope (uniform_knots 3 0 4 4) 3 (coefficient squares) i <= 11)%R) /\
  (forall i, 1 <= i < 6 -> (slope (uniform_knots 3 0 4 4) 3 (coefficient squares) i <= slope (uniform_knots 3 0 4 4) 3 (coefficient squares) (i + 1))%R) /\
  order_allowed 3 0 /\ order_allowed 3 1 /\ order_allowed 3 2 /\ order_allowed 3 3 /\ ~ is_knot (uniform_knots 3 0 4 4) (1 / 2) /\
  forall m, exists v : R, eval RA s m (null_rule RA) (null_rule RA) (3 / 2)%R squares = Ok v /\ (1 <= v <= 16)%R.
Proof.
  destruct (proj1 spaces_exist 0%nat 3 false 0%R 4%R 4 ltac:(lia) ltac:(lia) ltac:(lra) ltac:(lia)) as (s & Hs & _). exists (Uniform s).
  assert (Hc : has_coefficients squares (4 + 3)) by (split; reflexivity).
  split; [exact Hs|]. split; [exact Hc|]. split; [|split; [|split; [|split; [|split; [|split; [|split; [|split]]]]]]].
  - intros i Hi. unfold coefficient, squares. cbn [c1_vals a_at]. apply IZR_le. nia.
  - intros i Hi. rewrite squares_slope. split; apply IZR_le; lia.
  - intros i Hi. rewrite !squares_slope. apply IZR_le. lia.
  - split; [lia | reflexivity].
  - split; [lia | reflexivity].
  - split; [lia | reflexivity].
  - split; [lia | reflexivity].
  - intros (k & Hk). rewrite cubic_knot in Hk. assert (E : IZR (2 * (k - 3)) = 1%R) by (rewrite mult_IZR; lra). apply eq_IZR in E. lia.
  - intros m. apply (cell_between _ _ _ _ _ _ _ Hs m (null_rule RA) (null_rule RA) squares 4 (3 / 2) 1 16 Hc); [lia | rewrite !cubic_knot; change (4 + 1 - 3) with 2; change (4 - 3) with 1; lra|].
    intros i Hi. unfold coefficient, squares. cbn [c1_vals a_at]. split; apply IZR_le; nia.
Qed.
Lemma waves_example : exists s, spline_space s 3 true 4 (uniform_knots 3 0 4 4) 0 4 /\ has_coefficients waves (4 + 3) /\ periodic_coefficients (coefficient waves) 3 4.
Proof.
  destruct (proj1 spaces_exist 0%nat 3 true 0%R 4%R 4 ltac:(lia) ltac:(lia) ltac:(lra) ltac:(lia)) as (s & Hs & _). exists (Uniform s). split; [exact Hs|]. split; [split; reflexivity|].
  intros i Hi. unfold coefficient, waves. cbn [c1_vals a_at]. f_equal. replace (4 + i) with (i + 1 * 4) by lia. apply Z.mod_add. lia.
Qed.
