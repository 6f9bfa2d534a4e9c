(** C56: examples, and a grid that is accepted without determining a spline. *)
From Coq Require Import Bool Reals ZArith Lia Lra ZifyBool List.
From Verif Require Import BSplineSpec BSplineMath BSplineDeriv EvaluatorSpec EvaluatorSpace EvaluatorLemmas BuilderSpec BuilderLemmas BuilderTheorems BuilderPoints PointsModel PointsSpec Spline2DSpec Spline2DBuild Spline2DTheorems
  WellPosedSpec WellPosedProofs WellPosedPoints WellPosedBuild WellPosedAlternative WellPosedTheorems LinearGauss.
Import ListNotations.
Local Open Scope bool_scope. Local Open Scope Z_scope.

Definition gap_point (i : Z) : R := if i =? 0 then 0%R else if i =? 1 then (1 / 2)%R else if i =? 2 then (3 / 2)%R else 2%R.
Definition gap_coord (i : Z) : res R := Ok (gap_point i).
Lemma gap_knot k : uniform_knots 1 0 3 3 k = IZR (k - 1). Proof. unfold uniform_knots. field. Qed.
Lemma upto4 i : 0 <= i < 4 -> i = 0 \/ i = 1 \/ i = 2 \/ i = 3. Proof. lia. Qed.
Lemma gap_increasing : increasing_points 4 gap_point.
Proof. intros i j Hi Hij Hj. destruct (upto4 i ltac:(lia)) as [-> | [-> | [-> | ->]]], (upto4 j ltac:(lia)) as [-> | [-> | [-> | ->]]]; try lia; unfold gap_point; cbn; lra. Qed.
Lemma gap_problem : exists s, interpolation GINKGO s 1 false 3 (uniform_knots 1 0 3 3) 0 3 GREVILLE GREVILLE 0 4 gap_coord gap_point.
Proof.
  destruct (proj1 spaces_exist 0%nat 1 false 0%R 3%R 3 ltac:(lia) ltac:(lia) ltac:(lra) ltac:(lia)) as (s & Hs & _). exists (Uniform s). constructor; try discriminate; try lia.
  - exact Hs.
  - split; discriminate.
  - intros i Hi. split; [reflexivity|]. destruct (upto4 i Hi) as [-> | [-> | [-> | ->]]]; unfold gap_point; cbn; lra.
  - cbn; lia.
Qed.
Lemma gap_not_crowded c : ~ crowded (uniform_knots 1 0 3 3) 1 3 4 gap_point c.
Proof.
  intros [Hc H]. unfold points_in in H. rewrite !gap_knot in H. change (Z.to_nat 4) with 4%nat in H. cbn [seq filter] in H. unfold gap_point in H.
  change (Z.of_nat 0) with 0 in H. change (Z.of_nat 1) with 1 in H. change (Z.of_nat 2) with 2 in H. change (Z.of_nat 3) with 3 in H.
  cbn [Z.eqb Pos.eqb] in H.
  assert (c = 1 \/ c = 2 \/ c = 3) as [-> | [-> | ->]] by lia; cbn [Z.sub Z.add Z.opp Z.pos_sub Pos.add Pos.succ Pos.pred_double Pos.add_carry] in H;
    repeat match type of H with context [Rle_dec ?u ?v] => destruct (Rle_dec u v); try (exfalso; lra) end; cbn in H; lia.
Qed.
Theorem gap : exists s, interpolation GINKGO s 1 false 3 (uniform_knots 1 0 3 3) 0 3 GREVILLE GREVILLE 0 4 gap_coord gap_point /\ increasing_points 4 gap_point /\
  occupied (uniform_knots 1 0 3 3) 1 3 4 gap_point /\ (forall m, exists bd, builder_construct RA s m GINKGO GREVILLE GREVILLE 0 4 gap_coord = Ok bd) /\
  ~ well_posed false (uniform_knots 1 0 3 3) 0 3 1 3 GREVILLE GREVILLE 4 gap_point /\
  exists v, forall m bd X junk sp vals dl du c, builder_construct RA s m GINKGO GREVILLE GREVILLE 0 4 gap_coord = Ok bd -> exact_solvers X -> has_coefficients sp 4 ->
    (forall i, 0 <= i < 4 -> a_at vals i = v i) -> build RA s GREVILLE GREVILLE X bd junk sp vals dl du <> Ok c.
Proof.
  destruct gap_problem as (s & IP). exists s. split; [exact IP|]. split; [exact gap_increasing|]. pose proof (space_facts _ _ _ _ _ _ _ (i_space _ _ _ _ _ _ _ _ _ _ _ _ _ _ IP)) as F.
  assert (NW : ~ well_posed false (uniform_knots 1 0 3 3) 0 3 1 3 GREVILLE GREVILLE 4 gap_point).
  { intros W. apply (schoenberg_whitney s 1 3 _ 0%R 3%R F GREVILLE GREVILLE 4 gap_point (i_closures _ _ _ _ _ _ _ _ _ _ _ _ _ _ IP) eq_refl) in W;
      [|intros i Hi; exact (proj2 (i_points _ _ _ _ _ _ _ _ _ _ _ _ _ _ IP i Hi)) | exact gap_increasing].
    destruct W as [W _]. pose proof (proj1 (W 3 ltac:(lia)) ltac:(cbn [equations]; lia)) as K. rewrite gap_knot in K. cbn in K. lra. }
  split; [|split; [|split; [exact NW|]]].
  - intros c Hc. rewrite !gap_knot. assert (c = 1 \/ c = 2 \/ c = 3) as [-> | [-> | ->]] by lia; [exists 0 | exists 2 | exists 3]; (split; [lia|]); unfold gap_point; cbn; lra.
  - intros m. destruct (constructs _ _ _ _ _ _ _ _ _ _ _ _ _ _ IP gap_increasing eq_refl gap_not_crowded m) as (off & _ & K). destruct (K I) as (bd & E & _). exists bd. exact E.
  - destruct (singular _ _ _ _ _ _ _ _ _ _ _ _ _ IP eq_refl NW) as (v & wl & wu & K). exists v. intros m bd X junk sp vals dl du c E Hex Hsp Hv. apply (K m bd X junk sp vals dl du c E Hex Hsp Hv); intros i Hi; cbn [equations] in Hi; lia.
Qed.

(** The points 0, 1, ..., 19 of a circle of length 20, degree 3. *)
Lemma circle_posed : posed circle_axis.
Proof.
  destruct (proj1 spaces_exist 0%nat 3 true 0%R 20%R 20 ltac:(lia) ltac:(lia) ltac:(lra) ltac:(lia)) as (s0 & Hs & _).
  apply (periodic_breaks_well_posed (Uniform s0) 3 20 _ 0%R 20%R Hs line_point eq_refl). intros i Hi. rewrite circle_knot. unfold line_point. f_equal. lia.
Qed.
Lemma circle_built : exists s bd, builder_for GINKGO s circle_axis bd /\ bd_offset bd = 1.
Proof.
  destruct (proj1 spaces_exist 0%nat 3 true 0%R 20%R 20 ltac:(lia) ltac:(lia) ltac:(lra) ltac:(lia)) as (s0 & Hs & _).
  assert (IP : interpolation GINKGO (Uniform s0) 3 true 20 (uniform_knots 3 0 20 20) 0 20 PERIODIC PERIODIC 0 20 line_coord line_point).
  { constructor; try discriminate; try lia.
    - exact Hs.
    - split; reflexivity.
    - intros i Hi. split; [reflexivity|]. unfold line_point. split; apply IZR_le; lia.
    - cbn -[Z.pow]. lia. }
  pose (m := mk_scratch (A := RA) (fun _ => 0%R) (fun _ => 0%R) (fun _ => 0%R) (fun _ _ => 0%R) (fun _ _ => 0%R) (fun _ _ => 0%R)).
  assert (Hx : forall i, 0 <= i < 20 -> line_point i = greville (uniform_knots 3 0 20 20) 3 (i + 3 / 2)).
  { intros i Hi. rewrite greville_uniform by lia. rewrite circle_knot. unfold line_point. change (3 / 2) with 1. rewrite minus_IZR, plus_IZR. field. }
  assert (Hinc : increasing_points 20 line_point) by (intros i j Hi Hij Hj; apply IZR_lt; lia).
  destruct (constructs GINKGO (Uniform s0) 3 true 20 _ 0%R 20%R PERIODIC PERIODIC 0 20 line_coord line_point IP Hinc eq_refl) with (m := m) as (off & Eo & K).
  { exact (not_crowded _ _ _ _ _ _ _ _ _ _ _ (space_facts _ _ _ _ _ _ _ Hs) (proj2 circle_posed)). }
  pose proof (uniform_offset GINKGO (Uniform s0) 3 20 0%R 20%R 0 20 line_coord line_point IP eq_refl eq_refl Hx m) as Eo'. change (num RA) with R in *. rewrite Eo in Eo'.
  destruct (K I) as (bd & Hbd & Eb). exists (Uniform s0), bd. split.
  - exists 0, line_coord, m. split; [exact IP|]. split; [exact Hbd|]. split; [exact I | discriminate].
  - rewrite Eb. assert (off = 3 / 2 - 0) as -> by congruence. reflexivity.
Qed.
Lemma line_posed : posed line.
Proof.
  destruct (proj1 spaces_exist 0%nat 1 false 0%R 2%R 2 ltac:(lia) ltac:(lia) ltac:(lra) ltac:(lia)) as (s0 & Hs & _).
  apply (greville_well_posed (Uniform s0) 1 2 _ 0%R 2%R Hs GREVILLE GREVILLE line_point).
  - split; discriminate.
  - intros i Hi. cbn [equations]. rewrite greville_uniform by lia. unfold uniform_knots, line_point. rewrite Z.add_0_r, minus_IZR. field.
  - intros i Hi. unfold line_point. split; apply IZR_le; cbn in Hi; lia.
Qed.

(** Break points 0, 1, 3, and 0, 1, 3, 4. *)
Lemma uneven : strictly_increasing [0; 1; 3]%R /\ strictly_increasing [0; 1; 3; 4]%R.
Proof.
  split; intros i j x y Hij Hx Hy; [destruct i as [|[|[|i]]], j as [|[|[|j]]] | destruct i as [|[|[|[|i]]]], j as [|[|[|[|j]]]]]; cbn in Hx, Hy; try lia; try discriminate;
    try (destruct i; discriminate); try (destruct j; discriminate); injection Hx as <-; injection Hy as <-; lra.
Qed.
(** Degree 2, periodic, four cells: the points 0, 1, 2, 3. *)
Lemma square_problem : exists s, interpolation GINKGO s 2 true 4 (uniform_knots 2 0 4 4) 0 4 PERIODIC PERIODIC 0 4 line_coord line_point /\
  forall i, 0 <= i < 4 -> line_point i = uniform_knots 2 0 4 4 (2 + i).
Proof.
  destruct (proj1 spaces_exist 0%nat 2 true 0%R 4%R 4 ltac:(lia) ltac:(lia) ltac:(lra) ltac:(lia)) as (s & Hs & _). exists (Uniform s). split.
  - constructor; try discriminate; try lia.
    + exact Hs.
    + split; reflexivity.
    + intros i Hi. split; [reflexivity|]. unfold line_point. split; apply IZR_le; lia.
    + cbn -[Z.pow]. lia.
  - intros i Hi. unfold uniform_knots, line_point. replace (2 + i - 2) with i by lia. field.
Qed.
(** Degree 2, Hermite at both ends: the break points 0, 1, ..., 4. *)
Lemma clamped_problem : exists s, interpolation GINKGO s 2 false 4 (uniform_knots 2 0 4 4) 0 4 HERMITE HERMITE 0 5 line_coord line_point.
Proof.
  destruct (proj1 spaces_exist 0%nat 2 false 0%R 4%R 4 ltac:(lia) ltac:(lia) ltac:(lra) ltac:(lia)) as (s & Hs & _). exists (Uniform s). constructor; try discriminate; try lia.
  - exact Hs.
  - split; discriminate.
  - intros i Hi. split; [reflexivity|]. unfold line_point. split; apply IZR_le; lia.
  - intros _. reflexivity.
  - cbn -[Z.pow]. lia.
Qed.
(** Degree 1, knots 0, 1, 2, 3: the points 0, 1/2, 2, 3. *)
Lemma nested_case : exists x, increasing_points 4 x /\ nested (uniform_knots 1 0 3 3) 1 3 (equations GREVILLE 1) 4 x /\ anchored 1 GREVILLE GREVILLE 0 3 4 x /\ x 1 = (1 / 2)%R.
Proof.
  exists (fun i => if i =? 0 then 0%R else if i =? 1 then (1 / 2)%R else if i =? 2 then 2%R else 3%R). split; [|split; [|split; [discriminate | reflexivity]]].
  - intros i j Hi Hij Hj. destruct (upto4 i ltac:(lia)) as [-> | [-> | [-> | ->]]], (upto4 j ltac:(lia)) as [-> | [-> | [-> | ->]]]; try lia; cbn; lra.
  - intros i Hi. cbn [equations]. rewrite !gap_knot. destruct (upto4 i Hi) as [-> | [-> | [-> | ->]]]; cbn; split; intros; try lia; lra.
Qed.
(** Coefficients 1, 0, 1, 0, ... on the circle. *)
Lemma circle_reproduces : exists s bd, builder_for GINKGO s circle_axis bd /\ let g := fun i => if Z.even i then 1%R else 0%R in periodic_coefficients g 3 20 /\
  exists c, build RA s PERIODIC PERIODIC gauss_solvers bd (fun _ => 9%R) (mk_chunk_1d RA 0 (mk_arr 23 (fun _ => 9%R : num RA))) (mk_arr 20 (fun i => spline_1d circle_axis g (line_point i)) : arr (num RA)) None None = Ok c /\
    forall i, 0 <= i < 23 -> coefficient c i = g i.
Proof.
  destruct circle_built as (s & bd & B & O). exists s, bd. split; [exact B|]. intros g.
  assert (P : periodic_coefficients g 3 20). { intros i Hi. unfold g. replace (Z.even (20 + i)) with (Z.even i); [reflexivity|]. rewrite Z.even_add. destruct (Z.even i); reflexivity. }
  split; [exact P|].
  destruct (posed_never_fails s circle_axis gauss_solvers bd circle_posed B ltac:(rewrite O; cbn; lia) gauss_exact gauss_regular (fun _ => 9%R) (mk_chunk_1d RA 0 (mk_arr 23 (fun _ => 9%R : num RA)))
    (mk_arr 20 (fun i => spline_1d circle_axis g (line_point i)) : arr (num RA)) None None) as (c & E).
  - split; reflexivity.
  - exact I.
  - exact I.
  - reflexivity.
  - exists c. split; [exact E|]. refine (proj1 (reproduces circle_axis (posed_determined _ circle_posed) GINKGO s bd gauss_solvers B gauss_exact g (fun _ => P) _ None None _ _ _ _ _ c _ E)).
    + reflexivity.
    + intros i Hi. cbn in Hi. lia.
    + intros i Hi. cbn in Hi. lia.
    + split; reflexivity.
Qed.
