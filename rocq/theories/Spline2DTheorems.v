(** The spline built takes the values at the points; instances. *)
From Coq Require Import Bool Reals Lia Lra ZArith.
From Verif Require Import Spline2DSpec Spline2DBuild Spline2DEval Spline2DEval2 Spline2DIntegral BuilderTheorems BuilderLemmas BuilderBand.
Local Open Scope bool_scope. Local Open Scope Z_scope.

Lemma points_inside solver s A bd : builder_for solver s A bd -> forall i, 0 <= i < ax_points A -> (ax_min A <= ax_point A i <= ax_max A)%R.
Proof. intros (start & coord & m & IP & _) i Hi. exact (proj2 (i_points _ _ _ _ _ _ _ _ _ _ _ _ _ _ IP i Hi)). Qed.

Theorem evaluates_2d : forall solver1 solver2 s1 s2 A1 A2 X bd1 bd2, builder_for solver1 s1 A1 bd1 -> builder_for solver2 s2 A2 bd2 -> exact_solvers X ->
  forall D, data_given A1 A2 D -> forall junk junk_min junk_max work1 work_min work_max work2 sp c, has_coefficients_2d sp (ax_size A1) (ax_size A2) ->
  run_2d s1 s2 A1 A2 X bd1 bd2 junk junk_min junk_max work1 work_min work_max work2 sp D = Ok c ->
  forall m1 m2 l1 u1 l2 u2 i j, 0 <= i < ax_points A1 -> 0 <= j < ax_points A2 ->
  eval_2d RA s1 s2 m1 m2 l1 u1 l2 u2 (ax_point A1 i) (ax_point A2 j) c = Ok (a2_at (c2_vals (dt_values D)) i j : num RA).
Proof.
  intros * B1 B2 HX D HD * Hsp E m1 m2 l1 u1 l2 u2 i j Hi Hj.
  destruct (build_2d_sound solver1 solver2 s1 s2 A1 A2 X bd1 bd2 B1 B2 D HD HX _ _ _ _ _ _ _ _ _ Hsp E) as (Hc & (Hv & _)).
  etransitivity; [apply (eval_2d_inside A1 A2 s1 s2 (builder_space _ _ _ _ B1) (builder_space _ _ _ _ B2) m1 m2 l1 u1 l2 u2 _ _ c Hc); [exact (points_inside _ _ _ _ B1 i Hi) | exact (points_inside _ _ _ _ B2 j Hj)]|].
  f_equal. exact (Hv i j Hi Hj).
Qed.

(** Degree 1 on [0, 2] with two cells and the points 0, 1, 2. *)
Definition line : axis := mk_axis 1 false 2 (uniform_knots 1 0 2 2) 0 2 GREVILLE GREVILLE 3 line_point.
Lemma line_builder : exists s bd, builder_for GINKGO s line bd /\ never_fails s line unit_solvers bd.
Proof.
  destruct (line_problem GINKGO) as (s & IP). pose (m := mk_scratch (A := RA) (fun _ => 0%R) (fun _ => 0%R) (fun _ => 0%R) (fun _ _ => 0%R) (fun _ _ => 0%R) (fun _ _ => 0%R)).
  destruct (line_construct GINKGO s m IP) as (bd & Hbd & Ho). exists s, bd. split.
  - exists 0, line_coord, m. split; [exact IP|]. split; [exact Hbd|]. split; [exact I | discriminate].
  - intros junk sp v dl du Hsp Hdl Hdu Hv.
    destruct (sparse_builds s 1 false 2 _ _ _ _ _ _ _ _ _ IP m bd Hbd ltac:(lia) unit_solvers unit_exact) with (junk := junk) (sp := sp) (v := v) (dl := dl) (du := du) as (c & Ec & _);
      [ | exact Hsp | exact Hdl | exact Hdu | exact Hv | exists c; exact Ec].
    intros A H1 H2 H3. cbn [unknowns] in *. apply unit_total; [exact H1 | exact H2 |]. intros i j Hi Hj. rewrite H3 by assumption. rewrite Ho. now apply line_collocation.
Qed.
Lemma line_value c i : 0 <= i < 3 -> spline_1d line c (ax_point line i) = c i.
Proof.
  intros Hi. unfold spline_1d, line, spline. cbn [ax_knots ax_max ax_degree ax_cells ax_point]. change (Z.to_nat (2 + 1)) with 3%nat.
  assert (K : forall j, 0 <= j < 3 -> bspline (uniform_knots 1 0 2 2) 2 (Z.to_nat 1) j (line_point i) = unit3 i j).
  { intros j Hj. rewrite <- (line_collocation i j Hi Hj). unfold collocation, unknowns. cbn [equations]. replace (i <? 0) with false by lia. replace (i <? 2 + 1 - 0) with true by lia.
    now rewrite Z.sub_0_r. }
  cbn [sum_first]. rewrite !K by lia. unfold unit3. change (Z.of_nat 0) with 0. change (Z.of_nat 1) with 1. change (Z.of_nat 2) with 2.
  assert (i = 0 \/ i = 1 \/ i = 2) as [-> | [-> | ->]] by lia; cbn [Z.eqb Pos.eqb]; lra.
Qed.
Lemma line_determined : determined line.
Proof. intros v w c c' (H & _) (H' & _) i Hi. rewrite <- (line_value c i), <- (line_value c' i) by exact Hi. rewrite H, H' by exact Hi. reflexivity. Qed.
(** Degree 3, periodic, on [0, 20] with 20 cells and the points 0, 1, ..., 19. *)
Definition circle_axis : axis := mk_axis 3 true 20 (uniform_knots 3 0 20 20) 0 20 PERIODIC PERIODIC 20 line_point.
Lemma circle_builder : exists s bd, builder_for GINKGO s circle_axis bd.
Proof.
  destruct (circle GINKGO) as (s & IP & H). pose (m := mk_scratch (A := RA) (fun _ => 0%R) (fun _ => 0%R) (fun _ => 0%R) (fun _ _ => 0%R) (fun _ _ => 0%R) (fun _ _ => 0%R)).
  destruct (H m) as (bd & Hbd & Su). exists s, bd, 0, line_coord, m. split; [exact IP|]. split; [exact Hbd|]. split; [exact I | discriminate].
Qed.
