(** Property C56: which interpolation problems have exactly one solution.
    [solution periodic t a b d ncells lower upper n x v wl wu c] (WellPosedSpec): the spline of degree d with coefficients c takes the values v at the n points x, has the derivatives wl at a and wu at b that
    the closures ask for, and is periodic if asked.  [well_posed]: there is exactly one such spline whatever v, wl and wu.  [nested] and [anchored]: where the points are among the knots. *)
From Coq Require Import Bool Reals Lia Lra List ZArith.
From Verif Require Import WellPosedSpec EvaluatorSpec EvaluatorSpace EvaluatorLemmas BuilderTheorems BuilderLemmas BuilderPoints PointsModel PointsSpec Spline2DTheorems Spline3DSpec
  WellPosedProofs WellPosedPoints WellPosedBuild WellPosedAlternative WellPosedTheorems WellPosedExamples LinearGauss.
Import ListNotations SplineNDSpec.
Local Open Scope bool_scope. Local Open Scope Z_scope.

(** * C56 *)
(** Without periodicity: there is exactly one solution if and only if each point is inside the support of the B-spline of the same number (Schoenberg and Whitney). *)
Theorem C56_schoenberg_whitney : forall s d ncells t a b lower upper x, spline_space s d false ncells t a b -> closures_for false lower upper ->
  let n := points_expected false d ncells lower upper in (forall i, 0 <= i < n -> (a <= x i <= b)%R) -> increasing_points n x ->
  (well_posed false t a b d ncells lower upper n x <-> nested t d ncells (equations lower d) n x /\ anchored d lower upper a b n x).
Proof. exact whitney. Qed.
Print Assumptions C56_schoenberg_whitney.
(** With or without periodicity: uniqueness and existence are the same thing; without them, some values cannot be interpolated at all. *)
Theorem C56_alternative : forall s d periodic ncells t a b lower upper x, spline_space s d periodic ncells t a b -> closures_for periodic lower upper ->
  let n := points_expected periodic d ncells lower upper in
  (at_most_one periodic t a b d ncells lower upper n x <-> forall v wl wu, exists c, solution periodic t a b d ncells lower upper n x v wl wu c) /\
  (~ well_posed periodic t a b d ncells lower upper n x -> exists v wl wu, forall c, ~ solution periodic t a b d ncells lower upper n x v wl wu c).
Proof. exact unique_or_impossible. Qed.
Print Assumptions C56_alternative.

(** The points that the library proposes. Averages of knots, without periodicity; *)
Theorem C56_greville_points : forall s d ncells t a b lower upper x, spline_space s d false ncells t a b -> closures_for false lower upper ->
  let n := points_expected false d ncells lower upper in (forall i, 0 <= i < n -> x i = greville t d (i + equations lower d) /\ (a <= x i <= b)%R) ->
  well_posed false t a b d ncells lower upper n x.
Proof. exact greville_posed. Qed.
Print Assumptions C56_greville_points.
(** the knots, for odd degrees: with derivatives at both ends, *)
Theorem C56_knot_points : forall s d ncells t a b lower upper x, spline_space s d false ncells t a b -> is_hermite lower = true -> is_hermite upper = true -> Z.odd d = true ->
  (forall i, 0 <= i <= ncells -> x i = t (d + i)) -> points_expected false d ncells lower upper = ncells + 1 /\ well_posed false t a b d ncells lower upper (ncells + 1) x.
Proof. exact breaks_posed. Qed.
Print Assumptions C56_knot_points.
(** and in periodic spaces; *)
Theorem C56_periodic_knots : forall s d ncells t a b x, spline_space s d true ncells t a b -> Z.odd d = true -> (forall i, 0 <= i < ncells -> x i = t (d + i)) ->
  well_posed true t a b d ncells PERIODIC PERIODIC ncells x.
Proof. exact (fun s d ncells t a b x HS => periodic_breaks_well_posed s d ncells t a b HS x). Qed.
Print Assumptions C56_periodic_knots.
(** averages of knots in periodic spaces, uniform or with an odd number of cells; *)
Theorem C56_periodic_greville : forall s d ncells t a b x m, spline_space s d true ncells t a b -> bs_uniform RA s = true \/ Z.odd ncells = true ->
  (forall i, 0 <= i < ncells -> x i = greville t d (i + m) /\ (a <= x i <= b)%R) -> well_posed true t a b d ncells PERIODIC PERIODIC ncells x.
Proof. exact periodic_greville_posed. Qed.
Print Assumptions C56_periodic_greville.
(** and any points inside the supports of consecutive B-splines, with an odd number of cells. *)
Theorem C56_periodic_odd : forall s d ncells t a b x m, spline_space s d true ncells t a b -> Z.odd ncells = true -> (forall i, 0 <= i < ncells -> (a <= x i <= b)%R) -> increasing_points ncells x ->
  nested_periodic t a b d m ncells x -> well_posed true t a b d ncells PERIODIC PERIODIC ncells x.
Proof. exact odd_posed. Qed.
Print Assumptions C56_periodic_odd.

(** The functions of the library that compute points return such points: for non-uniform spaces, *)
Theorem C56_library_nonuniform : forall q d (l : list R) lower upper junk, 1 <= d -> (2 <= length l)%nat -> strictly_increasing l -> Z.of_nat (length l) + 3 * d < 2 ^ 31 -> lower <> PERIODIC -> upper <> PERIODIC ->
  let ncells := Z.of_nat (length l) - 1 in let N := points_expected false d ncells lower upper in
  exists s x, nb_construct RA junk d false l = Ok (Some s) /\ ng_points_with_bcs RA q lower upper s = Ok (Some (mk_ns RA (points_of N x) 0)) /\
    well_posed false (knots false d l) (first_point l) (last_point l) d ncells lower upper N x.
Proof. exact library_open. Qed.
Print Assumptions C56_library_nonuniform.
(** for uniform ones, *)
Theorem C56_library_uniform : forall q d (a b : R) ncells lower upper, 1 <= d <= 8 -> 3 <= ncells -> (a < b)%R -> ncells + 1 + 2 * d < 2 ^ 31 -> lower <> PERIODIC -> upper <> PERIODIC ->
  let N := points_expected false d ncells lower upper in
  exists s x, ub_construct RA q d false a b ncells = Ok s /\ ug_points RA lower upper s = Ok (Some (mk_ns RA (points_of N x) 0)) /\
    well_posed false (uniform_knots d a b ncells) a b d ncells lower upper N x.
Proof. exact library_uniform. Qed.
Print Assumptions C56_library_uniform.
(** for those whose points are uniform too, *)
Theorem C56_library_uniform_sampling : forall q d (periodic : bool) (a b : R) ncells lower upper, 1 <= d -> 1 <= ncells -> (a < b)%R -> ncells + 1 + 2 * d < 2 ^ 31 ->
  is_uniform_points lower upper d periodic = true -> closures_for periodic lower upper ->
  let N := points_expected periodic d ncells lower upper in
  exists s u x, ub_construct RA q d periodic a b ncells = Ok s /\ ug_sampling RA s = Ok u /\ (forall k, 0 <= k < N -> us_coordinate RA u k = (x k : num RA)) /\
    well_posed periodic (uniform_knots d a b ncells) a b d ncells lower upper N x.
Proof. exact library_uniform_sampling. Qed.
Print Assumptions C56_library_uniform_sampling.
(** and for non-uniform periodic spaces with an odd number of cells. *)
Theorem C56_library_periodic : forall q d (l : list R) junk, 1 <= d -> (2 <= length l)%nat -> strictly_increasing l -> Z.of_nat (length l) + 3 * d < 2 ^ 31 ->
  let ncells := Z.of_nat (length l) - 1 in d <= ncells -> Z.odd ncells = true ->
  exists s x, nb_construct RA junk d true l = Ok (Some s) /\ ng_points_with_bcs RA q PERIODIC PERIODIC s = Ok (Some (mk_ns RA (points_of (ncells + 1) x) 0)) /\
    well_posed true (knots true d l) (first_point l) (last_point l) d ncells PERIODIC PERIODIC ncells x.
Proof. exact library_periodic. Qed.
Print Assumptions C56_library_periodic.

(** Problems with exactly one solution are accepted by the builder, *)
Theorem C56_accepts : forall s d periodic ncells t a b lower upper start n coord x,
  interpolation GINKGO s d periodic ncells t a b lower upper start n coord x -> increasing_points n x -> n = points_expected periodic d ncells lower upper ->
  well_posed periodic t a b d ncells lower upper n x ->
  forall m, exists bd, builder_construct RA s m GINKGO lower upper start n coord = Ok bd.
Proof. exact accepts. Qed.
Print Assumptions C56_accepts.
(** (with LAPACK, if the matrix fits in the storage that is used for it), *)
Theorem C56_accepts_lapack : forall s d periodic ncells t a b lower upper start n coord x,
  interpolation LAPACK s d periodic ncells t a b lower upper start n coord x -> increasing_points n x -> n = points_expected periodic d ncells lower upper ->
  well_posed periodic t a b d ncells lower upper n x ->
  forall m, exists off, compute_offset RA s m start coord = Ok off /\
    (suited LAPACK (bs_uniform RA s) periodic t a b d ncells lower upper x off -> exists bd, builder_construct RA s m LAPACK lower upper start n coord = Ok bd).
Proof. exact accepts_lapack. Qed.
Print Assumptions C56_accepts_lapack.
(** which then computes the solution, if the iterative solver converges for matrices that can be inverted. *)
Theorem C56_builds : forall s d periodic ncells t a b lower upper start n coord x,
  interpolation GINKGO s d periodic ncells t a b lower upper start n coord x -> well_posed periodic t a b d ncells lower upper n x ->
  forall m bd, builder_construct RA s m GINKGO lower upper start n coord = Ok bd -> (periodic = true -> 0 <= bd_offset bd <= d) ->
  forall X junk sp v dl du, exact_solvers X -> regular_bicgstab X -> has_coefficients sp (ncells + d) -> derivatives_given lower d dl -> derivatives_given upper d du -> a_len v = n ->
  exists c, build RA s lower upper X bd junk sp v dl du = Ok c /\ has_coefficients c (ncells + d) /\
    interpolates periodic t a b d ncells n lower upper x (a_at v) dl du (coefficient c) /\
    forall c', interpolates periodic t a b d ncells n lower upper x (a_at v) dl du c' -> forall i, 0 <= i < ncells + d -> c' i = coefficient c i.
Proof. exact builds_posed. Qed.
Print Assumptions C56_builds.
(** The result depends on the data only: not on the solver, nor on what was in memory. *)
Theorem C56_same_result : forall A, posed A -> forall solver1 s1 bd1 X1 solver2 s2 bd2 X2, builder_for solver1 s1 A bd1 -> exact_solvers X1 -> builder_for solver2 s2 A bd2 -> exact_solvers X2 ->
  forall junk1 sp1 junk2 sp2 v dl du c1 c2, has_coefficients sp1 (ax_size A) -> has_coefficients sp2 (ax_size A) ->
  build RA s1 (ax_lower A) (ax_upper A) X1 bd1 junk1 sp1 v dl du = Ok c1 -> build RA s2 (ax_lower A) (ax_upper A) X2 bd2 junk2 sp2 v dl du = Ok c2 ->
  forall i, 0 <= i < ax_size A -> coefficient c1 i = coefficient c2 i.
Proof. exact (fun A P => same_result A (posed_determined A P)). Qed.
Print Assumptions C56_same_result.
(** Splines are reproduced: what is built from the values and derivatives of a spline is this spline, and the evaluator returns its values everywhere. *)
Theorem C56_reproduces : forall A, posed A -> forall solver s bd X, builder_for solver s A bd -> exact_solvers X ->
  forall g : Z -> R, (ax_periodic A = true -> periodic_coefficients g (ax_degree A) (ax_cells A)) ->
  forall v dl du, (forall i, 0 <= i < ax_points A -> a_at v i = spline_1d A g (ax_point A i)) -> derivatives_1d A Lower g (asked (ax_lower A) dl) -> derivatives_1d A Upper g (asked (ax_upper A) du) ->
  forall junk sp c, has_coefficients sp (ax_size A) -> build RA s (ax_lower A) (ax_upper A) X bd junk sp v dl du = Ok c ->
  (forall i, 0 <= i < ax_size A -> coefficient c i = g i) /\
  forall m lower upper y, (ax_min A <= y <= ax_max A)%R -> eval RA s m lower upper y c = Ok (spline_1d A g y : num RA).
Proof. exact (fun A P => reproduces A (posed_determined A P)). Qed.
Print Assumptions C56_reproduces.
(** The hypotheses of C42 and C55 on the dimensions and on the builders follow. *)
Theorem C56_dimension : forall A, posed A -> determined A /\
  forall s X bd, builder_for GINKGO s A bd -> (ax_periodic A = true -> 0 <= bd_offset bd <= ax_degree A) -> exact_solvers X -> regular_bicgstab X -> never_fails s A X bd.
Proof. exact (fun A P => conj (posed_determined A P) (fun s X bd => posed_never_fails s A X bd P)). Qed.
Print Assumptions C56_dimension.
(** In two dimensions, *)
Theorem C56_builds_2d : forall s1 s2 A1 A2 X bd1 bd2, builder_for GINKGO s1 A1 bd1 -> builder_for GINKGO s2 A2 bd2 -> posed A1 -> posed A2 ->
  (ax_periodic A1 = true -> 0 <= bd_offset bd1 <= ax_degree A1) -> (ax_periodic A2 = true -> 0 <= bd_offset bd2 <= ax_degree A2) -> exact_solvers X -> regular_bicgstab X ->
  forall D, data_given A1 A2 D -> forall junk junk_min junk_max work1 work_min work_max work2 sp, has_coefficients_2d sp (ax_size A1) (ax_size A2) ->
  exists c, run_2d s1 s2 A1 A2 X bd1 bd2 junk junk_min junk_max work1 work_min work_max work2 sp D = Ok c /\ has_coefficients_2d c (ax_size A1) (ax_size A2) /\
    interpolates_2d A1 A2 D (coefficient_2d c) /\ periodic_2d A1 A2 (coefficient_2d c).
Proof. exact builds_2d. Qed.
Print Assumptions C56_builds_2d.
Theorem C56_same_result_2d : forall A1 A2, posed A1 -> posed A2 ->
  forall solver1 solver2 s1 s2 bd1 bd2 X solver1' solver2' s1' s2' bd1' bd2' X', builder_for solver1 s1 A1 bd1 -> builder_for solver2 s2 A2 bd2 -> exact_solvers X ->
  builder_for solver1' s1' A1 bd1' -> builder_for solver2' s2' A2 bd2' -> exact_solvers X' ->
  forall D, data_given A1 A2 D -> forall j1 j2 j3 j4 j5 j6 j7 sp c j1' j2' j3' j4' j5' j6' j7' sp' c', has_coefficients_2d sp (ax_size A1) (ax_size A2) -> has_coefficients_2d sp' (ax_size A1) (ax_size A2) ->
  run_2d s1 s2 A1 A2 X bd1 bd2 j1 j2 j3 j4 j5 j6 j7 sp D = Ok c -> run_2d s1' s2' A1 A2 X' bd1' bd2' j1' j2' j3' j4' j5' j6' j7' sp' D = Ok c' ->
  forall i j, 0 <= i < ax_size A1 -> 0 <= j < ax_size A2 -> coefficient_2d c i j = coefficient_2d c' i j.
Proof. exact (fun A1 A2 P1 P2 => same_result_2d A1 A2 (posed_determined A1 P1) (posed_determined A2 P2)). Qed.
Print Assumptions C56_same_result_2d.
(** and in three. *)
Theorem C56_builds_3d : forall s1 s2 s3 A1 A2 A3 X bd1 bd2 bd3, builder_for GINKGO s1 A1 bd1 -> builder_for GINKGO s2 A2 bd2 -> builder_for GINKGO s3 A3 bd3 -> posed A1 -> posed A2 -> posed A3 ->
  (ax_periodic A1 = true -> 0 <= bd_offset bd1 <= ax_degree A1) -> (ax_periodic A2 = true -> 0 <= bd_offset bd2 <= ax_degree A2) -> (ax_periodic A3 = true -> 0 <= bd_offset bd3 <= ax_degree A3) ->
  exact_solvers X -> regular_bicgstab X -> forall D, data_given_3d A1 A2 A3 D -> supported A2 A3 ->
  forall junk work work23 sp, has_coefficients_nd sp [ax_size A1; ax_size A2; ax_size A3] ->
  exists c, run_3d s1 s2 s3 A1 A2 A3 X bd1 bd2 bd3 junk work work23 sp D = Ok c /\ has_coefficients_nd c [ax_size A1; ax_size A2; ax_size A3] /\
    interpolates_3d A1 A2 A3 D (coefficient_nd c) /\ periodic_nd [A1; A2; A3] (coefficient_nd c).
Proof. exact posed_builds_3d. Qed.
Print Assumptions C56_builds_3d.
Theorem C56_same_result_3d : forall A1 A2 A3, posed A1 -> posed A2 -> posed A3 ->
  forall solver1 solver2 solver3 s1 s2 s3 bd1 bd2 bd3 X solver1' solver2' solver3' s1' s2' s3' bd1' bd2' bd3' X',
  builder_for solver1 s1 A1 bd1 -> builder_for solver2 s2 A2 bd2 -> builder_for solver3 s3 A3 bd3 -> exact_solvers X ->
  builder_for solver1' s1' A1 bd1' -> builder_for solver2' s2' A2 bd2' -> builder_for solver3' s3' A3 bd3' -> exact_solvers X' ->
  forall D, data_given_3d A1 A2 A3 D -> supported A2 A3 -> forall junk work work23 sp c junk' work' work23' sp' c',
  has_coefficients_nd sp [ax_size A1; ax_size A2; ax_size A3] -> has_coefficients_nd sp' [ax_size A1; ax_size A2; ax_size A3] ->
  run_3d s1 s2 s3 A1 A2 A3 X bd1 bd2 bd3 junk work work23 sp D = Ok c -> run_3d s1' s2' s3' A1 A2 A3 X' bd1' bd2' bd3' junk' work' work23' sp' D = Ok c' ->
  forall i j k, 0 <= i < ax_size A1 -> 0 <= j < ax_size A2 -> 0 <= k < ax_size A3 -> coefficient_nd c [i; j; k] = coefficient_nd c' [i; j; k].
Proof. exact (fun A1 A2 A3 P1 P2 P3 => same_result_3d A1 A2 A3 (posed_determined A1 P1) (posed_determined A2 P2) (posed_determined A3 P3)). Qed.
Print Assumptions C56_same_result_3d.

(** Other problems are not always refused. Then no solver can help: there are values for which every build that uses exact solvers fails. *)
Theorem C56_singular : forall s d periodic ncells t a b lower upper start n coord x,
  interpolation GINKGO s d periodic ncells t a b lower upper start n coord x -> n = points_expected periodic d ncells lower upper -> ~ well_posed periodic t a b d ncells lower upper n x ->
  exists v wl wu, forall m bd X junk sp vals dl du c, builder_construct RA s m GINKGO lower upper start n coord = Ok bd -> exact_solvers X -> has_coefficients sp (ncells + d) ->
    (forall i, 0 <= i < n -> a_at vals i = v i) -> (forall i, 0 <= i < equations lower d -> asked lower dl i = wl i) -> (forall i, 0 <= i < equations upper d -> asked upper du i = wu i) ->
    build RA s lower upper X bd junk sp vals dl du <> Ok c.
Proof. exact singular. Qed.
Print Assumptions C56_singular.
(** "The points that the builder accepts determine a spline" is false: degree 1, three cells of length 1, the points 0, 1/2, 3/2 and 2 (all cells have a point, the number is right). *)
Theorem C56_grid_check_refuted : exists s, interpolation GINKGO s 1 false 3 (uniform_knots 1 0 3 3) 0 3 GREVILLE GREVILLE 0 4 gap_coord gap_point /\ increasing_points 4 gap_point /\
  occupied (uniform_knots 1 0 3 3) 1 3 4 gap_point /\ (forall m, exists bd, builder_construct RA s m GINKGO GREVILLE GREVILLE 0 4 gap_coord = Ok bd) /\
  ~ well_posed false (uniform_knots 1 0 3 3) 0 3 1 3 GREVILLE GREVILLE 4 gap_point /\
  exists v, forall m bd X junk sp vals dl du c, builder_construct RA s m GINKGO GREVILLE GREVILLE 0 4 gap_coord = Ok bd -> exact_solvers X -> has_coefficients sp 4 ->
    (forall i, 0 <= i < 4 -> a_at vals i = v i) -> build RA s GREVILLE GREVILLE X bd junk sp vals dl du <> Ok c.
Proof. exact gap. Qed.
Print Assumptions C56_grid_check_refuted.
(** "The knots can be used as interpolation points with any closure except GREVILLE" (knots_as_interpolation_points.hpp) is false of even degrees.
    In uniform periodic spaces with an even number of cells they are accepted and do not determine a spline; *)
Theorem C56_even_knots_refuted : forall s d ncells a b start coord x, let t := uniform_knots d a b ncells in
  interpolation GINKGO s d true ncells t a b PERIODIC PERIODIC start ncells coord x -> Z.even d = true -> Z.even ncells = true -> (forall i, 0 <= i < ncells -> x i = t (d + i)) ->
  (forall m, exists bd, builder_construct RA s m GINKGO PERIODIC PERIODIC start ncells coord = Ok bd) /\ ~ well_posed true t a b d ncells PERIODIC PERIODIC ncells x.
Proof. exact even_knots. Qed.
Print Assumptions C56_even_knots_refuted.
(** with derivatives at both ends they are refused. *)
Theorem C56_even_knots_rejected : forall solver s d ncells t a b lower upper start coord x m,
  interpolation solver s d false ncells t a b lower upper start (ncells + 1) coord x -> Z.even d = true -> is_hermite lower = true -> is_hermite upper = true ->
  builder_construct RA s m solver lower upper start (ncells + 1) coord = Rejected.
Proof. exact even_breaks_rejected. Qed.
Print Assumptions C56_even_knots_rejected.

(** * Cases that meet the hypotheses *)
(** The hypotheses on solvers can be met: Gaussian elimination. *)
Example C56_solvers_example : exact_solvers gauss_solvers /\ regular_bicgstab gauss_solvers.
Proof. exact (conj gauss_exact gauss_regular). Qed.
(** A problem of degree 1 with its points and a periodic one of degree 3 have exactly one solution; their builders, for these solvers, never fail. *)
Example C56_posed_example : posed line /\ posed circle_axis /\ exists s1 bd1 s2 bd2, builder_for GINKGO s1 line bd1 /\ builder_for GINKGO s2 circle_axis bd2 /\ 0 <= bd_offset bd2 <= ax_degree circle_axis /\
  never_fails s1 line gauss_solvers bd1 /\ never_fails s2 circle_axis gauss_solvers bd2.
Proof.
  split; [exact line_posed|]. split; [exact circle_posed|]. destruct line_builder as (s1 & bd1 & B1 & _). destruct circle_built as (s2 & bd2 & B2 & O). exists s1, bd1, s2, bd2.
  assert (Ho : 0 <= bd_offset bd2 <= ax_degree circle_axis) by (rewrite O; cbn; lia). split; [exact B1|]. split; [exact B2|]. split; [exact Ho|].
  split; [apply posed_never_fails; [exact line_posed | exact B1 | discriminate | exact gauss_exact | exact gauss_regular] | apply posed_never_fails; [exact circle_posed | exact B2 | intros _; exact Ho | exact gauss_exact | exact gauss_regular]].
Qed.
(** The sine-like spline of coefficients 1, 0, 1, 0, ..., built from its values. *)
Example C56_reproduces_example : exists s bd, builder_for GINKGO s circle_axis bd /\ let g := fun i => if Z.even i then 1%R else 0%R in periodic_coefficients g 3 20 /\
  exists c, build RA s PERIODIC PERIODIC gauss_solvers bd (fun _ => 9%R) (mk_chunk_1d RA 0 (mk_arr 23 (fun _ => 9%R : num RA))) (mk_arr 20 (fun i => spline_1d circle_axis g (line_point i)) : arr (num RA)) None None = Ok c /\
    forall i, 0 <= i < 23 -> coefficient c i = g i.
Proof. exact circle_reproduces. Qed.
(** Two and three dimensions. *)
Example C56_data_example : exists s1 bd1 s2 bd2, builder_for GINKGO s1 circle_axis bd1 /\ builder_for GINKGO s2 line bd2 /\ supported line line /\
  forall values, data_given_3d circle_axis line line (fun k1 k2 k3 => match k1, k2, k3 with Inside, Inside, Inside => Some (mk_chunk_nd (A := RA) [2; 5; 7] [20; 3; 3] values) | _, _, _ => None end).
Proof.
  destruct circle_built as (s1 & bd1 & B1 & _). destruct line_builder as (s2 & bd2 & B2 & _). exists s1, bd1, s2, bd2. split; [exact B1|]. split; [exact B2|].
  split; [intros [] []; discriminate|]. intros values. exists 5, 7. split; [lia|]. split; [lia|]. intros [|[]] [|[]] Hr; try discriminate. split; [exists 2; split; reflexivity | intros []; reflexivity].
Qed.
(** Break points 0, 1, 3 and 0, 1, 3, 4. *)
Example C56_uneven_example : strictly_increasing [0; 1; 3]%R /\ strictly_increasing [0; 1; 3; 4]%R /\ Z.odd (Z.of_nat (length [0; 1; 3; 4]%R) - 1) = true /\ 2 <= Z.of_nat (length [0; 1; 3; 4]%R) - 1.
Proof. split; [exact (proj1 uneven)|]. split; [exact (proj2 uneven)|]. split; [reflexivity | cbn; lia]. Qed.
(** Points that are neither averages nor knots: 0, 1/2, 2 and 3 with degree 1 and knots 0, 1, 2, 3 are not the problem of [C56_grid_check_refuted]. *)
Example C56_nested_example : exists x, increasing_points 4 x /\ nested (uniform_knots 1 0 3 3) 1 3 (equations GREVILLE 1) 4 x /\ anchored 1 GREVILLE GREVILLE 0 3 4 x /\ x 1 = (1 / 2)%R.
Proof. exact nested_case. Qed.
(** The hypotheses of the two refutations of the knots. *)
Example C56_square_example : exists s, interpolation GINKGO s 2 true 4 (uniform_knots 2 0 4 4) 0 4 PERIODIC PERIODIC 0 4 line_coord line_point /\
  forall i, 0 <= i < 4 -> line_point i = uniform_knots 2 0 4 4 (2 + i).
Proof. exact square_problem. Qed.
Example C56_clamped_example : exists s, interpolation GINKGO s 2 false 4 (uniform_knots 2 0 4 4) 0 4 HERMITE HERMITE 0 (4 + 1) line_coord line_point.
Proof. exact clamped_problem. Qed.
