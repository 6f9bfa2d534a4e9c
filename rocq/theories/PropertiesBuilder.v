(** Properties C41, C42, C43 and C53: building a spline by interpolation.  [interpolation] (BuilderSpec) describes the
    problem: a space of splines, closures, n points in [a, b]; [interpolates] is what a spline must satisfy. *)
From Coq Require Import Bool Reals Lia Lra List QArith.
From Verif Require Import BuilderSpec PointsModel PointsSpec BuilderLemmas BuilderPoints BuilderQuadrature BuilderFindings BuilderTheorems BuilderProofs4 BuilderBand EvaluatorLemmas.
Import ListNotations.
Local Open Scope bool_scope. Local Open Scope Z_scope.

(** * C41 *)
(** With the sparse solver: if the external solver is exact, what is built takes the values at the points and has the derivatives at both ends. *)
Theorem C41_sparse : forall s d periodic ncells t a b lower upper start n coord x,
  interpolation GINKGO s d periodic ncells t a b lower upper start n coord x ->
  forall m bd, builder_construct RA s m GINKGO lower upper start n coord = Ok bd ->
  forall X junk sp v dl du c, exact_solvers X -> has_coefficients sp (ncells + d) -> build RA s lower upper X bd junk sp v dl du = Ok c ->
  has_coefficients c (ncells + d) /\ interpolates periodic t a b d ncells n lower upper x (a_at v) dl du (coefficient c).
Proof. exact sparse_exact. Qed.
Print Assumptions C41_sparse.
(** With LAPACK, the same for points that suit its band storage, unless entries below 1e-14 are dropped (C39). *)
Theorem C41_lapack : forall solver s d periodic ncells t a b lower upper start n coord x,
  interpolation solver s d periodic ncells t a b lower upper start n coord x ->
  forall m bd, builder_construct RA s m solver lower upper start n coord = Ok bd ->
  suited solver (bs_uniform RA s) periodic t a b d ncells lower upper x (bd_offset bd) ->
  none_negligible (shape_of (problem_of solver (bs_uniform RA s) periodic d ncells lower upper)) (collocation periodic t a b d ncells lower upper x (bd_offset bd)) ->
  forall X junk sp v dl du c, exact_solvers X -> has_coefficients sp (ncells + d) -> build RA s lower upper X bd junk sp v dl du = Ok c ->
  has_coefficients c (ncells + d) /\ interpolates periodic t a b d ncells n lower upper x (a_at v) dl du (coefficient c).
Proof. exact suited_exact. Qed.
Print Assumptions C41_lapack.
(** The evaluator then returns the values at the points, and the derivatives asked for at both ends (of orders 1, 2, ... for odd degrees;
    0, 1, ... for even degrees, where the derivative of order 0 is the value). *)
Theorem C41_evaluates : forall solver s d periodic ncells t a b lower upper start n coord x,
  interpolation solver s d periodic ncells t a b lower upper start n coord x ->
  forall v dl du c, has_coefficients c (ncells + d) -> interpolates periodic t a b d ncells n lower upper x v dl du (coefficient c) ->
  forall m el eu,
  (forall i, 0 <= i < n -> eval RA s m el eu (x i) c = Ok (v i : num RA)) /\
  (forall i, 0 <= i < equations lower d -> eval_no_bc RA s m (if i + d mod 2 =? 0 then None else Some (i + d mod 2)) a c = Ok (asked lower dl i : num RA)) /\
  (forall i, 0 <= i < equations upper d -> eval_no_bc RA s m (if i + d mod 2 =? 0 then None else Some (i + d mod 2)) b c = Ok (asked upper du i : num RA)).
Proof. exact evaluates. Qed.
Print Assumptions C41_evaluates.
(** Nothing fails: neither the constructor, for the right number of increasing points, not crowded, that suit the storage, *)
Theorem C41_constructs : forall solver s d periodic ncells t a b lower upper start n coord x,
  interpolation solver s d periodic ncells t a b lower upper start n coord x -> increasing_points n x ->
  n = points_expected periodic d ncells lower upper -> (forall c, ~ crowded t d ncells n x c) ->
  forall m, exists off, compute_offset RA s m start coord = Ok off /\
    (suited solver (bs_uniform RA s) periodic t a b d ncells lower upper x off ->
     exists bd, builder_construct RA s m solver lower upper start n coord = Ok bd /\ bd_offset bd = off).
Proof. exact constructs. Qed.
Print Assumptions C41_constructs.
(** nor the builder, if the external solvers do not: all accesses are in bounds and all assertions hold. *)
Theorem C41_builds : forall solver s d periodic ncells t a b lower upper start n coord x,
  interpolation solver s d periodic ncells t a b lower upper start n coord x ->
  forall m bd, builder_construct RA s m solver lower upper start n coord = Ok bd ->
  suited solver (bs_uniform RA s) periodic t a b d ncells lower upper x (bd_offset bd) -> 0 <= bd_offset bd <= d ->
  let sh := shape_of (problem_of solver (bs_uniform RA s) periodic d ncells lower upper) in 1 <= sh_main sh \/ sh_kind sh = General ->
  forall X junk sp v dl du, total_solvers X -> has_coefficients sp (ncells + d) -> derivatives_given lower d dl -> derivatives_given upper d du -> a_len v = n ->
  exists c, build RA s lower upper X bd junk sp v dl du = Ok c.
Proof. exact builds. Qed.
Print Assumptions C41_builds.
(** With a sparse solver that is exact and does not fail on the matrix of the problem, a spline is built and it interpolates. *)
Theorem C41_sparse_builds : forall s d periodic ncells t a b lower upper start n coord x,
  interpolation GINKGO s d periodic ncells t a b lower upper start n coord x ->
  forall m bd, builder_construct RA s m GINKGO lower upper start n coord = Ok bd -> 0 <= bd_offset bd <= d ->
  let N := unknowns periodic d ncells in let M := collocation periodic t a b d ncells lower upper x (bd_offset bd) in
  forall X, exact_solvers X ->
  (forall A : arr2 R, a2_n A = N -> a2_m A = N -> (forall i j, 0 <= i < N -> 0 <= j < N -> a2_at A i j = M i j) -> total_for N (bicgstab X A false)) ->
  forall junk sp v dl du, has_coefficients sp (ncells + d) -> derivatives_given lower d dl -> derivatives_given upper d du -> a_len v = n ->
  exists c, build RA s lower upper X bd junk sp v dl du = Ok c /\ has_coefficients c (ncells + d) /\
    interpolates periodic t a b d ncells n lower upper x (a_at v) dl du (coefficient c).
Proof. exact sparse_builds. Qed.
Print Assumptions C41_sparse_builds.
(** Points that suit the storage.  The Greville points, without those replaced by derivatives, in spaces that are not periodic; *)
Theorem C41_greville_points : forall solver s d ncells t a b lower upper x, spline_space s d false ncells t a b ->
  (forall i, 0 <= i < points_expected false d ncells lower upper -> x i = greville t d (i + equations lower d)) ->
  suited solver (bs_uniform RA s) false t a b d ncells lower upper x 0.
Proof. exact greville_suited. Qed.
Print Assumptions C41_greville_points.
(** the points of KnotsAsInterpolationPoints and GrevilleInterpolationPoints for uniform spaces (C36); *)
Theorem C41_uniform_points : forall solver s d ncells a b lower upper x, spline_space s d false ncells (uniform_knots d a b ncells) a b -> bs_uniform RA s = true ->
  lower <> PERIODIC -> upper <> PERIODIC ->
  let n := points_expected false d ncells lower upper in
  (forall i, 0 <= i < n -> x i = uniform_point (is_greville lower) (is_greville upper) d a b ((b - a) / IZR ncells) n i) ->
  suited solver true false (uniform_knots d a b ncells) a b d ncells lower upper x 0.
Proof. exact uniform_points_suited. Qed.
Print Assumptions C41_uniform_points.
(** those of periodic uniform spaces, at the positions 0, 1, ...: the offset found is then d/2. *)
Theorem C41_periodic_points : forall solver s d ncells a b start n coord x,
  let t := uniform_knots d a b ncells in
  interpolation solver s d true ncells t a b PERIODIC PERIODIC start n coord x -> n = ncells -> bs_uniform RA s = true ->
  (forall i, 0 <= i < ncells -> x i = greville t d (i + d / 2)) ->
  (forall m, compute_offset RA s m start coord = Ok (d / 2 - start)) /\
  suited solver (bs_uniform RA s) true t a b d ncells PERIODIC PERIODIC x (d / 2).
Proof.
  intros until x. intros t IP Hn Hu Hx. split; [intros m; exact (uniform_offset solver s d ncells a b start n coord x IP Hn Hu Hx m) |].
  exact (uniform_suited solver s d ncells a b start n coord x IP Hu Hx).
Qed.
Print Assumptions C41_periodic_points.
(** Finding: if the points of a periodic space do not start at a position at most d/2, the builder constructs but [operator()] always fails:
    the offset is d/2 minus this position. *)
Theorem C41_shifted_domain_refuted : forall solver s d ncells a b start n coord x,
  let t := uniform_knots d a b ncells in
  interpolation solver s d true ncells t a b PERIODIC PERIODIC start n coord x -> n = ncells -> bs_uniform RA s = true ->
  (forall i, 0 <= i < ncells -> x i = greville t d (i + d / 2)) -> d / 2 < start ->
  forall m bd, builder_construct RA s m solver PERIODIC PERIODIC start n coord = Ok bd ->
  forall X junk sp v dl du c, build RA s PERIODIC PERIODIC X bd junk sp v dl du <> Ok c.
Proof. exact shifted_domain. Qed.
Print Assumptions C41_shifted_domain_refuted.
(** The derivatives at a boundary are to be given on [batched_derivs_xmin_domain()], [batched_derivs_xmax_domain()]: these domains are as
    expected if the degree is odd, and only then. *)
Theorem C41_derivs_domain : forall (s : bspline_space RA) w,
  0 <= bs_degree RA s < 2 ^ 31 -> c1_front RA w = fst (derivs_domain RA s HERMITE) -> c1_size RA w = snd (derivs_domain RA s HERMITE) ->
  derivatives_given HERMITE (bs_degree RA s) (Some w) <-> bs_degree RA s mod 2 = 1.
Proof. exact own_domain. Qed.
Print Assumptions C41_derivs_domain.
(** Finding: with an even degree and the closure HERMITE, derivatives given on these domains are never accepted (an assertion fails). *)
Theorem C41_derivs_domain_refuted : forall (A : arith) (s : bspline_space A) lower upper X bd junk spline vals dl du,
  let own c := fun w => c1_front A w = fst (derivs_domain A s c) /\ c1_size A w = snd (derivs_domain A s c) in
  bs_degree A s mod 2 = 0 ->
  (lower = HERMITE /\ exists w, dl = Some w /\ own lower w) \/ (upper = HERMITE /\ exists w, du = Some w /\ own upper w) ->
  build A s lower upper X bd junk spline vals dl du = Undef.
Proof. exact own_derivs_domain. Qed.
Print Assumptions C41_derivs_domain_refuted.
Example C41_derivs_domain_ex : match ub_construct QA 3%nat 2 false (0 # 1)%Q (3 # 1)%Q 3 with
  | Ok s =>
      match builder_construct QA (Uniform s) q_junk GINKGO HERMITE HERMITE 0 3 halves with
      | Ok bd =>
          let run first := build QA (Uniform s) HERMITE HERMITE q_solvers bd (fun _ => 7 # 1)%Q (q_chunk 5) (mk_arr 3 (fun _ => 1 # 1)%Q) (derivs_from first) (derivs_from first) in
          derivs_domain QA (Uniform s) HERMITE = (1, 1) /\ run 1 = Undef /\
          match run 0 with Ok c => map (fun i => a_at (c1_vals QA c) i) [0; 1; 2; 3; 4] = [1; 1; 1; 1; 1]%Q | _ => False end
      | _ => False end
  | _ => False end.
Proof. exact own_derivs_domain_ex. Qed.
(** Finding: on a periodic non uniform space of degree 4, one cell 4 times longer than the others, the library's own Greville points do not suit the
    band: the constructor fails (its assertion on the entries outside of the band) with LAPACK and succeeds with the sparse solver. *)
Theorem C41_graded_refuted : with_greville 4 (map inject_Z [0; 1; 2; 3; 7; 8; 9; 10; 11; 12; 13; 14; 15; 16; 17]) (fun s points =>
  builder_construct QA s q_junk LAPACK PERIODIC PERIODIC 0 14 (listed 0 points) = Undef /\
  match builder_construct QA s q_junk GINKGO PERIODIC PERIODIC 0 14 (listed 0 points) with Ok _ => True | _ => False end).
Proof. exact graded. Qed.
Print Assumptions C41_graded_refuted.
(** Finding: with as many cells as the degree, the periodic spline built from the values 1, 1, 1 is the constant 6/5.  [whole i] is the point i. *)
Theorem C41_few_cells_refuted : match ub_construct QA 3%nat 3 true (0 # 1)%Q (3 # 1)%Q 3 with
  | Ok s =>
      match builder_construct QA (Uniform s) q_junk GINKGO PERIODIC PERIODIC 0 3 whole with
      | Ok bd =>
          match build QA (Uniform s) PERIODIC PERIODIC q_solvers bd (fun _ => 7 # 1)%Q (q_chunk 6) (mk_arr 3 (fun _ => 1 # 1)%Q) None None with
          | Ok c => map (fun x => eval QA (Uniform s) q_junk (periodic_rule QA) (periodic_rule QA) x c) (map inject_Z [0; 1; 2]) = [Ok (6 # 5)%Q; Ok (6 # 5)%Q; Ok (6 # 5)%Q]
          | _ => False end
      | _ => False end
  | _ => False end.
Proof. exact aliased_spline. Qed.
Print Assumptions C41_few_cells_refuted.
(** The hypotheses are met: splines of degree 1 on two cells, the points are the break points, and a solver of systems whose matrix is the identity.
    Every three values are interpolated. *)
Example C41_example : exists s, interpolation GINKGO s 1 false 2 (uniform_knots 1 0 2 2) 0 2 GREVILLE GREVILLE 0 3 line_coord line_point /\
  forall m, exists bd, builder_construct RA s m GINKGO GREVILLE GREVILLE 0 3 line_coord = Ok bd /\ exact_solvers unit_solvers /\
  forall junk sp v, has_coefficients sp 3 -> a_len v = 3 -> exists c, build RA s GREVILLE GREVILLE unit_solvers bd junk sp v None None = Ok c.
Proof.
  destruct (line_problem GINKGO) as (s & IP). exists s. split; [exact IP|]. intros m. destruct (line_construct GINKGO s m IP) as (bd & Hbd & Ho). exists bd. split; [exact Hbd|]. split; [exact unit_exact|].
  intros junk sp v Hsp Hv.
  destruct (sparse_builds s 1 false 2 _ _ _ _ _ _ _ _ _ IP m bd Hbd ltac:(lia) unit_solvers unit_exact) with (junk := junk) (sp := sp) (v := v) (dl := @None (chunk_1d RA)) (du := @None (chunk_1d RA)) as (c & Ec & _);
    [ | exact Hsp | exact I | exact I | exact Hv | exists c; exact Ec].
  intros A H1 H2 H3. cbn [unknowns] in *. apply unit_total; [exact H1 | exact H2 |]. intros i j Hi Hj. rewrite H3 by assumption. rewrite Ho. now apply line_collocation.
Qed.
(** Degree 3 with derivatives given at one end, on non uniform break points: the values 1, 2, 5, 3 at 0, 1, 3, 4, and the derivative 2 at 0, 0 at 4. *)
Example C41_hermite_example : match nb_construct QA (fun _ => 9 # 1)%Q 3 false (map inject_Z [0; 1; 3; 4]) with
  | Ok (Some s) =>
      match builder_construct QA (NonUniform s) q_junk GINKGO HERMITE HOMOGENEOUS_HERMITE 0 4 (listed 0 (map inject_Z [0; 1; 3; 4])) with
      | Ok bd =>
          match build QA (NonUniform s) HERMITE HOMOGENEOUS_HERMITE q_solvers bd (fun _ => 7 # 1)%Q (q_chunk 6) (mk_arr 4 (fun i => nth (Z.to_nat i) (map inject_Z [1; 2; 5; 3]) (0 # 1)%Q))
                  (Some (mk_chunk_1d QA 1 (mk_arr 1 (fun _ => 2 # 1)%Q))) None with
          | Ok c =>
              map (fun x => eval QA (NonUniform s) q_junk (null_rule QA) (null_rule QA) x c) (map inject_Z [0; 1; 3; 4]) = [Ok (1 # 1); Ok (2 # 1); Ok (5 # 1); Ok (3 # 1)]%Q /\
              eval_no_bc QA (NonUniform s) q_junk (Some 1) (0 # 1)%Q c = Ok (2 # 1)%Q /\ eval_no_bc QA (NonUniform s) q_junk (Some 1) (4 # 1)%Q c = Ok (0 # 1)%Q
          | _ => False end
      | _ => False end
  | _ => False end.
Proof. vm_compute. repeat split. Qed.

(** * C42 *)
(** A wrong number of points is rejected. *)
Theorem C42_number : forall solver s d periodic ncells t a b lower upper start n coord x,
  interpolation solver s d periodic ncells t a b lower upper start n coord x ->
  forall m, n <> points_expected periodic d ncells lower upper -> builder_construct RA s m solver lower upper start n coord = Rejected.
Proof. exact number_rejected. Qed.
Print Assumptions C42_number.
(** If the constructor throws, then the number of points is wrong or a cell has more than degree + 1 points. *)
Theorem C42_sound : forall solver s d periodic ncells t a b lower upper start n coord x,
  interpolation solver s d periodic ncells t a b lower upper start n coord x -> 
  forall m, increasing_points n x -> builder_construct RA s m solver lower upper start n coord = Rejected ->
  n <> points_expected periodic d ncells lower upper \/ exists c, crowded t d ncells n x c.
Proof. exact rejection_reason. Qed.
Print Assumptions C42_sound.
(** The converse, when no cell is empty. *)
Theorem C42_exactly : forall solver s d periodic ncells t a b lower upper start n coord x,
  interpolation solver s d periodic ncells t a b lower upper start n coord x -> increasing_points n x -> occupied t d ncells n x ->
  forall m, builder_construct RA s m solver lower upper start n coord = Rejected <->
    n <> points_expected periodic d ncells lower upper \/ exists c, crowded t d ncells n x c.
Proof. exact rejected_exactly. Qed.
Print Assumptions C42_exactly.
(** Finding: after an empty cell the check looks at the wrong cells.  Degree 1, cells [0, 1], [1, 2], [2, 3]: the three points 2, 2.3, 2.6 of the last cell are not
    noticed, and no spline takes arbitrary values at them. *)
Theorem C42_empty_cell_refuted : match ub_construct QA 3%nat 1 false (0 # 1)%Q (3 # 1)%Q 3 with
  | Ok s => match builder_construct QA (Uniform s) q_junk GINKGO GREVILLE GREVILLE 0 4 (listed 0 [1 # 2; 2 # 1; 23 # 10; 26 # 10]%Q) with Ok _ => True | _ => False end
  | _ => False end.
Proof. exact hidden. Qed.
Print Assumptions C42_empty_cell_refuted.
(** Break points as points; then runs with too few points, with three points in a cell of degree 1 (twice), with suitable points. *)
Example C42_example : exists s, interpolation GINKGO s 1 false 2 (uniform_knots 1 0 2 2) 0 2 GREVILLE GREVILLE 0 3 line_coord line_point /\
  increasing_points 3 line_point /\ occupied (uniform_knots 1 0 2 2) 1 2 3 line_point /\ forall c, ~ crowded (uniform_knots 1 0 2 2) 1 2 3 line_point c.
Proof. destruct (line_problem GINKGO) as (s & IP). exists s. split; [exact IP|]. split; [exact line_increasing|]. split; [exact line_occupied | exact line_not_crowded]. Qed.
Example C42_example_runs : match ub_construct QA 3%nat 1 false (0 # 1)%Q (3 # 1)%Q 3 with
  | Ok s =>
      let run points := builder_construct QA (Uniform s) q_junk GINKGO GREVILLE GREVILLE 0 (Z.of_nat (length points)) (listed 0 points) in
      run [0 # 1; 1 # 1; 3 # 1]%Q = Rejected /\ run [1 # 2; 3 # 2; 7 # 4; 15 # 8]%Q = Rejected /\ run [0 # 1; 1 # 1; 3 # 2; 2 # 1]%Q = Rejected /\
      match run [0 # 1; 1 # 1; 3 # 2; 5 # 2]%Q with Ok _ => True | _ => False end
  | _ => False end.
Proof. vm_compute. repeat split. Qed.

(** * C43 *)
(** The quadrature coefficients, applied to values and derivatives, give the integral of every spline that interpolates them.  [w] has one
    weight per value; d/2 more at each end with the closure HOMOGENEOUS_HERMITE (next theorem). *)
Theorem C43_quadrature : forall solver s d periodic ncells t a b lower upper start n coord x,
  interpolation solver s d periodic ncells t a b lower upper start n coord x ->
  forall m bd, builder_construct RA s m solver lower upper start n coord = Ok bd ->
  suited solver (bs_uniform RA s) periodic t a b d ncells lower upper x (bd_offset bd) ->
  (bs_uniform RA s = true -> periodic = false -> d <= ncells) -> (periodic = true -> bs_uniform RA s = true \/ bd_offset bd = 0) ->
  none_negligible (shape_of (problem_of solver (bs_uniform RA s) periodic d ncells lower upper)) (collocation periodic t a b d ncells lower upper x (bd_offset bd)) ->
  lower <> HOMOGENEOUS_HERMITE -> upper <> HOMOGENEOUS_HERMITE ->
  forall X q junk junk_rows (wl w wu : arr R), exact_solvers X ->
  quadrature_coefficients RA s m lower upper X bd q junk junk_rows = Ok (wl, w, wu) ->
  a_len wl = given_derivatives lower d /\ a_len wu = given_derivatives upper d /\ a_len w = n /\
  forall v dl du c, interpolates periodic t a b d ncells n lower upper x v dl du c ->
    integral (spline t b d ncells c) a b
      (weighted (given_derivatives lower d) n (given_derivatives upper d) (a_at wl) (a_at w) (a_at wu) (asked lower dl) v (asked upper du)).
Proof. exact quadrature_plain. Qed.
Print Assumptions C43_quadrature.
(** Finding: with HOMOGENEOUS_HERMITE, the domain of the weights of the values starts d/2 before that of the values and is longer than it
    (their differences count the closures); the weight of the value i is at i + d/2. *)
Theorem C43_homogeneous : forall solver s d periodic ncells t a b lower upper start n coord x,
  interpolation solver s d periodic ncells t a b lower upper start n coord x ->
  forall m bd, builder_construct RA s m solver lower upper start n coord = Ok bd ->
  suited solver (bs_uniform RA s) periodic t a b d ncells lower upper x (bd_offset bd) ->
  (bs_uniform RA s = true -> periodic = false -> d <= ncells) -> (periodic = true -> bs_uniform RA s = true \/ bd_offset bd = 0) ->
  none_negligible (shape_of (problem_of solver (bs_uniform RA s) periodic d ncells lower upper)) (collocation periodic t a b d ncells lower upper x (bd_offset bd)) ->
  forall X q junk junk_rows (wl w wu : arr R), exact_solvers X ->
  quadrature_coefficients RA s m lower upper X bd q junk junk_rows = Ok (wl, w, wu) ->
  a_len wl = given_derivatives lower d /\ a_len wu = given_derivatives upper d /\
  a_len w = n + (equations lower d - given_derivatives lower d) + (equations upper d - given_derivatives upper d) /\
  forall v dl du c, interpolates periodic t a b d ncells n lower upper x v dl du c ->
    integral (spline t b d ncells c) a b
      (weighted (given_derivatives lower d) n (given_derivatives upper d) (a_at wl) (fun i => a_at w (i + (equations lower d - given_derivatives lower d))) (a_at wu)
        (asked lower dl) v (asked upper du)).
Proof. exact quadrature_exact. Qed.
Print Assumptions C43_homogeneous.
(** The computation does not fail if the external solvers do not. *)
Theorem C43_total : forall solver s d periodic ncells t a b lower upper start n coord x,
  interpolation solver s d periodic ncells t a b lower upper start n coord x ->
  forall m bd, builder_construct RA s m solver lower upper start n coord = Ok bd ->
  suited solver (bs_uniform RA s) periodic t a b d ncells lower upper x (bd_offset bd) ->
  (bs_uniform RA s = true -> periodic = false -> d <= ncells) ->
  let sh := shape_of (problem_of solver (bs_uniform RA s) periodic d ncells lower upper) in 1 <= sh_main sh \/ sh_kind sh = General ->
  forall X q junk junk_rows, total_solvers X ->
  exists wl w wu, quadrature_coefficients RA s m lower upper X bd q junk junk_rows = Ok (wl, w, wu).
Proof. exact quadrature_runs. Qed.
Print Assumptions C43_total.
(** Finding: on periodic non uniform spaces the integrals of the basis functions are not shifted by the offset: what the weights give is the integral of another spline,
    whose coefficients are those of the interpolating spline shifted by the offset. *)
Theorem C43_periodic_shift : forall solver s d ncells t a b start n coord x,
  interpolation solver s d true ncells t a b PERIODIC PERIODIC start n coord x ->
  forall m bd, builder_construct RA s m solver PERIODIC PERIODIC start n coord = Ok bd ->
  suited solver (bs_uniform RA s) true t a b d ncells PERIODIC PERIODIC x (bd_offset bd) ->
  none_negligible (shape_of (problem_of solver (bs_uniform RA s) true d ncells PERIODIC PERIODIC)) (collocation true t a b d ncells PERIODIC PERIODIC x (bd_offset bd)) ->
  forall X q junk junk_rows (wl w wu : arr R), exact_solvers X ->
  quadrature_coefficients RA s m PERIODIC PERIODIC X bd q junk junk_rows = Ok (wl, w, wu) ->
  forall v dl du c, interpolates true t a b d ncells n PERIODIC PERIODIC x v dl du c ->
    integral (spline t b d ncells (fun j => c ((j mod ncells + bd_offset bd) mod ncells))) a b (rsum n (fun i => a_at w i * v i)%R).
Proof. exact quadrature_shift. Qed.
Print Assumptions C43_periodic_shift.
(** An instance where the two differ: degree 2, break points 0, 1, 2, 4, 8, values 1, 0, 0, 0 at the Greville points.  The integral of the spline is 150/101, the weight of the first value 2029/1212. *)
Theorem C43_graded_refuted : with_greville 2 (map inject_Z [0; 1; 2; 4; 8]) (fun s points =>
  match builder_construct QA s q_junk GINKGO PERIODIC PERIODIC 0 4 (listed 0 points) with
  | Ok bd =>
      let v := mk_arr 4 (fun i => if i =? 0 then (1 # 1)%Q else (0 # 1)%Q) in
      match build QA s PERIODIC PERIODIC q_solvers bd (fun _ => 7 # 1)%Q (q_chunk 6) v None None,
            quadrature_coefficients QA s q_junk PERIODIC PERIODIC q_solvers bd 3%nat (fun _ => 7 # 1)%Q (fun _ => 7 # 1)%Q with
      | Ok c, Ok (_, w, _) =>
          bd_offset bd = 1 /\
          map (fun x => eval QA s q_junk (periodic_rule QA) (periodic_rule QA) x c) (firstn 4 points) = [Ok (1 # 1)%Q; Ok (0 # 1)%Q; Ok (0 # 1)%Q; Ok (0 # 1)%Q] /\
          match integrate QA s q_junk 3%nat (fun _ => 7 # 1)%Q 0 6 1 (fun _ => c) (mk_arr 1 (fun _ => 7 # 1)%Q) with
          | Ok out => a_at out 0 = (150 # 101)%Q /\ a_at w 0 = (2029 # 1212)%Q
          | _ => False end
      | _, _ => False end
  | _ => False end).
Proof. exact rotated. Qed.
Print Assumptions C43_graded_refuted.
Example C43_example : exists s, interpolation GINKGO s 1 false 2 (uniform_knots 1 0 2 2) 0 2 GREVILLE GREVILLE 0 3 line_coord line_point /\
  forall m, exists bd, builder_construct RA s m GINKGO GREVILLE GREVILLE 0 3 line_coord = Ok bd /\
  suited GINKGO (bs_uniform RA s) false (uniform_knots 1 0 2 2) 0 2 1 2 GREVILLE GREVILLE line_point (bd_offset bd) /\
  none_negligible (shape_of (problem_of GINKGO (bs_uniform RA s) false 1 2 GREVILLE GREVILLE)) (collocation false (uniform_knots 1 0 2 2) 0 2 1 2 GREVILLE GREVILLE line_point (bd_offset bd)) /\
  exact_solvers unit_solvers.
Proof.
  destruct (line_problem GINKGO) as (s & IP). exists s. split; [exact IP|]. intros m. destruct (line_construct GINKGO s m IP) as (bd & Hbd & Ho). exists bd. split; [exact Hbd|].
  split; [exact I|]. split; [apply sparse_negligible | exact unit_exact].
Qed.
(** Values 1, 2, 5, 3 and derivatives 2, 0 as above: the integral of the spline and the weighted sum. *)
Example C43_example_run : match nb_construct QA (fun _ => 9 # 1)%Q 3 false (map inject_Z [0; 1; 3; 4]) with
  | Ok (Some s) =>
      match builder_construct QA (NonUniform s) q_junk GINKGO HERMITE HERMITE 0 4 (listed 0 (map inject_Z [0; 1; 3; 4])) with
      | Ok bd =>
          let slope v := Some (mk_chunk_1d QA 1 (mk_arr 1 (fun _ => v))) in
          match build QA (NonUniform s) HERMITE HERMITE q_solvers bd (fun _ => 7 # 1)%Q (q_chunk 6) (mk_arr 4 (fun i => nth (Z.to_nat i) (map inject_Z [1; 2; 5; 3]) (0 # 1)%Q)) (slope (2 # 1)%Q) (slope (0 # 1)%Q),
                quadrature_coefficients QA (NonUniform s) q_junk HERMITE HERMITE q_solvers bd 3%nat (fun _ => 7 # 1)%Q (fun _ => 7 # 1)%Q with
          | Ok c, Ok (wl, w, wu) =>
              match integrate QA (NonUniform s) q_junk 3%nat (fun _ => 7 # 1)%Q 0 6 1 (fun _ => c) (mk_arr 1 (fun _ => 7 # 1)%Q) with
              | Ok out => a_len wl = 1 /\ a_len w = 4 /\ a_len wu = 1 /\ Qeq (a_at out 0) ((2 # 1) * a_at wl 0 + (1 # 1) * a_at w 0 + (2 # 1) * a_at w 1 + (5 # 1) * a_at w 2 + (3 # 1) * a_at w 3)%Q
              | _ => False end
          | _, _ => False end
      | _ => False end
  | _ => False end.
Proof. vm_compute. repeat split. Qed.

(** * C53 *)
(** Row i of the matrix held by the builder, applied to the coefficients from the offset on, gives the value of the spline at the point i. *)
Theorem C53_rows : forall solver s d ncells t a b start n coord x,
  interpolation solver s d true ncells t a b PERIODIC PERIODIC start n coord x ->
  forall m bd, builder_construct RA s m solver PERIODIC PERIODIC start n coord = Ok bd ->
  suited solver (bs_uniform RA s) true t a b d ncells PERIODIC PERIODIC x (bd_offset bd) ->
  n = ncells /\ exists A : Z -> Z -> R, (forall i j, 0 <= i < ncells -> 0 <= j < ncells -> get_element RA (bd_matrix bd) i j = Ok (A i j : num RA)) /\
  forall c, periodic_coefficients c d ncells -> forall i, 0 <= i < ncells ->
    rsum ncells (fun j => A i j * c ((j + bd_offset bd) mod ncells)%Z)%R = spline t b d ncells c (x i).
Proof. exact periodic_rows. Qed.
Print Assumptions C53_rows.
(** In all spaces, the entries are those of the collocation matrix. *)
Theorem C53_entries : forall solver s d periodic ncells t a b lower upper start n coord x,
  interpolation solver s d periodic ncells t a b lower upper start n coord x ->
  forall m bd, builder_construct RA s m solver lower upper start n coord = Ok bd ->
  suited solver (bs_uniform RA s) periodic t a b d ncells lower upper x (bd_offset bd) ->
  let N := unknowns periodic d ncells in
  forall i j, 0 <= i < N -> 0 <= j < N -> get_element RA (bd_matrix bd) i j = Ok (collocation periodic t a b d ncells lower upper x (bd_offset bd) i j : num RA).
Proof. exact stored_matrix. Qed.
Print Assumptions C53_entries.
(** Finding: [interpolation] asks for more cells than the degree in periodic spaces.  With as many cells as the degree, two B-splines share a column and the second
    overwrites the first, instead of being added: the row of the point 0 is 2/3, 1/6, 0 where the B-splines sum to 1. *)
Theorem C53_few_cells_refuted : forall solver, match ub_construct QA 3%nat 3 true (0 # 1)%Q (3 # 1)%Q 3 with
  | Ok s =>
      match builder_construct QA (Uniform s) q_junk solver PERIODIC PERIODIC 0 3 whole with
      | Ok bd => map (get_element QA (bd_matrix bd) 0) [0; 1; 2] = [Ok (2 # 3)%Q; Ok (1 # 6)%Q; Ok (0 # 1)%Q]
      | _ => False end
  | _ => False end.
Proof. exact aliased. Qed.
Print Assumptions C53_few_cells_refuted.
(** With fewer cells, the point whose basis functions give the offset is not in the domain. *)
Theorem C53_fewer_cells_refuted : forall solver, match ub_construct QA 3%nat 3 true (0 # 1)%Q (2 # 1)%Q 2 with
  | Ok s => builder_construct QA (Uniform s) q_junk solver PERIODIC PERIODIC 0 2 whole = Undef
  | _ => False end.
Proof. exact few_cells. Qed.
Print Assumptions C53_fewer_cells_refuted.
(** The hypotheses are met, with both solvers: degree 3, 20 cells of length 1, the points are the break points but the last. *)
Example C53_example : forall solver, exists s, interpolation solver s 3 true 20 (uniform_knots 3 0 20 20) 0 20 PERIODIC PERIODIC 0 20 line_coord line_point /\
  forall m, exists bd, builder_construct RA s m solver PERIODIC PERIODIC 0 20 line_coord = Ok bd /\
  suited solver (bs_uniform RA s) true (uniform_knots 3 0 20 20) 0 20 3 20 PERIODIC PERIODIC line_point (bd_offset bd).
Proof. exact circle. Qed.
