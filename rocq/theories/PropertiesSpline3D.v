(** Property C55: splines in three dimensions.  The three dimensions are given by [axis] (Spline2DSpec); [spline_nd [A1; A2; A3] c] is the function
    sum of c [i; j; k] * B_i(x) * B_j(y) * B_k(z) (SplineNDSpec).  The data of the builder (Spline3DSpec): for each dimension, the points or one of the two ends. *)
From Coq Require Import Bool Reals Lia Lra List QArith.
From Verif Require Import Spline3DSpec Spline2DBuild Spline3DBuild Spline3DFindings Spline2DTheorems SplineNDAgree SplineNDTheorems Spline3DTheorems BuilderTheorems BuilderFindings.
Import ListNotations SplineNDSpec.
Local Open Scope bool_scope. Local Open Scope Z_scope.

(** * C55 *)
(** What is built has, at each point, edge, face and corner, the value or the mixed derivative that is asked for there. *)
Theorem C55_interpolates : forall solver1 solver2 solver3 s1 s2 s3 A1 A2 A3 X bd1 bd2 bd3, builder_for solver1 s1 A1 bd1 -> builder_for solver2 s2 A2 bd2 -> builder_for solver3 s3 A3 bd3 -> exact_solvers X ->
  forall D, data_given_3d A1 A2 A3 D -> supported A2 A3 ->
  forall junk work work23 sp c, has_coefficients_nd sp [ax_size A1; ax_size A2; ax_size A3] -> run_3d s1 s2 s3 A1 A2 A3 X bd1 bd2 bd3 junk work work23 sp D = Ok c ->
  has_coefficients_nd c [ax_size A1; ax_size A2; ax_size A3] /\ interpolates_3d A1 A2 A3 D (coefficient_nd c).
Proof. exact build_3d_interpolates. Qed.
Print Assumptions C55_interpolates.
(** Nothing fails if the one-dimensional builders do not (C41). *)
Theorem C55_builds : forall solver1 solver2 solver3 s1 s2 s3 A1 A2 A3 X bd1 bd2 bd3, builder_for solver1 s1 A1 bd1 -> builder_for solver2 s2 A2 bd2 -> builder_for solver3 s3 A3 bd3 ->
  forall D, data_given_3d A1 A2 A3 D -> supported A2 A3 -> never_fails s1 A1 X bd1 -> never_fails s2 A2 X bd2 -> never_fails s3 A3 X bd3 ->
  forall junk work work23 sp, has_coefficients_nd sp [ax_size A1; ax_size A2; ax_size A3] -> exists c, run_3d s1 s2 s3 A1 A2 A3 X bd1 bd2 bd3 junk work work23 sp D = Ok c.
Proof. exact builds_3d. Qed.
Print Assumptions C55_builds.
(** The coefficients are periodic in the periodic dimensions, if interpolation in the second and third one has at most one solution. *)
Theorem C55_periodic : forall solver1 solver2 solver3 s1 s2 s3 A1 A2 A3 X bd1 bd2 bd3, builder_for solver1 s1 A1 bd1 -> builder_for solver2 s2 A2 bd2 -> builder_for solver3 s3 A3 bd3 -> exact_solvers X ->
  forall D, data_given_3d A1 A2 A3 D -> supported A2 A3 -> determined A2 -> determined A3 ->
  forall junk work work23 sp c, has_coefficients_nd sp [ax_size A1; ax_size A2; ax_size A3] -> run_3d s1 s2 s3 A1 A2 A3 X bd1 bd2 bd3 junk work work23 sp D = Ok c ->
  periodic_nd [A1; A2; A3] (coefficient_nd c).
Proof. exact builds_periodic. Qed.
Print Assumptions C55_periodic.
(** The evaluator then returns the values at the points, whatever the extrapolation rules. *)
Theorem C55_evaluates : forall solver1 solver2 solver3 s1 s2 s3 A1 A2 A3 X bd1 bd2 bd3, builder_for solver1 s1 A1 bd1 -> builder_for solver2 s2 A2 bd2 -> builder_for solver3 s3 A3 bd3 -> exact_solvers X ->
  forall D vals, data_given_3d A1 A2 A3 D -> supported A2 A3 -> D Inside Inside Inside = Some vals ->
  forall junk work work23 sp c, has_coefficients_nd sp [ax_size A1; ax_size A2; ax_size A3] -> run_3d s1 s2 s3 A1 A2 A3 X bd1 bd2 bd3 junk work work23 sp D = Ok c ->
  forall m1 m2 m3 l1 u1 l2 u2 l3 u3 i j k, 0 <= i < ax_points A1 -> 0 <= j < ax_points A2 -> 0 <= k < ax_points A3 ->
  eval_3d RA s1 s2 s3 m1 m2 m3 l1 u1 l2 u2 l3 u3 (ax_point A1 i) (ax_point A2 j) (ax_point A3 k) c = Ok (cn_at vals [i; j; k] : num RA).
Proof. exact evaluates_3d. Qed.
Print Assumptions C55_evaluates.
(** Finding: the mixed derivatives in the second and third dimensions are needed as soon as one of the two closures is HERMITE: without them the program is undefined.
    Where only one is HERMITE there is nothing to give them for. *)
Theorem C55_mixed_needed_refuted : forall s1 s2 s3 A1 A2 A3 X bd1 bd2 bd3 junk work work23 sp D c e2 e3,
  edge_closure A2 e2 = HERMITE \/ edge_closure A3 e3 = HERMITE -> D Inside (At e2) (At e3) = None -> run_3d s1 s2 s3 A1 A2 A3 X bd1 bd2 bd3 junk work work23 sp D <> Ok c.
Proof. exact mixed_needed. Qed.
Print Assumptions C55_mixed_needed_refuted.
(** Finding: with the closure HERMITE in the third dimension and another one in the second, no data make the builder succeed (degrees 2 and more). *)
Theorem C55_third_hermite_only_refuted : forall solver1 solver2 solver3 s1 s2 s3 A1 A2 A3 X bd1 bd2 bd3 junk work work23 sp D c e2 e3,
  builder_for solver1 s1 A1 bd1 -> builder_for solver2 s2 A2 bd2 -> builder_for solver3 s3 A3 bd3 -> has_coefficients_nd sp [ax_size A1; ax_size A2; ax_size A3] ->
  edge_closure A3 e3 = HERMITE -> edge_closure A2 e2 <> HERMITE -> 2 <= ax_degree A2 -> 2 <= ax_degree A3 ->
  run_3d s1 s2 s3 A1 A2 A3 X bd1 bd2 bd3 junk work work23 sp D <> Ok c.
Proof. exact third_hermite_only. Qed.
Print Assumptions C55_third_hermite_only_refuted.
(** Evaluation inside the domain is the value of the spline; elsewhere in periodic dimensions, the value at the point brought back by a number of periods. *)
Theorem C55_inside : forall A1 A2 A3 s1 s2 s3, space_of s1 A1 -> space_of s2 A2 -> space_of s3 A3 -> forall m1 m2 m3 l1 u1 l2 u2 l3 u3 x y z (c : chunk_nd RA),
  has_coefficients_nd c [ax_size A1; ax_size A2; ax_size A3] -> inside A1 x -> inside A2 y -> inside A3 z ->
  eval_3d RA s1 s2 s3 m1 m2 m3 l1 u1 l2 u2 l3 u3 x y z c = Ok (spline_nd [A1; A2; A3] (coefficient_nd c) [x; y; z] : num RA).
Proof. exact inside_3d. Qed.
Print Assumptions C55_inside.
Theorem C55_wraps : forall A1 A2 A3 s1 s2 s3, space_of s1 A1 -> space_of s2 A2 -> space_of s3 A3 -> forall m1 m2 m3 l1 u1 l2 u2 l3 u3 x y z x' y' z' (c : chunk_nd RA),
  has_coefficients_nd c [ax_size A1; ax_size A2; ax_size A3] -> periodic_nd [A1; A2; A3] (coefficient_nd c) -> lands A1 x x' -> lands A2 y y' -> lands A3 z z' ->
  eval_3d RA s1 s2 s3 m1 m2 m3 l1 u1 l2 u2 l3 u3 x y z c = Ok (spline_nd [A1; A2; A3] (coefficient_nd c) [x'; y'; z'] : num RA).
Proof. exact wraps_3d. Qed.
Print Assumptions C55_wraps.
(** The evaluator of derivatives returns the mixed derivative of the polynomial that the spline is on the cell of the point. *)
Theorem C55_derivative : forall A1 A2 A3 s1 s2 s3, space_of s1 A1 -> space_of s2 A2 -> space_of s3 A3 -> forall m1 m2 m3 o1 o2 o3 x y z (c : chunk_nd RA),
  has_coefficients_nd c [ax_size A1; ax_size A2; ax_size A3] -> inside A1 x -> inside A2 y -> inside A3 z -> order_valid A1 o1 -> order_valid A2 o2 -> order_valid A3 o3 ->
  exists k1 k2 k3 (v : R), let ks := [k1; k2; k3] in let on_cell ys := all3 (fun A k y => (ax_knots A k <= y <= ax_knots A (k + 1)%Z)%R) [A1; A2; A3] ks ys in
    on_cell [x; y; z] /\ all3 (fun A k n => ax_degree A <= k < ax_degree A + n) [A1; A2; A3] ks (map ax_cells [A1; A2; A3]) /\
    (forall ys, on_cell ys -> spline_nd [A1; A2; A3] (coefficient_nd c) ys = piece_nd [A1; A2; A3] ks (coefficient_nd c) ys) /\
    eval_no_bc_3d RA s1 s2 s3 m1 m2 m3 o1 o2 o3 x y z c = Ok v /\
    mixed_derivative_nd (map (fun o => Z.to_nat (order_of o)) [o1; o2; o3]) (piece_nd [A1; A2; A3] ks (coefficient_nd c)) [x; y; z] v.
Proof. exact derivative_3d. Qed.
Print Assumptions C55_derivative.
(** Outside of the domain the rules of the first dimension apply first, then those of the second, then those of the third; they get the coordinates brought back in the periodic dimensions. *)
Theorem C55_outside : forall A1 A2 A3 s1 s2 s3, space_of s1 A1 -> space_of s2 A2 -> space_of s3 A3 -> forall m1 m2 m3 (l1 u1 l2 u2 l3 u3 : rule_nd RA) x y z (c : chunk_nd RA),
  exists x' y' z', reduced A1 x x' /\ reduced A2 y y' /\ reduced A3 z z' /\
  let r := eval_3d RA s1 s2 s3 m1 m2 m3 l1 u1 l2 u2 l3 u3 x y z c in
  let fine A x := ax_periodic A = true \/ inside A x in
  (ax_periodic A1 = false -> ((x < ax_min A1)%R -> r = l1 [x'; y'; z'] c) /\ ((ax_max A1 < x)%R -> r = u1 [x'; y'; z'] c)) /\
  (ax_periodic A2 = false -> fine A1 x -> ((y < ax_min A2)%R -> r = l2 [x'; y'; z'] c) /\ ((ax_max A2 < y)%R -> r = u2 [x'; y'; z'] c)) /\
  (ax_periodic A3 = false -> fine A1 x -> fine A2 y -> ((z < ax_min A3)%R -> r = l3 [x'; y'; z'] c) /\ ((ax_max A3 < z)%R -> r = u3 [x'; y'; z'] c)).
Proof. exact outside_3. Qed.
Print Assumptions C55_outside.
(** Evaluation on a batch of meshes writes each element of the output, with the spline of its batch at its coordinates; so for derivatives. *)
Theorem C55_batched : forall A1 A2 A3 s1 s2 s3, space_of s1 A1 -> space_of s2 A2 -> space_of s3 A3 -> forall m1 m2 m3 l1 u1 l2 u2 l3 u3 nbatch f1 n1 f2 n2 f3 n3
  (coords where_ : Z -> list Z -> R * R * R) (coef out : Z -> chunk_nd RA),
  0 <= nbatch -> mesh [f1; f2; f3] [n1; n2; n3] -> (forall j, 0 <= j < nbatch -> on_mesh (out j) [f1; f2; f3] [n1; n2; n3]) ->
  (forall j k1 k2 k3, 0 <= j < nbatch -> 0 <= k1 < n1 -> 0 <= k2 < n2 -> 0 <= k3 < n3 -> has_coefficients_nd (coef j) [ax_size A1; ax_size A2; ax_size A3] /\
     periodic_nd [A1; A2; A3] (coefficient_nd (coef j)) /\ all3 lands [A1; A2; A3] (as_list (coords j [f1 + k1; f2 + k2; f3 + k3])) (as_list (where_ j [k1; k2; k3]))) ->
  exists out', evaluate_3d RA s1 s2 s3 m1 m2 m3 l1 u1 l2 u2 l3 u3 nbatch f1 n1 f2 n2 f3 n3 coords coef out = Ok out' /\
    forall j, 0 <= j < nbatch -> on_mesh (out' j) [f1; f2; f3] [n1; n2; n3] /\
      forall k1 k2 k3, 0 <= k1 < n1 -> 0 <= k2 < n2 -> 0 <= k3 < n3 -> cn_at (out' j) [k1; k2; k3] = spline_nd [A1; A2; A3] (coefficient_nd (coef j)) (as_list (where_ j [k1; k2; k3])).
Proof. exact batched_3d. Qed.
Print Assumptions C55_batched.
Theorem C55_deriv_batched : forall A1 A2 A3 s1 s2 s3, space_of s1 A1 -> space_of s2 A2 -> space_of s3 A3 -> forall m1 m2 m3 o1 o2 o3 nbatch f1 n1 f2 n2 f3 n3
  (coords : Z -> list Z -> R * R * R) (coef out : Z -> chunk_nd RA),
  0 <= nbatch -> mesh [f1; f2; f3] [n1; n2; n3] -> (forall j, 0 <= j < nbatch -> on_mesh (out j) [f1; f2; f3] [n1; n2; n3]) -> order_valid A1 o1 -> order_valid A2 o2 -> order_valid A3 o3 ->
  (forall j k1 k2 k3, 0 <= j < nbatch -> 0 <= k1 < n1 -> 0 <= k2 < n2 -> 0 <= k3 < n3 -> has_coefficients_nd (coef j) [ax_size A1; ax_size A2; ax_size A3] /\
     Forall2 inside [A1; A2; A3] (as_list (coords j [f1 + k1; f2 + k2; f3 + k3]))) ->
  exists out', deriv_3d RA s1 s2 s3 m1 m2 m3 o1 o2 o3 nbatch f1 n1 f2 n2 f3 n3 coords coef out = Ok out' /\
    forall j, 0 <= j < nbatch -> on_mesh (out' j) [f1; f2; f3] [n1; n2; n3] /\
      forall k1 k2 k3, 0 <= k1 < n1 -> 0 <= k2 < n2 -> 0 <= k3 < n3 -> let '(x, y, z) := coords j [f1 + k1; f2 + k2; f3 + k3] in
        eval_no_bc_3d RA s1 s2 s3 m1 m2 m3 o1 o2 o3 x y z (coef j) = Ok (cn_at (out' j) [k1; k2; k3] : num RA).
Proof. exact deriv_batched_3d. Qed.
Print Assumptions C55_deriv_batched.
(** integrate returns the triple integral of the spline over the domain, for each element of the batch (the condition on uniform spaces is that of C37). *)
Theorem C55_integrate : forall A1 A2 A3 s1 s2 s3, space_of s1 A1 -> space_of s2 A2 -> space_of s3 A3 -> forall m1 m2 m3 q1 q2 q3 k1 k2 k3 nbatch (coef : Z -> chunk_nd RA) (out : arr R),
  0 <= nbatch -> a_len out = nbatch ->
  (bs_uniform RA s1 = true -> ax_periodic A1 = false -> ax_degree A1 <= ax_cells A1) -> (bs_uniform RA s2 = true -> ax_periodic A2 = false -> ax_degree A2 <= ax_cells A2) ->
  (bs_uniform RA s3 = true -> ax_periodic A3 = false -> ax_degree A3 <= ax_cells A3) ->
  (forall j, 0 <= j < nbatch -> has_coefficients_nd (coef j) [ax_size A1; ax_size A2; ax_size A3] /\ periodic_nd [A1; A2; A3] (coefficient_nd (coef j))) ->
  exists out', integrate_3d RA s1 s2 s3 m1 m2 m3 q1 q2 q3 k1 k2 k3 0 (ax_size A1) 0 (ax_size A2) 0 (ax_size A3) nbatch coef out = Ok out' /\ a_len out' = nbatch /\
    forall j, 0 <= j < nbatch -> integral_nd (map (fun A => (ax_min A, ax_max A)) [A1; A2; A3]) (spline_nd [A1; A2; A3] (coefficient_nd (coef j))) (a_at out' j).
Proof. exact integrates_3d. Qed.
Print Assumptions C55_integrate.
(** It is the evaluator for any number of dimensions, whatever the coordinates, coefficients and rules. *)
Theorem C55_same_as_nd : forall s1 m1 s2 m2 s3 m3 l1 u1 l2 u2 l3 u3 x y z (c : chunk_nd RA),
  eval_nd RA [(s1, m1); (s2, m2); (s3, m3)] [(l1, u1); (l2, u2); (l3, u3)] [x; y; z] c = eval_3d RA s1 s2 s3 m1 m2 m3 l1 u1 l2 u2 l3 u3 x y z c.
Proof. exact agree_3. Qed.
Print Assumptions C55_same_as_nd.

(** The hypotheses are met: degree 1 in all dimensions, with values of any kind; *)
Example C55_example : exists s bd, builder_for GINKGO s line bd /\ never_fails s line unit_solvers bd /\ exact_solvers unit_solvers /\ determined line /\ space_of s line /\ supported line line /\
  forall values, let D k1 k2 k3 := match k1, k2, k3 with Inside, Inside, Inside => Some (mk_chunk_nd (A := RA) [2; 5; 7] [3; 3; 3] values) | _, _, _ => None end in
  data_given_3d line line line D /\ exists c, run_3d s s s line line line unit_solvers bd bd bd (fun _ _ => 9%R) (fun _ _ _ _ => 9%R) (fun _ _ _ _ => 9%R)
    (mk_chunk_nd (A := RA) [0; 0; 0] [3; 3; 3] (fun _ => 9%R)) D = Ok c.
Proof.
  destruct line_builder as (s & bd & B & NF). exists s, bd. assert (Sup : supported line line) by (intros [] []; discriminate).
  split; [exact B|]. split; [exact NF|]. split; [exact unit_exact|]. split; [exact line_determined|]. split; [exact (builder_space _ _ _ _ B)|]. split; [exact Sup|]. intros values D.
  assert (HD : data_given_3d line line line D).
  { exists 5, 7. split; [lia|]. split; [lia|]. intros [|[]] [|[]] Hr; try discriminate. split; [exists 2; split; reflexivity | intros []; reflexivity]. }
  split; [exact HD|]. apply (builds_3d GINKGO GINKGO GINKGO s s s line line line unit_solvers bd bd bd B B B D HD Sup NF NF NF). split; reflexivity.
Qed.
(** a periodic dimension of degree 3 in front; *)
Example C55_periodic_example : exists s1 bd1 s2 bd2, builder_for GINKGO s1 circle_axis bd1 /\ builder_for GINKGO s2 line bd2 /\ determined line /\ ax_periodic circle_axis = true /\ supported line line /\
  forall values, data_given_3d circle_axis line line (fun k1 k2 k3 => match k1, k2, k3 with Inside, Inside, Inside => Some (mk_chunk_nd (A := RA) [2; 5; 7] [20; 3; 3] values) | _, _, _ => None end).
Proof.
  destruct circle_builder as (s1 & bd1 & B1). destruct line_builder as (s2 & bd2 & B2 & _). exists s1, bd1, s2, bd2. split; [exact B1|]. split; [exact B2|]. split; [exact line_determined|]. split; [reflexivity|].
  split; [intros [] []; discriminate|]. intros values. exists 5, 7. split; [lia|]. split; [lia|]. intros [|[]] [|[]] Hr; try discriminate. split; [exists 2; split; reflexivity | intros []; reflexivity].
Qed.
(** derivatives given at the ends of all dimensions, with all mixed derivatives; *)
Example C55_hermite_data_example : exists s bd, builder_for GINKGO s slope_axis bd /\ supported slope_axis slope_axis /\
  forall values, data_given_3d slope_axis slope_axis slope_axis (fun k1 k2 k3 =>
    let n k := match k with Inside => 21 | At _ => 1 end in let f k := match k with Inside => 4 | At _ => 1 end in Some (mk_chunk_nd (A := RA) [f k1; f k2; f k3] [n k1; n k2; n k3] (values k1 k2 k3))).
Proof.
  destruct slope_builder as (s & bd & B). exists s, bd. split; [exact B|]. split; [intros [] []; reflexivity|]. intros values. exists 4, 4. split; [lia|]. split; [lia|]. intros k2 k3 _.
  split; [exists 4; destruct k2, k3; split; reflexivity|]. intros e1. destruct e1, k2, k3; split; reflexivity.
Qed.
(** for the findings, a second dimension that is periodic and a third one of closure HERMITE; *)
Example C55_third_hermite_example : exists s1 bd1 s2 bd2 s3 bd3, builder_for GINKGO s1 line bd1 /\ builder_for GINKGO s2 circle_axis bd2 /\ builder_for GINKGO s3 slope_axis bd3 /\
  edge_closure slope_axis Lower = HERMITE /\ edge_closure circle_axis Lower <> HERMITE /\ 2 <= ax_degree circle_axis /\ 2 <= ax_degree slope_axis.
Proof.
  destruct line_builder as (s1 & bd1 & B1 & _). destruct circle_builder as (s2 & bd2 & B2). destruct slope_builder as (s3 & bd3 & B3). exists s1, bd1, s2, bd2, s3, bd3.
  split; [exact B1|]. split; [exact B2|]. split; [exact B3|]. split; [reflexivity|]. split; [discriminate|]. split; cbn; lia.
Qed.
(** and a run with derivatives given at all ends: degree 3, points 0 and 2 in each dimension.  With 0 and 1 for the points, 2 and 3 for the derivatives at the ends, what is given
    for a, b and c is a + 4 b + 16 c + a b c. *)
Definition given (a b c : Z) : Z := a + 4 * b + 16 * c + a * b * c.
Definition q_mesh (k1 k2 k3 : Z) : option (chunk_nd QA) :=
  let front k := if k <? 2 then 4 else 1 in let size k := if k <? 2 then 2 else 1 in
  Some (mk_chunk_nd (A := QA) [front k1; front k2; front k3] [size k1; size k2; size k3] (fun is => inject_Z (given (k1 + nth 0 is 0) (k2 + nth 1 is 0) (k3 + nth 2 is 0)))).
Definition q_derivs : derivs_3d QA :=
  mk_derivs_3d (q_mesh 2 0 0) (q_mesh 3 0 0) (q_mesh 0 2 0) (q_mesh 0 3 0) (q_mesh 0 0 2) (q_mesh 0 0 3)
    (q_mesh 2 2 0) (q_mesh 3 2 0) (q_mesh 2 3 0) (q_mesh 3 3 0) (q_mesh 0 2 2) (q_mesh 0 3 2) (q_mesh 0 2 3) (q_mesh 0 3 3) (q_mesh 2 0 2) (q_mesh 3 0 2) (q_mesh 2 0 3) (q_mesh 3 0 3)
    (q_mesh 2 2 2) (q_mesh 3 2 2) (q_mesh 2 3 2) (q_mesh 3 3 2) (q_mesh 2 2 3) (q_mesh 3 2 3) (q_mesh 2 3 3) (q_mesh 3 3 3).
Example C55_hermite_run : match nb_construct QA (fun _ => 9 # 1)%Q 3 false (map inject_Z [0; 2]) with
  | Ok (Some s) =>
      match builder_construct QA (NonUniform s) q_junk GINKGO HERMITE HERMITE 0 2 (listed 0 (map inject_Z [0; 2])), q_mesh 0 0 0 with
      | Ok bd, Some vals =>
          match build_3d QA (NonUniform s) (NonUniform s) (NonUniform s) HERMITE HERMITE HERMITE HERMITE HERMITE HERMITE q_solvers bd bd bd (fun _ _ => 7 # 1)%Q (fun _ _ _ _ => 7 # 1)%Q (fun _ _ _ _ => 7 # 1)%Q
                  (mk_chunk_nd (A := QA) [0; 0; 0] [4; 4; 4] (fun _ => 7 # 1)%Q) vals q_derivs with
          | Ok c =>
              let order a := if a <? 2 then None else Some 1 in
              let place a := inject_Z (2 * (a mod 2)) in
              map (fun '(a, b, c0) => eval_no_bc_3d QA (NonUniform s) (NonUniform s) (NonUniform s) q_junk q_junk q_junk (order a) (order b) (order c0) (place a) (place b) (place c0) c)
                [(0, 0, 1); (1, 0, 1); (3, 0, 1); (1, 2, 0); (1, 1, 3); (2, 3, 1); (1, 2, 3); (3, 1, 3); (2, 3, 2)]
              = map (fun '(a, b, c0) => Ok (inject_Z (given a b c0))) [(0, 0, 1); (1, 0, 1); (3, 0, 1); (1, 2, 0); (1, 1, 3); (2, 3, 1); (1, 2, 3); (3, 1, 3); (2, 3, 2)]
          | _ => False end
      | _, _ => False end
  | _ => False end.
Proof. vm_compute. reflexivity. Qed.
