(** Property C46: splines in two dimensions.  An [axis] (Spline2DSpec) is one dimension of the problem; [spline_2d A1 A2 c] is the function
    sum of c i j * B_i(x) * B_j(y).  [builder_for] says that the one-dimensional builders are those of C41. *)
From Coq Require Import Bool Reals Lia Lra List QArith.
From Verif Require Import Spline2DSpec Spline2DBuild Spline2DEval Spline2DEval2 Spline2DIntegral Spline2DTheorems BuilderTheorems BuilderFindings.
Import ListNotations.
Local Open Scope bool_scope. Local Open Scope Z_scope.

(** * C46 *)
(** What is built takes the values at the points, and has the derivatives asked for on the edges and at the corners. *)
Theorem C46_interpolates : forall solver1 solver2 s1 s2 A1 A2 X bd1 bd2, builder_for solver1 s1 A1 bd1 -> builder_for solver2 s2 A2 bd2 ->
  forall D, data_given A1 A2 D -> exact_solvers X -> forall junk junk_min junk_max work1 work_min work_max work2 sp c, has_coefficients_2d sp (ax_size A1) (ax_size A2) ->
  run_2d s1 s2 A1 A2 X bd1 bd2 junk junk_min junk_max work1 work_min work_max work2 sp D = Ok c ->
  has_coefficients_2d c (ax_size A1) (ax_size A2) /\ interpolates_2d A1 A2 D (coefficient_2d c).
Proof. exact build_2d_sound. Qed.
Print Assumptions C46_interpolates.
(** Nothing fails if the one-dimensional builders do not (C41). *)
Theorem C46_builds : forall solver1 solver2 s1 s2 A1 A2 X bd1 bd2, builder_for solver1 s1 A1 bd1 -> builder_for solver2 s2 A2 bd2 ->
  forall D, data_given A1 A2 D -> forall junk junk_min junk_max work1 work_min work_max work2 sp, never_fails s1 A1 X bd1 -> never_fails s2 A2 X bd2 ->
  has_coefficients_2d sp (ax_size A1) (ax_size A2) ->
  exists c, run_2d s1 s2 A1 A2 X bd1 bd2 junk junk_min junk_max work1 work_min work_max work2 sp D = Ok c.
Proof. exact build_2d_total. Qed.
Print Assumptions C46_builds.
(** The coefficients are periodic in the periodic dimensions, if interpolation in the second one has at most one solution. *)
Theorem C46_periodic : forall solver1 solver2 s1 s2 A1 A2 X bd1 bd2, builder_for solver1 s1 A1 bd1 -> builder_for solver2 s2 A2 bd2 ->
  forall D, data_given A1 A2 D -> exact_solvers X -> forall junk junk_min junk_max work1 work_min work_max work2 sp c, has_coefficients_2d sp (ax_size A1) (ax_size A2) ->
  run_2d s1 s2 A1 A2 X bd1 bd2 junk junk_min junk_max work1 work_min work_max work2 sp D = Ok c -> determined A2 -> periodic_2d A1 A2 (coefficient_2d c).
Proof. exact build_2d_periodic. Qed.
Print Assumptions C46_periodic.
(** The evaluator then returns the values at the points, whatever the extrapolation rules. *)
Theorem C46_evaluates : forall solver1 solver2 s1 s2 A1 A2 X bd1 bd2, builder_for solver1 s1 A1 bd1 -> builder_for solver2 s2 A2 bd2 -> exact_solvers X ->
  forall D, data_given A1 A2 D -> forall junk junk_min junk_max work1 work_min work_max work2 sp c, has_coefficients_2d sp (ax_size A1) (ax_size A2) ->
  run_2d s1 s2 A1 A2 X bd1 bd2 junk junk_min junk_max work1 work_min work_max work2 sp D = Ok c ->
  forall m1 m2 l1 u1 l2 u2 i j, 0 <= i < ax_points A1 -> 0 <= j < ax_points A2 ->
  eval_2d RA s1 s2 m1 m2 l1 u1 l2 u2 (ax_point A1 i) (ax_point A2 j) c = Ok (a2_at (c2_vals (dt_values D)) i j : num RA).
Proof. exact evaluates_2d. Qed.
Print Assumptions C46_evaluates.
(** Evaluation, with or without derivatives, is evaluation in one dimension of the lines and then of the spline they give, in either order. *)
Theorem C46_iterated : forall A1 A2 s1 s2, space_of s1 A1 -> space_of s2 A2 -> forall m1 m2 o1 o2 x y (c : chunk_2d RA), has_coefficients_2d c (ax_size A1) (ax_size A2) ->
  (ax_min A1 <= x <= ax_max A1)%R -> (ax_min A2 <= y <= ax_max A2)%R -> order_valid A1 o1 -> order_valid A2 o2 ->
  exists v : R, eval_no_bc_2d RA s1 s2 m1 m2 o1 o2 x y c = Ok v /\
  (exists rows : chunk_1d RA, has_coefficients rows (ax_size A1) /\
     (forall i, 0 <= i < ax_size A1 -> exists l, line2 RA c i = Ok l /\ eval_no_bc RA s2 m2 o2 y l = Ok (coefficient rows i : num RA)) /\ eval_no_bc RA s1 m1 o1 x rows = Ok v) /\
  (exists columns : chunk_1d RA, has_coefficients columns (ax_size A2) /\
     (forall j, 0 <= j < ax_size A2 -> exists l, line1 RA c j = Ok l /\ eval_no_bc RA s1 m1 o1 x l = Ok (coefficient columns j : num RA)) /\ eval_no_bc RA s2 m2 o2 y columns = Ok v).
Proof. exact iterated. Qed.
Print Assumptions C46_iterated.
(** Evaluation inside the domain is the value of the spline; elsewhere in periodic dimensions, the value at the point brought back by a number of periods. *)
Theorem C46_inside : forall A1 A2 s1 s2, space_of s1 A1 -> space_of s2 A2 -> forall m1 m2 l1 u1 l2 u2 x y (c : chunk_2d RA), has_coefficients_2d c (ax_size A1) (ax_size A2) ->
  (ax_min A1 <= x <= ax_max A1)%R -> (ax_min A2 <= y <= ax_max A2)%R ->
  eval_2d RA s1 s2 m1 m2 l1 u1 l2 u2 x y c = Ok (spline_2d A1 A2 (coefficient_2d c) x y : num RA).
Proof. exact eval_2d_inside. Qed.
Print Assumptions C46_inside.
Theorem C46_wraps : forall A1 A2 s1 s2, space_of s1 A1 -> space_of s2 A2 -> forall m1 m2 l1 u1 l2 u2 x y x' y' (c : chunk_2d RA), has_coefficients_2d c (ax_size A1) (ax_size A2) ->
  periodic_2d A1 A2 (coefficient_2d c) -> lands A1 x x' -> lands A2 y y' ->
  eval_2d RA s1 s2 m1 m2 l1 u1 l2 u2 x y c = Ok (spline_2d A1 A2 (coefficient_2d c) x' y' : num RA).
Proof. exact eval_2d_lands. Qed.
Print Assumptions C46_wraps.
(** The evaluator of derivatives returns the mixed derivative of the polynomial that the spline is on the cell of the point. *)
Theorem C46_derivative : forall A1 A2 s1 s2, space_of s1 A1 -> space_of s2 A2 -> forall m1 m2 o1 o2 x y (c : chunk_2d RA), has_coefficients_2d c (ax_size A1) (ax_size A2) ->
  (ax_min A1 <= x <= ax_max A1)%R -> (ax_min A2 <= y <= ax_max A2)%R -> order_valid A1 o1 -> order_valid A2 o2 ->
  exists k1 k2 (v : R), ax_degree A1 <= k1 < ax_degree A1 + ax_cells A1 /\ ax_degree A2 <= k2 < ax_degree A2 + ax_cells A2 /\
    (ax_knots A1 k1 <= x <= ax_knots A1 (k1 + 1)%Z)%R /\ (ax_knots A2 k2 <= y <= ax_knots A2 (k2 + 1)%Z)%R /\
    (forall x' y', (ax_knots A1 k1 <= x' <= ax_knots A1 (k1 + 1)%Z)%R -> (ax_knots A2 k2 <= y' <= ax_knots A2 (k2 + 1)%Z)%R ->
       spline_2d A1 A2 (coefficient_2d c) x' y' = piece_2d A1 A2 k1 k2 (coefficient_2d c) x' y') /\
    eval_no_bc_2d RA s1 s2 m1 m2 o1 o2 x y c = Ok v /\
    mixed_derivative (Z.to_nat (order_of o1)) (Z.to_nat (order_of o2)) (piece_2d A1 A2 k1 k2 (coefficient_2d c)) x y v.
Proof. exact derivative_2d. Qed.
Print Assumptions C46_derivative.
(** Outside of the domain in the first dimension its rules apply, whatever the second coordinate; those of the second dimension apply otherwise. *)
Theorem C46_outside_first : forall A1 A2 s1 s2, space_of s1 A1 -> space_of s2 A2 -> forall m1 m2 (l1 u1 l2 u2 : rule_2d RA) x y (c : chunk_2d RA), ax_periodic A1 = false ->
  exists y' : R, (if ax_periodic A2 then lands A2 y y' else y' = y) /\
  ((x < ax_min A1)%R -> eval_2d RA s1 s2 m1 m2 l1 u1 l2 u2 x y c = l1 x y' c) /\ ((ax_max A1 < x)%R -> eval_2d RA s1 s2 m1 m2 l1 u1 l2 u2 x y c = u1 x y' c).
Proof. exact eval_2d_outside1. Qed.
Print Assumptions C46_outside_first.
Theorem C46_outside_second : forall A1 A2 s1 s2, space_of s1 A1 -> space_of s2 A2 -> forall m1 m2 (l1 u1 l2 u2 : rule_2d RA) x y (c : chunk_2d RA), ax_periodic A2 = false ->
  ax_periodic A1 = true \/ (ax_min A1 <= x <= ax_max A1)%R ->
  exists x' : R, (if ax_periodic A1 then lands A1 x x' else x' = x) /\
  ((y < ax_min A2)%R -> eval_2d RA s1 s2 m1 m2 l1 u1 l2 u2 x y c = l2 x' y c) /\ ((ax_max A2 < y)%R -> eval_2d RA s1 s2 m1 m2 l1 u1 l2 u2 x y c = u2 x' y c).
Proof. exact eval_2d_outside2. Qed.
Print Assumptions C46_outside_second.
(** With constant extrapolation at the four boundaries, the value is that at the nearest point of the domain; *)
Theorem C46_constant : forall A1 A2 s1 s2, space_of s1 A1 -> space_of s2 A2 -> forall m1 m2 x y (c : chunk_2d RA), has_coefficients_2d c (ax_size A1) (ax_size A2) ->
  ax_periodic A1 = false -> ax_periodic A2 = false ->
  let const1 pos := constant_rule_2d_1 RA s1 s2 m1 m2 pos (ax_min A2) (ax_max A2) in
  let const2 pos := constant_rule_2d_2 RA s1 s2 m1 m2 pos (ax_min A1) (ax_max A1) in
  eval_2d RA s1 s2 m1 m2 (const1 (ax_min A1)) (const1 (ax_max A1)) (const2 (ax_min A2)) (const2 (ax_max A2)) x y c
  = Ok (spline_2d A1 A2 (coefficient_2d c) (nearest (ax_min A1) (ax_max A1) x) (nearest (ax_min A2) (ax_max A2) y) : num RA).
Proof. exact eval_2d_constant. Qed.
Print Assumptions C46_constant.
(** and the same with a second dimension that is periodic. *)
Theorem C46_constant_periodic : forall A1 A2 s1 s2, space_of s1 A1 -> space_of s2 A2 -> forall m1 m2 x y y' (l2 u2 : rule_2d RA) (c : chunk_2d RA),
  has_coefficients_2d c (ax_size A1) (ax_size A2) -> periodic_2d A1 A2 (coefficient_2d c) -> ax_periodic A1 = false -> ax_periodic A2 = true -> lands A2 y y' ->
  let const1 pos := constant_rule_2d_1 RA s1 s2 m1 m2 pos (ax_min A2) (ax_max A2) in
  eval_2d RA s1 s2 m1 m2 (const1 (ax_min A1)) (const1 (ax_max A1)) l2 u2 x y c
  = Ok (spline_2d A1 A2 (coefficient_2d c) (nearest (ax_min A1) (ax_max A1) x) y' : num RA).
Proof. exact eval_2d_constant_periodic. Qed.
Print Assumptions C46_constant_periodic.
(** Evaluation on a batch of meshes writes each element of the output, with the spline of its batch at its coordinates; so for derivatives. *)
Theorem C46_batched : forall A1 A2 s1 s2, space_of s1 A1 -> space_of s2 A2 -> forall m1 m2 (l1 u1 l2 u2 : rule_2d RA) nbatch n1 n2 (coords where_ : Z -> Z -> Z -> R * R)
  (coef : Z -> chunk_2d RA) (out : Z -> arr2 R),
  0 <= nbatch -> 0 <= n1 -> 0 <= n2 -> (forall j, 0 <= j < nbatch -> a2_n (out j) = n1 /\ a2_m (out j) = n2) ->
  (forall j i1 i2, 0 <= j < nbatch -> 0 <= i1 < n1 -> 0 <= i2 < n2 -> has_coefficients_2d (coef j) (ax_size A1) (ax_size A2) /\ periodic_2d A1 A2 (coefficient_2d (coef j)) /\
     lands A1 (fst (coords j i1 i2)) (fst (where_ j i1 i2)) /\ lands A2 (snd (coords j i1 i2)) (snd (where_ j i1 i2))) ->
  exists out', evaluate_2d RA s1 s2 m1 m2 l1 u1 l2 u2 nbatch n1 n2 coords coef out = Ok out' /\
    (forall j, 0 <= j < nbatch -> a2_n (out' j) = n1 /\ a2_m (out' j) = n2 /\ forall i1 i2, 0 <= i1 < n1 -> 0 <= i2 < n2 ->
       a2_at (out' j) i1 i2 = spline_2d A1 A2 (coefficient_2d (coef j)) (fst (where_ j i1 i2)) (snd (where_ j i1 i2))).
Proof. exact evaluate_2d_lands. Qed.
Print Assumptions C46_batched.
Theorem C46_deriv_batched : forall A1 A2 s1 s2, space_of s1 A1 -> space_of s2 A2 -> forall m1 m2 o1 o2 nbatch n1 n2 (coords : Z -> Z -> Z -> R * R) (coef : Z -> chunk_2d RA) (out : Z -> arr2 R),
  0 <= nbatch -> 0 <= n1 -> 0 <= n2 -> (forall j, 0 <= j < nbatch -> a2_n (out j) = n1 /\ a2_m (out j) = n2) -> order_valid A1 o1 -> order_valid A2 o2 ->
  (forall j i1 i2, 0 <= j < nbatch -> 0 <= i1 < n1 -> 0 <= i2 < n2 -> has_coefficients_2d (coef j) (ax_size A1) (ax_size A2) /\
     (ax_min A1 <= fst (coords j i1 i2) <= ax_max A1)%R /\ (ax_min A2 <= snd (coords j i1 i2) <= ax_max A2)%R) ->
  exists out', deriv_2d RA s1 s2 m1 m2 o1 o2 nbatch n1 n2 coords coef out = Ok out' /\
    (forall j, 0 <= j < nbatch -> a2_n (out' j) = n1 /\ a2_m (out' j) = n2 /\ forall i1 i2, 0 <= i1 < n1 -> 0 <= i2 < n2 ->
       eval_no_bc_2d RA s1 s2 m1 m2 o1 o2 (fst (coords j i1 i2)) (snd (coords j i1 i2)) (coef j) = Ok (a2_at (out' j) i1 i2 : num RA)).
Proof. exact deriv_2d_batched. Qed.
Print Assumptions C46_deriv_batched.
(** integrate returns the double integral of the spline over the domain, for each element of the batch (the condition on uniform spaces is that of C37). *)
Theorem C46_integrate : forall A1 A2 s1 s2, space_of s1 A1 -> space_of s2 A2 -> forall m1 m2 q1 q2 junk1 junk2 nbatch (coef : Z -> chunk_2d RA) (out : arr R), 0 <= nbatch -> a_len out = nbatch ->
  (bs_uniform RA s1 = true -> ax_periodic A1 = false -> ax_degree A1 <= ax_cells A1) -> (bs_uniform RA s2 = true -> ax_periodic A2 = false -> ax_degree A2 <= ax_cells A2) ->
  (forall j, 0 <= j < nbatch -> has_coefficients_2d (coef j) (ax_size A1) (ax_size A2) /\ periodic_2d A1 A2 (coefficient_2d (coef j))) ->
  exists out', integrate_2d RA s1 s2 m1 m2 q1 q2 junk1 junk2 0 (ax_size A1) 0 (ax_size A2) nbatch coef out = Ok out' /\ a_len out' = nbatch /\
    (forall j, 0 <= j < nbatch -> exists G : R -> R, (forall x, integral (spline_2d A1 A2 (coefficient_2d (coef j)) x) (ax_min A2) (ax_max A2) (G x)) /\
       integral G (ax_min A1) (ax_max A1) (a_at out' j)).
Proof. exact integrate_2d_values. Qed.
Print Assumptions C46_integrate.

(** The hypotheses are met: degree 1 in both dimensions, with values of any kind; *)
Example C46_example : exists s bd, builder_for GINKGO s line bd /\ never_fails s line unit_solvers bd /\ exact_solvers unit_solvers /\ determined line /\ space_of s line /\
  forall values, let D := mk_data_2d (mk_chunk_2d (A := RA) 5 7 (mk_arr2 3 3 values)) (fun _ => None) (fun _ => None) (fun _ _ => None) in
  data_given line line D /\ exists c, run_2d s s line line unit_solvers bd bd (fun _ _ => 9%R) (fun _ _ => 9%R) (fun _ _ => 9%R) (fun _ _ => 9%R) (fun _ _ => 9%R) (fun _ _ => 9%R) (fun _ _ => 9%R)
    (mk_chunk_2d (A := RA) 0 0 (mk_arr2 3 3 (fun _ _ => 9%R))) D = Ok c.
Proof.
  destruct line_builder as (s & bd & B & NF). exists s, bd. split; [exact B|]. split; [exact NF|]. split; [exact unit_exact|]. split; [exact line_determined|]. split; [exact (builder_space _ _ _ _ B)|].
  intros values D. assert (HD : data_given line line D) by (repeat split; cbn; try lia; intros []; cbn; auto; try discriminate; intros []; cbn; discriminate). split; [exact HD|].
  apply (build_2d_total GINKGO GINKGO s s line line unit_solvers bd bd B B D HD _ _ _ _ _ _ _ _ NF NF). repeat split.
Qed.
(** a periodic dimension of degree 3 and one of degree 1; *)
Example C46_periodic_example : exists s1 bd1 s2 bd2, builder_for GINKGO s1 circle_axis bd1 /\ builder_for GINKGO s2 line bd2 /\ determined line /\ ax_periodic circle_axis = true /\
  forall values, data_given circle_axis line (mk_data_2d (mk_chunk_2d (A := RA) 5 7 (mk_arr2 20 3 values)) (fun _ => None) (fun _ => None) (fun _ _ => None)).
Proof.
  destruct circle_builder as (s1 & bd1 & B1). destruct line_builder as (s2 & bd2 & B2 & _). exists s1, bd1, s2, bd2. split; [exact B1|]. split; [exact B2|]. split; [exact line_determined|]. split; [reflexivity|].
  intros values. repeat split; cbn; try lia; intros []; cbn; auto; try discriminate; intros []; cbn; discriminate.
Qed.
(** and a run with derivatives given on the edges and at the corners: degree 3, points 0, 1, 3 in each dimension; values 1 + i + 3 j + i j, derivatives
    10 + j, 20 + j in x, 30 + i, 40 + i in y, mixed 50, 60, 70, 80. *)
Definition q_grid (front1 front2 n1 n2 : Z) (f : Z -> Z -> Z) : chunk_2d QA := mk_chunk_2d (A := QA) front1 front2 (mk_arr2 n1 n2 (fun i j => inject_Z (f i j))).
Definition seven (_ _ : Z) : Q := (7 # 1)%Q.
Example C46_hermite_example : match nb_construct QA (fun _ => 9 # 1)%Q 3 false (map inject_Z [0; 1; 3]) with
  | Ok (Some s) =>
      match builder_construct QA (NonUniform s) q_junk GINKGO HERMITE HERMITE 0 3 (listed 0 (map inject_Z [0; 1; 3])) with
      | Ok bd =>
          match build_2d QA (NonUniform s) (NonUniform s) HERMITE HERMITE HERMITE HERMITE q_solvers bd bd seven seven seven seven seven seven seven (q_grid 0 0 5 5 (fun _ _ => 7))
                  (q_grid 2 4 3 3 (fun i j => 1 + i + 3 * j + i * j)) (Some (q_grid 1 4 1 3 (fun _ j => 10 + j))) (Some (q_grid 1 4 1 3 (fun _ j => 20 + j)))
                  (Some (q_grid 2 1 3 1 (fun i _ => 30 + i))) (Some (q_grid 2 1 3 1 (fun i _ => 40 + i)))
                  (Some (q_grid 1 1 1 1 (fun _ _ => 50))) (Some (q_grid 1 1 1 1 (fun _ _ => 60))) (Some (q_grid 1 1 1 1 (fun _ _ => 70))) (Some (q_grid 1 1 1 1 (fun _ _ => 80))) with
          | Ok c =>
              let at_ o1 o2 x y := eval_no_bc_2d QA (NonUniform s) (NonUniform s) q_junk q_junk o1 o2 (inject_Z x) (inject_Z y) c in
              map (fun '(x, y) => at_ None None x y) [(0, 0); (1, 0); (0, 1); (3, 1); (1, 3); (3, 3)] = map (fun v => Ok (inject_Z v)) [1; 2; 4; 8; 10; 13] /\
              map (at_ (Some 1) None 0) [0; 1; 3] = map (fun v => Ok (inject_Z v)) [10; 11; 12] /\ map (at_ (Some 1) None 3) [0; 1; 3] = map (fun v => Ok (inject_Z v)) [20; 21; 22] /\
              map (fun x => at_ None (Some 1) x 0) [0; 1; 3] = map (fun v => Ok (inject_Z v)) [30; 31; 32] /\ map (fun x => at_ None (Some 1) x 3) [0; 1; 3] = map (fun v => Ok (inject_Z v)) [40; 41; 42] /\
              [at_ (Some 1) (Some 1) 0 0; at_ (Some 1) (Some 1) 3 0; at_ (Some 1) (Some 1) 0 3; at_ (Some 1) (Some 1) 3 3] = map (fun v => Ok (inject_Z v)) [50; 60; 70; 80]
          | _ => False end
      | _ => False end
  | _ => False end.
Proof. vm_compute. repeat split. Qed.
