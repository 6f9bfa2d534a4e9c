(** Property C54: evaluation of splines in any number of dimensions.  A list [As] of [axis] (Spline2DSpec) describes the dimensions; [spline_nd As c] is the function
    sum of c [i1; ...; in] * B_i1(x1) * ... * B_in(xn) (SplineNDSpec). *)
From Coq Require Import Bool Reals Lia Lra List QArith.
From Verif Require Import SplineNDSpec SplineNDEval SplineNDEval2 SplineNDIntegral SplineNDAgree Spline2DTheorems SplineNDTheorems BuilderFindings.
Import ListNotations.
Local Open Scope bool_scope. Local Open Scope Z_scope.

(** * C54 *)
(** Evaluation inside the domain is the value of the spline; elsewhere in periodic dimensions, the value at the point brought back by a number of periods. *)
Theorem C54_inside : forall dims As, spaces_of dims As -> forall rules xs (c : chunk_nd RA), length rules = length dims -> has_coefficients_nd c (map ax_size As) -> Forall2 inside As xs ->
  eval_nd RA dims rules xs c = Ok (spline_nd As (coefficient_nd c) xs : num RA).
Proof. exact eval_nd_inside. Qed.
Print Assumptions C54_inside.
Theorem C54_wraps : forall dims As, spaces_of dims As -> forall rules xs xs' (c : chunk_nd RA), length rules = length dims -> has_coefficients_nd c (map ax_size As) -> periodic_nd As (coefficient_nd c) ->
  all3 lands As xs xs' -> eval_nd RA dims rules xs c = Ok (spline_nd As (coefficient_nd c) xs' : num RA).
Proof. exact eval_nd_lands. Qed.
Print Assumptions C54_wraps.
(** The evaluator of derivatives returns the mixed derivative of the polynomial that the spline is on the cell of the point. *)
Theorem C54_derivative : forall dims As, spaces_of dims As -> forall orders xs (c : chunk_nd RA), has_coefficients_nd c (map ax_size As) -> Forall2 inside As xs -> Forall2 order_valid As orders ->
  exists ks (v : R), all3 (fun A k x => ax_degree A <= k < ax_degree A + ax_cells A /\ (ax_knots A k <= x <= ax_knots A (k + 1)%Z)%R) As ks xs /\
    (forall ys, all3 (fun A k y => (ax_knots A k <= y <= ax_knots A (k + 1)%Z)%R) As ks ys -> spline_nd As (coefficient_nd c) ys = piece_nd As ks (coefficient_nd c) ys) /\
    eval_no_bc_nd RA dims orders xs c = Ok v /\ mixed_derivative_nd (map (fun o => Z.to_nat (order_of o)) orders) (piece_nd As ks (coefficient_nd c)) xs v.
Proof. exact derivative_nd. Qed.
Print Assumptions C54_derivative.
(** Outside of the domain, the rule of the first dimension that is not periodic and in which the coordinate is outside gives the value; it gets the coordinates brought back
    in the periodic dimensions. *)
Theorem C54_outside : forall dims As, spaces_of dims As -> forall rules xs (c : chunk_nd RA), length rules = length dims -> length xs = length As ->
  exists xs', all3 reduced As xs xs' /\
  forall k A x l u, nth_error As k = Some A -> nth_error xs k = Some x -> nth_error rules k = Some (l, u) -> ax_periodic A = false ->
  (forall j A' x', (j < k)%nat -> nth_error As j = Some A' -> nth_error xs j = Some x' -> ax_periodic A' = true \/ inside A' x') ->
  ((x < ax_min A)%R -> eval_nd RA dims rules xs c = l xs' c) /\ ((ax_max A < x)%R -> eval_nd RA dims rules xs c = u xs' c).
Proof. exact eval_nd_outside. Qed.
Print Assumptions C54_outside.
(** Evaluation on a batch of meshes writes each element of the output, with the spline of its batch at its coordinates; so for derivatives. *)
Theorem C54_batched : forall dims As, spaces_of dims As -> forall rules nbatch fronts sizes (coords where_ : Z -> list Z -> list R) (coef out : Z -> chunk_nd RA), length rules = length dims ->
  0 <= nbatch -> mesh fronts sizes -> (forall j, 0 <= j < nbatch -> on_mesh (out j) fronts sizes) ->
  (forall j idx, 0 <= j < nbatch -> in_sizes sizes idx -> has_coefficients_nd (coef j) (map ax_size As) /\ periodic_nd As (coefficient_nd (coef j)) /\
     all3 lands As (coords j (element_at fronts idx)) (where_ j idx)) ->
  exists out', evaluate_nd RA dims rules nbatch fronts sizes coords coef out = Ok out' /\
    forall j, 0 <= j < nbatch -> on_mesh (out' j) fronts sizes /\ forall idx, in_sizes sizes idx -> cn_at (out' j) idx = spline_nd As (coefficient_nd (coef j)) (where_ j idx).
Proof. exact evaluate_nd_lands. Qed.
Print Assumptions C54_batched.
Theorem C54_deriv_batched : forall dims As, spaces_of dims As -> forall orders nbatch fronts sizes (coords : Z -> list Z -> list R) (coef out : Z -> chunk_nd RA),
  0 <= nbatch -> mesh fronts sizes -> (forall j, 0 <= j < nbatch -> on_mesh (out j) fronts sizes) -> Forall2 order_valid As orders ->
  (forall j idx, 0 <= j < nbatch -> in_sizes sizes idx -> has_coefficients_nd (coef j) (map ax_size As) /\ Forall2 inside As (coords j (element_at fronts idx))) ->
  exists out', deriv_nd RA dims orders nbatch fronts sizes coords coef out = Ok out' /\
    forall j, 0 <= j < nbatch -> on_mesh (out' j) fronts sizes /\ forall idx, in_sizes sizes idx -> eval_no_bc_nd RA dims orders (coords j (element_at fronts idx)) (coef j) = Ok (cn_at (out' j) idx : num RA).
Proof. exact deriv_nd_batched. Qed.
Print Assumptions C54_deriv_batched.
(** integrate returns the iterated integral of the spline over the domain, for each element of the batch (the condition on uniform spaces is that of C37). *)
Theorem C54_integrate : forall dims As, spaces_of dims As -> forall qs nbatch (coef : Z -> chunk_nd RA) (out : arr R), length qs = length dims -> 0 <= nbatch -> a_len out = nbatch ->
  Forall2 (fun d A => bs_uniform RA (fst d) = true -> ax_periodic A = false -> ax_degree A <= ax_cells A) dims As ->
  (forall j, 0 <= j < nbatch -> has_coefficients_nd (coef j) (map ax_size As) /\ periodic_nd As (coefficient_nd (coef j))) ->
  exists out', integrate_nd RA dims qs (map (fun _ => 0) As) (map ax_size As) nbatch coef out = Ok out' /\ a_len out' = nbatch /\
    forall j, 0 <= j < nbatch -> integral_nd (map (fun A => (ax_min A, ax_max A)) As) (spline_nd As (coefficient_nd (coef j))) (a_at out' j).
Proof. exact integrate_nd_values. Qed.
Print Assumptions C54_integrate.
(** In one and two dimensions, it is the evaluator for one and two dimensions, whatever the coordinates, coefficients and rules. *)
Theorem C54_one_dimension : forall s m l u l' u' x (c : chunk_1d RA), same_rule_1 l l' -> same_rule_1 u u' ->
  eval_nd RA [(s, m)] [(l', u')] [x] (as_nd_1 c) = eval RA s m l u x c.
Proof. exact agree_1. Qed.
Print Assumptions C54_one_dimension.
Theorem C54_two_dimensions : forall s1 m1 s2 m2 l1 u1 l2 u2 l1' u1' l2' u2' x y (c : chunk_2d RA), same_rule_2 l1 l1' -> same_rule_2 u1 u1' -> same_rule_2 l2 l2' -> same_rule_2 u2 u2' ->
  eval_nd RA [(s1, m1); (s2, m2)] [(l1', u1'); (l2', u2')] [x; y] (as_nd_2 c) = eval_2d RA s1 s2 m1 m2 l1 u1 l2 u2 x y c.
Proof. exact agree_2. Qed.
Print Assumptions C54_two_dimensions.

(** The hypotheses are met, in any number of dimensions of which one is periodic: coefficients that depend on all indices but that of the periodic dimension; *)
Example C54_example : forall n, exists d dims, let As := circle_axis :: repeat line n in spaces_of (d :: dims) As /\ length As = S n /\
  (let c := mk_chunk_nd (A := RA) (map (fun _ => 0) As) (map ax_size As) (fun is => fold_right (fun i v => IZR i + 10 * v)%R 1%R (tl is)) in
   has_coefficients_nd c (map ax_size As) /\ periodic_nd As (coefficient_nd c)) /\
  all3 lands As (47%R :: repeat (3 / 2)%R n) (7%R :: repeat (3 / 2)%R n) /\ Forall2 inside As (7%R :: repeat (3 / 2)%R n) /\ Forall2 order_valid As (Some 2 :: repeat (Some 1) n) /\
  mesh (5 :: repeat 0 n) (8 :: repeat 2 n).
Proof. exact nd_example. Qed.
(** rules that do the same; *)
Example C54_rules_example : same_rule_1 (fun _ _ => Ok (0%R : num RA)) (null_rule_nd RA) /\ same_rule_2 (null_rule_2d RA) (null_rule_nd RA) /\
  same_rule_2 (fun x y _ => Ok (x + 2 * y : num RA)%R) (fun xs _ => Ok (nth 0 xs 0 + 2 * nth 1 xs 0 : num RA)%R).
Proof. repeat split; intro; intros; reflexivity. Qed.
(** and a run in four dimensions: the function x * y * z * t and some of its derivatives, from coefficients (degree 1 and two cells of length 1 in each dimension). *)
Example C54_run_example : match nb_construct QA (fun _ => 9 # 1)%Q 1 false (map inject_Z [0; 1; 2]) with
  | Ok (Some s) =>
      let d : dim QA := (NonUniform s, q_junk) in
      let c := mk_chunk_nd (A := QA) [0; 0; 0; 0] [3; 3; 3; 3] (fun is => inject_Z (fold_right Z.mul 1 is)) in
      eval_nd QA [d; d; d; d] (repeat (null_rule_nd QA, null_rule_nd QA) 4) [1 # 2; 3 # 2; 3 # 4; 2 # 1]%Q c = Ok (9 # 8)%Q /\
      eval_no_bc_nd QA [d; d; d; d] [Some 1; None; None; Some 1] [1 # 2; 3 # 2; 3 # 4; 2 # 1]%Q c = Ok (9 # 8)%Q /\
      eval_nd QA [d; d; d; d] (repeat (null_rule_nd QA, fun xs _ => Ok (nth 0 xs 0%Q)) 4) [1 # 2; 3 # 2; 3 # 4; 5 # 1]%Q c = Ok (1 # 2)%Q
  | _ => False end.
Proof. vm_compute. repeat split. Qed.
