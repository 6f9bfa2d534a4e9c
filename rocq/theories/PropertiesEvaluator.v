(** Properties C44 and C45: evaluation of splines, in real arithmetic ([RA]) unless binary64 ([FA]) is mentioned.
    [spline_space s d periodic ncells t a b] says that [s] was constructed as a space of splines, uniform or not, with knots [t].
    [m] and [junk] are the contents of memory that is not initialised. *)
From Coq Require Import Bool Reals Lia Lra List QArith Floats.SpecFloat.
From Verif Require Import EvaluatorModel EvaluatorSpec EvaluatorLemmas EvaluatorFindings.
Import ListNotations.
Local Open Scope Z_scope.

(** * C44 *)
(** The spline at a point of the domain: the combination of the B-splines. *)
Theorem C44_inside : forall s d periodic ncells t a b, spline_space s d periodic ncells t a b ->
  forall m lower upper (coef : chunk_1d RA) x, has_coefficients coef (ncells + d) -> (a <= x <= b)%R ->
  eval RA s m lower upper x coef = Ok (spline t b d ncells (coefficient coef) x : num RA).
Proof. exact eval_inside. Qed.
Print Assumptions C44_inside.
(** Periodic splines: the value at any translation of a point y of the domain, including both of its ends, is the value at y. *)
Theorem C44_periodic : forall s d ncells t a b, spline_space s d true ncells t a b ->
  forall m lower upper (coef : chunk_1d RA) x y k, has_coefficients coef (ncells + d) -> periodic_coefficients (coefficient coef) d ncells ->
  (a <= y <= b)%R -> (x = y + IZR k * (b - a))%R ->
  eval RA s m lower upper x coef = Ok (spline t b d ncells (coefficient coef) y : num RA).
Proof. exact eval_periodic. Qed.
Print Assumptions C44_periodic.
(** Every coordinate is a translation of a point of the domain, so that evaluation is total and of period b - a. *)
Theorem C44_period : forall s d ncells t a b, spline_space s d true ncells t a b ->
  forall m lower upper (coef : chunk_1d RA) x k, has_coefficients coef (ncells + d) -> periodic_coefficients (coefficient coef) d ncells ->
  exists v : R, eval RA s m lower upper x coef = Ok v /\ eval RA s m lower upper (x + IZR k * (b - a))%R coef = Ok v.
Proof. exact eval_period. Qed.
Print Assumptions C44_period.
(** Other splines: outside of the domain the value is that of the rule of the side; 0 or the value at the chosen point. *)
Theorem C44_outside : forall s d ncells t a b, spline_space s d false ncells t a b ->
  forall m lower upper (coef : chunk_1d RA) x,
  ((x < a)%R -> eval RA s m lower upper x coef = lower x coef) /\ ((b < x)%R -> eval RA s m lower upper x coef = upper x coef).
Proof. exact eval_outside. Qed.
Print Assumptions C44_outside.
Theorem C44_rules : forall s d ncells t a b, spline_space s d false ncells t a b ->
  forall m (coef : chunk_1d RA) x, has_coefficients coef (ncells + d) ->
  null_rule RA x coef = Ok (0%R : num RA) /\
  constant_rule RA s m a x coef = Ok (spline t b d ncells (coefficient coef) a : num RA) /\
  constant_rule RA s m b x coef = Ok (spline t b d ncells (coefficient coef) b : num RA).
Proof. exact rules_values. Qed.
Print Assumptions C44_rules.
(** Each element of a batch is evaluated with its own coefficients. *)
Theorem C44_batched : forall s d periodic ncells t a b, spline_space s d periodic ncells t a b ->
  forall m lower upper nbatch n coords (coef : Z -> chunk_1d RA) (out : arr2 R), 0 <= nbatch -> 0 <= n -> a2_n out = nbatch -> a2_m out = n ->
  (forall j i, 0 <= j < nbatch -> 0 <= i < n -> has_coefficients (coef j) (ncells + d) /\ (a <= coords j i <= b)%R) ->
  exists out', evaluate RA s m lower upper nbatch n coords coef out = Ok out' /\ a2_n out' = nbatch /\ a2_m out' = n /\
    (forall j i, 0 <= j < nbatch -> 0 <= i < n -> a2_at out' j i = spline t b d ncells (coefficient (coef j)) (coords j i)).
Proof. exact evaluate_batched. Qed.
Print Assumptions C44_batched.
(** Finding: in binary64 the reduction of a distant coordinate to one period is not accurate enough; the result can be outside of the domain,
    and the assertion of the basis evaluation fails (period 0.1, a coordinate below 2^43). *)
Theorem C44_far_double_refuted : exists n,
  let x := ndiv FA (nofz FA n) (nofz FA 10) in
  match nb_construct FA (fun _ => S754_nan) 1 true [nofz FA 0; ndiv FA f_tenth (nofz FA 2); f_tenth] with
  | Ok (Some s) =>
      nltb FA x (nofz FA (2 ^ 43)) = true /\
      eval FA (NonUniform s) f_junk (periodic_rule FA) (periodic_rule FA) (ndiv FA f_tenth (nofz FA 2)) f_coef = Ok (nofz FA 1) /\
      eval FA (NonUniform s) f_junk (periodic_rule FA) (periodic_rule FA) x f_coef = Undef
  | _ => False
  end.
Proof. exact float_far_refuted. Qed.
Print Assumptions C44_far_double_refuted.

(** * C45 *)
(** On the cell of x the spline is a polynomial, and the result is the derivative of that polynomial at x. *)
Theorem C45_deriv : forall s d periodic ncells t a b, spline_space s d periodic ncells t a b ->
  forall m (coef : chunk_1d RA) x k, has_coefficients coef (ncells + d) -> (a <= x <= b)%R -> 1 <= k <= d -> falling_z d (Z.to_nat k) < 2 ^ 31 ->
  exists c g, d <= c < d + ncells /\ (t c < t (c + 1)%Z)%R /\ (t c <= x <= t (c + 1)%Z)%R /\
    (forall y, (t c <= y <= t (c + 1)%Z)%R -> spline t b d ncells (coefficient coef) y = spline_piece t c d ncells (coefficient coef) y) /\
    nth_derivative (Z.to_nat k) (spline_piece t c d ncells (coefficient coef)) g /\
    eval_no_bc RA s m (Some k) x coef = Ok (g x : num RA).
Proof. exact deriv_value. Qed.
Print Assumptions C45_deriv.
(** First derivatives are the derivatives of the spline, at points that are not knots, and at all points inside the domain when the degree is at least 2. *)
Theorem C45_first_deriv : forall s d periodic ncells t a b, spline_space s d periodic ncells t a b ->
  forall m (coef : chunk_1d RA) x, has_coefficients coef (ncells + d) -> (a < x < b)%R -> 2 <= d \/ (forall c, t c <> x) ->
  exists v : R, eval_no_bc RA s m (Some 1) x coef = Ok v /\ derivable_pt_lim (spline t b d ncells (coefficient coef)) x v.
Proof. exact first_deriv. Qed.
Print Assumptions C45_first_deriv.
Theorem C45_deriv_batched : forall s d periodic ncells t a b, spline_space s d periodic ncells t a b ->
  forall m k nbatch n coords (coef : Z -> chunk_1d RA) (out : arr2 R), 0 <= nbatch -> 0 <= n -> a2_n out = nbatch -> a2_m out = n -> 1 <= k <= d -> falling_z d (Z.to_nat k) < 2 ^ 31 ->
  (forall j i, 0 <= j < nbatch -> 0 <= i < n -> has_coefficients (coef j) (ncells + d) /\ (a <= coords j i <= b)%R) ->
  exists out', deriv RA s m k nbatch n coords coef out = Ok out' /\ a2_n out' = nbatch /\ a2_m out' = n /\
    (forall j i, 0 <= j < nbatch -> 0 <= i < n -> eval_no_bc RA s m (Some k) (coords j i) (coef j) = Ok (a2_at out' j i : num RA)).
Proof. exact deriv_batched. Qed.
Print Assumptions C45_deriv_batched.
(** Values and derivatives are linear in the coefficients. *)
Theorem C45_linear : forall s d periodic ncells t a b, spline_space s d periodic ncells t a b ->
  forall m (c1 c2 c3 : chunk_1d RA) u v x, has_coefficients c1 (ncells + d) -> has_coefficients c2 (ncells + d) -> has_coefficients c3 (ncells + d) ->
  (forall i, 0 <= i < ncells + d -> coefficient c3 i = (u * coefficient c1 i + v * coefficient c2 i)%R) -> (a <= x <= b)%R ->
  forall order, match order with None => True | Some k => 1 <= k <= d /\ falling_z d (Z.to_nat k) < 2 ^ 31 end ->
  exists y1 y2 y3 : R, eval_no_bc RA s m order x c1 = Ok y1 /\ eval_no_bc RA s m order x c2 = Ok y2 /\ eval_no_bc RA s m order x c3 = Ok y3 /\
    y3 = (u * y1 + v * y2)%R.
Proof. exact eval_linear. Qed.
Print Assumptions C45_linear.
(** Constant coefficients give that constant, with derivatives 0. *)
Theorem C45_constant : forall s d periodic ncells t a b, spline_space s d periodic ncells t a b ->
  forall m (coef : chunk_1d RA) v x, has_coefficients coef (ncells + d) -> (forall i, 0 <= i < ncells + d -> coefficient coef i = v) -> (a <= x <= b)%R ->
  eval_no_bc RA s m None x coef = Ok (v : num RA) /\
  (forall k, 1 <= k <= d -> falling_z d (Z.to_nat k) < 2 ^ 31 -> eval_no_bc RA s m (Some k) x coef = Ok (0%R : num RA)).
Proof. exact eval_constant. Qed.
Print Assumptions C45_constant.
(** [integrate] returns, for each element of the batch, the sum of the products of the coefficients and of the integrals of the basis functions, which is the
    integral of the spline.  Uniform spaces that are not periodic need at least as many cells as the degree (C37). *)
Theorem C45_integrate : forall s d periodic ncells t a b, spline_space s d periodic ncells t a b ->
  forall m q junk nbatch (coef : Z -> chunk_1d RA) (out : arr R), 0 <= nbatch -> a_len out = nbatch ->
  (bs_uniform RA s = true -> periodic = false -> d <= ncells) ->
  (forall j, 0 <= j < nbatch -> has_coefficients (coef j) (ncells + d) /\ (periodic = true -> periodic_coefficients (coefficient (coef j)) d ncells)) ->
  exists w out', integrate RA s m q junk 0 (ncells + d) nbatch coef out = Ok out' /\ a_len out' = nbatch /\
    (forall i, 0 <= i < (if periodic then ncells else ncells + d) ->
       integral (if periodic then periodic_bspline t b d ncells i else bspline t b (Z.to_nat d) i) a b (w i)) /\
    (forall j, 0 <= j < nbatch -> a_at out' j = sum_first (Z.to_nat (if periodic then ncells else ncells + d)) (fun i => coefficient (coef j) i * w i)%R /\
       integral (spline t b d ncells (coefficient (coef j))) a b (a_at out' j)).
Proof. exact integrate_values. Qed.
Print Assumptions C45_integrate.
(** Finding: derivatives are not extended outside of the domain, not even for periodic splines: the assertion of the basis evaluation fails. *)
Theorem C45_deriv_outside_refuted : forall s d periodic ncells t a b, spline_space s d periodic ncells t a b ->
  forall m (coef : chunk_1d RA) x k, (x < a - (b - a) * tolerance RA \/ b + (b - a) * tolerance RA < x)%R -> eval_no_bc RA s m (Some k) x coef = Undef.
Proof. exact deriv_outside. Qed.
Print Assumptions C45_deriv_outside_refuted.

(** The spaces of these theorems exist. *)
Theorem C44_spaces : (forall q d periodic a b ncells, 1 <= d -> 1 <= ncells -> (a < b)%R -> ncells + 1 + 2 * d < 2 ^ 31 ->
    exists s, spline_space (Uniform s) d periodic ncells (uniform_knots d a b ncells) a b /\ ub_construct RA q d periodic a b ncells = Ok s) /\
  (forall junk d (periodic : bool) l, 1 <= d -> (2 <= length l)%nat -> strictly_increasing l -> Z.of_nat (length l) + 2 * d < 2 ^ 31 ->
    exists s, spline_space (NonUniform s) d periodic (Z.of_nat (length l) - 1) (knots periodic d l) (first_point l) (last_point l) /\ nb_construct RA junk d periodic l = Ok (Some s)).
Proof. exact spaces_exist. Qed.
Print Assumptions C44_spaces.
Definition q_junk : scratch QA := mk_scratch (A := QA) (fun _ => 9 # 1)%Q (fun _ => 8 # 1)%Q (fun _ => 7 # 1)%Q (fun _ _ => 6 # 1)%Q (fun _ _ => 5 # 1)%Q (fun _ _ => 4 # 1)%Q.
Example C44_ex :
  match nb_construct QA (fun _ => 9 # 1)%Q 2 true [0 # 1; 1 # 1; 3 # 1]%Q with
  | Ok (Some s) =>
      let coef := mk_chunk_1d QA 0 (mk_arr 4 (fun i => if Z.even i then 1 # 1 else 4 # 1)%Q) in
      map (fun x => eval QA (NonUniform s) q_junk (periodic_rule QA) (periodic_rule QA) x coef) [0 # 1; 2 # 1; 3 # 1; 5 # 1; -4 # 1]%Q = [Ok (3 # 1); Ok (2 # 1); Ok (3 # 1); Ok (2 # 1); Ok (2 # 1)]%Q
  | _ => False end /\
  match ub_construct QA 3%nat 3 false (0 # 1)%Q (2 # 1)%Q 4 with
  | Ok s =>
      let coef := mk_chunk_1d QA 0 (mk_arr 7 (fun i => i * i # 1)%Q) in
      map (fun x => eval QA (Uniform s) q_junk (null_rule QA) (constant_rule QA (Uniform s) q_junk (2 # 1)%Q) x coef) [-1 # 1; 0 # 1; 3 # 4; 2 # 1; 3 # 1]%Q
        = [Ok (0 # 1); Ok (4 # 3); Ok (79 # 12); Ok (76 # 3); Ok (76 # 3)]%Q
  | _ => False end.
Proof. vm_compute. split; reflexivity. Qed.
Example C45_ex :
  match ub_construct QA 3%nat 3 false (0 # 1)%Q (2 # 1)%Q 4 with
  | Ok s =>
      let coef := mk_chunk_1d QA 0 (mk_arr 7 (fun i => i * i # 1)%Q) in
      map (fun k => eval_no_bc QA (Uniform s) q_junk (Some k) (3 # 4)%Q coef) [1; 2; 3] = [Ok (10 # 1); Ok (8 # 1); Ok (0 # 1)]%Q /\
      match integrate QA (Uniform s) q_junk 5%nat (fun _ => 9 # 1)%Q 0 7 1 (fun _ => coef) (mk_arr 1 (fun _ => 9 # 1)%Q) with Ok o => a_at o 0 = (64 # 3)%Q | _ => False end
  | _ => False end.
Proof. vm_compute. repeat split. Qed.
