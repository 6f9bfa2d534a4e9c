(** Property C36: interpolation points. Real arithmetic ([RA]). [junk] is the content of memory that is not
    initialised. The bounds by [2 ^ 31] say that the number of knots fits in an [int]. *)
From Coq Require Import Bool Reals Lia Lra ZifyBool List QArith.
From Verif Require Import PointsModel PointsSpec BSplineSpec SamplingSpec KnotProofs PointsProofs2 PointsLemmas.
Import ListNotations.
Local Open Scope Z_scope.

(** * C36 *)
(** Non-uniform B-splines that are not periodic: the Greville abscissae of all the B-splines but the first and
    the last ones, as many as there are boundary equations. *)
Theorem C36_open : forall q d (l : list R) lower upper junk, 1 <= d -> (2 <= length l)%nat -> strictly_increasing l -> Z.of_nat (length l) + 3 * d < 2 ^ 31 ->
  let ncells := Z.of_nat (length l) - 1 in let t := knots false d l in
  let lo := n_boundary_equations lower d in let N := ncells + d - lo - n_boundary_equations upper d in
  let x := fun k => greville t d (k + lo) in
  exists s, nb_construct RA junk d false l = Ok (Some s) /\ nb_nbasis RA s = ncells + d /\
    ng_points_with_bcs RA q lower upper s = Ok (Some (mk_ns RA (points_of N x) 0)) /\
    (forall i j, 0 <= i < j -> j < N -> (x i < x j)%R) /\
    (forall i, 0 <= i < N -> (first_point l <= x i <= last_point l)%R) /\
    (lo = 0 -> x 0 = first_point l) /\ (n_boundary_equations upper d = 0 -> x (N - 1) = last_point l) /\
    1 <= N /\ greville_domain_size lower upper d (nb_nbasis RA s) = N.
Proof. exact pts_open. Qed.
Print Assumptions C36_open.
(** Periodic non-uniform B-splines with at least as many cells as the degree: consecutive Greville abscissae, all of
    them in the domain; the last point repeats the first one a period later and is not in the returned domain. *)
Theorem C36_periodic : forall q d (l : list R) junk, 1 <= d -> (2 <= length l)%nat -> strictly_increasing l -> Z.of_nat (length l) + 3 * d < 2 ^ 31 ->
  let ncells := Z.of_nat (length l) - 1 in let t := knots true d l in d <= ncells ->
  exists s m, nb_construct RA junk d true l = Ok (Some s) /\ nb_nbasis RA s = ncells /\ 0 <= m < d /\
    let x := fun k => greville t d (k + m) in
    ng_points_with_bcs RA q PERIODIC PERIODIC s = Ok (Some (mk_ns RA (points_of (ncells + 1) x) 0)) /\
    (forall i j, i < j -> (x i < x j)%R) /\
    (forall i, 0 <= i < ncells -> (first_point l <= x i < last_point l)%R) /\
    x ncells = (x 0%Z + (last_point l - first_point l))%R /\
    greville_domain_size PERIODIC PERIODIC d (nb_nbasis RA s) = ncells.
Proof. exact pts_periodic. Qed.
Print Assumptions C36_periodic.
(** With fewer cells than the degree the points can leave the domain: degree 5 on the single cell [0, 1]. *)
Theorem C36_few_cells_refuted :
  exists s, nb_construct QA (fun _ => 0 # 1)%Q 5 true [0 # 1; 1 # 1]%Q = Ok (Some s) /\
    match ng_points QA s with
    | Ok (Some p) => exists x, In x (ns_points QA p) /\ (x < 0 \/ 1 < x)%Q
    | _ => False end.
Proof.
  eexists. split; [vm_compute; reflexivity|]. vm_compute. eexists. split; [left; reflexivity|]. vm_compute. left. reflexivity.
Qed.
Print Assumptions C36_few_cells_refuted.
(** Uniform B-splines, periodic or with derivative conditions at both ends: the points form a uniform sampling and are Greville
    abscissae, for a sampling of either kind. *)
Theorem C36_uniform : forall q d periodic (a b : R) ncells lower upper, 1 <= d -> 1 <= ncells -> (a < b)%R -> ncells + 1 + 2 * d < 2 ^ 31 ->
  is_uniform_points lower upper d periodic = true -> (if periodic then lower = PERIODIC /\ upper = PERIODIC else lower <> PERIODIC /\ upper <> PERIODIC) ->
  let t := uniform_knots d a b ncells in let x := fun k => greville t d (k + d / 2) in
  let N := if periodic then ncells else ncells + d mod 2 in
  exists s u, ub_construct RA q d periodic a b ncells = Ok s /\ ug_sampling RA s = Ok u /\ us_front RA u = 0 /\
    (forall k, 0 <= k < 2 ^ 63 -> us_coordinate RA u k = (x k : num RA)) /\
    ug_grid RA s N = Ok (Some (mk_ns RA (points_of N x) 0)) /\
    (forall k, x (k + 1) = (x k + (b - a) / IZR ncells)%R) /\
    (forall k, 0 <= k < N -> (a <= x k <= b)%R) /\
    greville_domain_size lower upper d (ub_nbasis RA s) = N /\
    N + n_boundary_equations lower d + n_boundary_equations upper d = ub_nbasis RA s.
Proof. exact pts_uniform. Qed.
Print Assumptions C36_uniform.
(** Uniform B-splines otherwise. *)
Theorem C36_uniform_greville : forall q d (a b : R) ncells lower upper, 1 <= d -> 2 <= ncells -> (a < b)%R -> ncells + 1 + 2 * d < 2 ^ 31 ->
  lower <> PERIODIC -> upper <> PERIODIC ->
  let N := ncells + d - n_boundary_equations lower d - n_boundary_equations upper d in
  let x := uniform_point (is_greville lower) (is_greville upper) d a b ((b - a) / IZR ncells) N in
  exists s, ub_construct RA q d false a b ncells = Ok s /\ ug_points RA lower upper s = Ok (ns_construct RA (points_of N x)) /\
    (is_greville lower = true -> x 0 = a) /\ (is_greville upper = true -> x (N - 1) = b) /\
    (d <= 8 -> 3 <= ncells -> ug_points RA lower upper s = Ok (Some (mk_ns RA (points_of N x) 0)) /\
        (forall i j, 0 <= i < j -> j < N -> (x i < x j)%R) /\ (forall i, 0 <= i < N -> (a <= x i <= b)%R)) /\
    greville_domain_size lower upper d (ub_nbasis RA s) = N.
Proof. exact pts_uniform_greville. Qed.
Print Assumptions C36_uniform_greville.
(** From degree 9 on the points next to a Greville end overlap the others: an exception ([Ok None]), or twice the same point in degree 10. *)
Theorem C36_high_degree_refuted : forall q d (a b : R) ncells upper, 9 <= d -> 3 <= ncells -> (a < b)%R -> ncells + 1 + 2 * d < 2 ^ 31 -> upper <> PERIODIC ->
  exists s, ub_construct RA q d false a b ncells = Ok s /\
    (d <> 10 -> ug_points RA GREVILLE upper s = Ok None) /\
    (d = 10 -> match ug_points RA GREVILLE upper s with
               | Ok (Some p) => nth_error (ns_points RA p) 5 = nth_error (ns_points RA p) 6 /\ nth_error (ns_points RA p) 5 <> None
               | Ok None => True | _ => False end).
Proof. exact pts_high_degree. Qed.
Print Assumptions C36_high_degree_refuted.
(** Knots as interpolation points: the break points. *)
Theorem C36_uniform_knots : forall q q' d periodic (a b : R) ncells, 1 <= d -> 1 <= ncells -> (a < b)%R -> ncells + 1 + 2 * d < 2 ^ 31 ->
  exists s u, ub_construct RA q d periodic a b ncells = Ok s /\ uk_sampling RA q' s = Ok u /\ us_front RA u = 0 /\
    (forall k, 0 <= k < 2 ^ 63 -> us_coordinate RA u k = (a + IZR k * ((b - a) / IZR ncells) : num RA)%R).
Proof. exact pts_uniform_knots. Qed.
Print Assumptions C36_uniform_knots.
Theorem C36_knots : forall d periodic (l : list R) junk, 1 <= d -> (2 <= length l)%nat -> strictly_increasing l -> Z.of_nat (length l) + 2 * d < 2 ^ 31 ->
  exists s, nb_construct RA junk d periodic l = Ok (Some s) /\ nk_points RA s = Ok (Some (mk_ns RA l 0)).
Proof. exact pts_knots. Qed.
Print Assumptions C36_knots.
(** The break points and derivative conditions at both ends make a square problem for odd degrees only. *)
Theorem C36_knots_square : forall d ncells, 1 <= d -> 1 <= ncells -> ncells + 1 + 2 * d < 2 ^ 31 ->
  (knots_domain_size ncells false + n_boundary_equations HERMITE d + n_boundary_equations HERMITE d = ncells + d <-> d mod 2 = 1) /\
  knots_domain_size ncells true = ncells.
Proof. exact knots_square. Qed.
Print Assumptions C36_knots_square.
Example C36_ex :
  match nb_construct QA (fun _ => 9 # 1)%Q 3 false [0 # 1; 1 # 1; 3 # 1; 4 # 1]%Q with
  | Ok (Some s) => match ng_points_with_bcs QA 7%nat GREVILLE HERMITE s with
            | Ok (Some p) => ns_points QA p = [0 # 1; 1 # 3; 4 # 3; 8 # 3; 11 # 3]%Q
            | _ => False end
  | _ => False end.
Proof. vm_compute. reflexivity. Qed.
Example C36_uniform_ex :
  match ub_construct QA 3%nat 3 false (0 # 1)%Q (4 # 1)%Q 4 with
  | Ok s => match ug_points QA GREVILLE HERMITE s with
            | Ok (Some p) => ns_points QA p = [0 # 1; 1 # 3; 1 # 1; 2 # 1; 3 # 1; 4 # 1]%Q
            | _ => False end
  | _ => False end.
Proof. vm_compute. reflexivity. Qed.
Example C36_hypotheses : strictly_increasing [0; 1; 3]%R /\ is_uniform_points HERMITE HOMOGENEOUS_HERMITE 3 false = true /\ is_uniform_points PERIODIC PERIODIC 2 true = true.
Proof.
  split; [|split; reflexivity].
  intros i j x y H Hi Hj. destruct j as [|[|[|j]]]; [lia | | | destruct j; discriminate]; cbn in Hj; injection Hj as <-;
    destruct i as [|[|i]]; try lia; cbn in Hi; injection Hi as <-; lra.
Qed.
