(** Property C37: integrals of the basis functions, in real arithmetic.  [iv] is the chunk that receives the integrals:
    its domain starts with that of the basis functions and has either one element for each of them or,
    in periodic spaces, one for each B-spline. [junk] is the content of memory that is not initialised. *)
From Coq Require Import Bool Reals Lia Lra List QArith.
From Verif Require Import IntegralModel IntegralSpec IntegralProofs.
Import ListNotations.
Local Open Scope Z_scope.

(** Each value is the integral of its basis function over the domain, the repeated ones are 0, and they sum to the length of the domain. *)
Theorem C37_non_uniform : forall d periodic (l : list R), 1 <= d -> (2 <= length l)%nat -> strictly_increasing l -> Z.of_nat (length l) + 2 * d < 2 ^ 31 ->
  let ncells := Z.of_nat (length l) - 1 in let t := knots periodic d l in let nbasis := if periodic then ncells else ncells + d in
  forall q junk (iv : chunk_1d RA), c1_front RA iv = 0 -> c1_size RA iv = nbasis \/ (periodic = true /\ c1_size RA iv = ncells + d) ->
  exists s c, nb_construct RA junk d periodic l = Ok (Some s) /\ non_uniform_bsplines_integrals RA q s iv = Ok c /\
    c1_front RA c = 0 /\ c1_size RA c = c1_size RA iv /\
    (forall i, 0 <= i < nbasis -> integral (if periodic then periodic_bspline t (last_point l) d ncells i else bspline t (last_point l) (Z.to_nat d) i)
       (first_point l) (last_point l) (a_at (c1_vals RA c) i)) /\
    (forall i, nbasis <= i < c1_size RA iv -> a_at (c1_vals RA c) i = 0%R) /\
    sum_first (Z.to_nat (c1_size RA iv)) (a_at (c1_vals RA c)) = (last_point l - first_point l)%R.
Proof. intros d periodic l Hd Hlen Hs Hbig. exact (nu_integrals d periodic l Hd Hlen Hs Hbig). Qed.
Print Assumptions C37_non_uniform.
(** The same for uniform spaces; those that are not periodic need at least as many cells as the degree. *)
Theorem C37_uniform : forall d (periodic : bool) (a b : R) ncells, 1 <= d -> 1 <= ncells -> (a < b)%R -> ncells + 1 + 2 * d < 2 ^ 31 ->
  let t := uniform_knots d a b ncells in let nbasis := if periodic then ncells else ncells + d in
  forall q junk (iv : chunk_1d RA), c1_front RA iv = 0 -> c1_size RA iv = nbasis \/ (periodic = true /\ c1_size RA iv = ncells + d) ->
  (periodic = false -> d <= ncells) ->
  exists s c, ub_construct RA q d periodic a b ncells = Ok s /\ uniform_bsplines_integrals RA q s junk iv = Ok c /\
    c1_front RA c = 0 /\ c1_size RA c = c1_size RA iv /\
    (forall i, 0 <= i < nbasis -> integral (if periodic then periodic_bspline t b d ncells i else bspline t b (Z.to_nat d) i) a b (a_at (c1_vals RA c) i)) /\
    (forall i, nbasis <= i < c1_size RA iv -> a_at (c1_vals RA c) i = 0%R) /\
    sum_first (Z.to_nat (c1_size RA iv)) (a_at (c1_vals RA c)) = (b - a)%R.
Proof. intros d periodic a b ncells Hd Hnc Hab Hbig. exact (u_integrals d periodic a b ncells Hd Hnc Hab Hbig). Qed.
Print Assumptions C37_uniform.
(** With fewer cells than the degree, a uniform space that is not periodic has no B-spline entirely in the domain, and
    the code asks for a subdomain of negative extent. *)
Theorem C37_few_cells_refuted : forall d (a b : R) ncells, 1 <= d -> 1 <= ncells -> (a < b)%R -> ncells + 1 + 2 * d < 2 ^ 31 -> ncells < d ->
  forall q junk (iv : chunk_1d RA), c1_size RA iv = ncells + d ->
  exists s, ub_construct RA q d false a b ncells = Ok s /\ uniform_bsplines_integrals RA q s junk iv = Undef.
Proof. intros d a b ncells Hd Hnc Hab Hbig Hfew q junk iv Hs. exact (u_few_cells d false a b ncells Hd Hnc Hab Hbig q junk iv eq_refl Hfew Hs). Qed.
Print Assumptions C37_few_cells_refuted.
Example C37_ex :
  match ub_construct QA 3%nat 2 false (0 # 1)%Q (4 # 1)%Q 4 with
  | Ok s => match uniform_bsplines_integrals QA 5%nat s (fun _ => 9 # 1)%Q (mk_chunk_1d QA 0 (mk_arr 6 (fun _ => 7 # 1)%Q)) with
            | Ok c => map (a_at (c1_vals QA c)) [0; 1; 2; 3; 4; 5] = [1 # 6; 5 # 6; 1 # 1; 1 # 1; 5 # 6; 1 # 6]%Q
            | _ => False end
  | _ => False end /\
  match nb_construct QA (fun _ => 9 # 1)%Q 2 true [0 # 1; 1 # 1; 3 # 1]%Q with
  | Ok (Some s) => match non_uniform_bsplines_integrals QA 5%nat s (mk_chunk_1d QA 0 (mk_arr 4 (fun _ => 7 # 1)%Q)) with
            | Ok c => map (a_at (c1_vals QA c)) [0; 1; 2; 3] = [4 # 3; 5 # 3; 0 # 1; 0 # 1]%Q
            | _ => False end
  | _ => False end.
Proof. vm_compute. split; reflexivity. Qed.
