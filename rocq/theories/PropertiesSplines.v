(** Properties C30 to C35 and C52: B-splines.
    Real arithmetic ([RA]) unless binary64 ([FA]) is mentioned. [junk], [left_], [right_], [ndu_], [a_], [values],
    [derivs] are the unspecified contents of memory that is not initialised before the call. The bounds by
    [2 ^ 31] say that the number of knots fits in an [int]. *)
From Coq Require Import Bool Reals Lia Lra ZifyBool List Floats.SpecFloat.
From Flocq Require Import Core.
From Verif Require Import BSplineModel BSplineSpec SamplingSpec FloatLink KnotProofs SplineLemmas SplineLemmas2 SplineFindings FloatCell FloatCell3 CellFindings.
Import ListNotations.
Local Open Scope Z_scope.

(** * C30 *)
Theorem C30_uniform_knots : forall q d periodic (a b : R) ncells, 1 <= d -> 1 <= ncells -> (a < b)%R -> ncells + 1 + 2 * d < 2 ^ 31 ->
  let t := uniform_knots d a b ncells in
  exists s, ub_construct RA q d periodic a b ncells = Ok s /\
    ub_knot_front RA s = 0 /\ ub_break_front RA s = d /\ ub_break_size RA s = ncells + 1 /\
    (forall k, 0 <= k < 2 ^ 63 -> ub_coord RA s k = t k) /\
    ub_rmin RA s = a /\ ub_rmax RA s = b /\ ub_step RA s = ((b - a) / IZR ncells)%R /\
    ub_ncells RA s = ncells /\ ub_size RA s = ncells + d /\ ub_nbasis RA s = (if periodic then ncells else ncells + d) /\
    (forall i, 0 <= i < ncells + d -> ub_first_support_knot RA s i = i /\ ub_last_support_knot RA s i = i + d + 1) /\
    (forall k, t (k + 1) = (t k + (b - a) / IZR ncells)%R) /\ t d = a /\ t (d + ncells) = b.
Proof. intros q d periodic a b ncells Hd Hnc Hab Hbig. exact (un_construct q d periodic a b ncells Hd Hnc Hab Hbig). Qed.
Print Assumptions C30_uniform_knots.
(** The values are those of the Cox-de Boor recursion, non-negative, of sum one; the B-splines that are not returned vanish at x. *)
Theorem C30_eval_basis : forall q d periodic (a b : R) ncells, 1 <= d -> 1 <= ncells -> (a < b)%R -> ncells + 1 + 2 * d < 2 ^ 31 ->
  let t := uniform_knots d a b ncells in
  forall values x, (a <= x <= b)%R -> a_len values = d + 1 ->
  exists s v j, ub_construct RA q d periodic a b ncells = Ok s /\ ub_eval_basis RA s values x = Ok (v, j) /\
    0 <= j < ncells /\ (t (d + j)%Z <= x <= t (d + j + 1)%Z)%R /\ a_len v = d + 1 /\
    (forall r, 0 <= r <= d -> a_at v r = bspline t b (Z.to_nat d) (j + r) x /\ (0 <= a_at v r)%R) /\
    (forall i, i < j \/ j + d < i -> bspline t b (Z.to_nat d) i x = 0%R) /\
    sum_f_R0 (fun r => a_at v (Z.of_nat r)) (Z.to_nat d) = 1%R.
Proof. intros q d periodic a b ncells Hd Hnc Hab Hbig. exact (un_eval_basis q d periodic a b ncells Hd Hnc Hab Hbig). Qed.
Print Assumptions C30_eval_basis.
(** Periodic uniform B-splines and periodic B-splines on equally spaced break points agree. *)
Theorem C30_same_as_non_uniform : forall q d (a b : R) ncells, 1 <= d -> 1 <= ncells -> (a < b)%R -> ncells + 1 + 2 * d < 2 ^ 31 ->
  let l := equally_spaced a b ncells in
  forall junk left_ right_ values values' x, (a <= x <= b)%R -> a_len values = d + 1 -> a_len values' = d + 1 ->
  exists s s' v v' j, ub_construct RA q d true a b ncells = Ok s /\ nb_construct RA junk d true l = Ok (Some s') /\
    ub_eval_basis RA s values x = Ok (v, j) /\ nb_eval_basis RA s' left_ right_ values' x = Ok (v', j) /\
    (forall r, 0 <= r <= d -> a_at v r = a_at v' r).
Proof. intros q d a b ncells Hd Hnc Hab Hbig. exact (uniform_is_non_uniform q d a b ncells Hd Hnc Hab Hbig). Qed.
Print Assumptions C30_same_as_non_uniform.
Example C30_ex :
  match ub_construct QA 3%nat 3 false (0 # 1)%Q (2 # 1)%Q 4 with
  | Ok s => match ub_eval_basis QA s (mk_arr 4 (fun _ => 7 # 1)%Q) (3 # 4)%Q with
            | Ok (v, j) => j = 1 /\ map (a_at v) [0; 1; 2; 3] = [1 # 48; 23 # 48; 23 # 48; 1 # 48]%Q
            | _ => False end
  | _ => False end.
Proof. vm_compute. split; reflexivity. Qed.

(** * C31 *)
Theorem C31_eval_basis : forall d periodic (l : list R), 1 <= d -> (2 <= length l)%nat -> strictly_increasing l -> Z.of_nat (length l) + 2 * d < 2 ^ 31 ->
  let ncells := Z.of_nat (length l) - 1 in let t := knots periodic d l in
  forall junk left_ right_ values x, (first_point l <= x <= last_point l)%R -> a_len values = d + 1 ->
  exists s v j, nb_construct RA junk d periodic l = Ok (Some s) /\ nb_eval_basis RA s left_ right_ values x = Ok (v, j) /\
    0 <= j < ncells /\ (t (d + j)%Z <= x <= t (d + j + 1)%Z)%R /\ a_len v = d + 1 /\
    (forall r, 0 <= r <= d -> a_at v r = bspline t (last_point l) (Z.to_nat d) (j + r) x /\ (0 <= a_at v r)%R) /\
    (forall i, 0 <= i < ncells + d -> i < j \/ j + d < i -> bspline t (last_point l) (Z.to_nat d) i x = 0%R) /\
    sum_f_R0 (fun r => a_at v (Z.of_nat r)) (Z.to_nat d) = 1%R.
Proof. intros d periodic l Hd Hlen Hs Hbig. exact (nu_eval_basis d periodic l Hd Hlen Hs Hbig). Qed.
Print Assumptions C31_eval_basis.
Example C31_ex :
  match nb_construct QA (fun _ => 9 # 1)%Q 2 false [0 # 1; 1 # 1; 3 # 1]%Q with
  | Ok (Some s) => match nb_eval_basis QA s (fun _ => 5 # 1)%Q (fun _ => 5 # 1)%Q (mk_arr 3 (fun _ => 7 # 1)%Q) (2 # 1)%Q with
            | Ok (v, j) => j = 1 /\ map (a_at v) [0; 1; 2] = [1 # 6; 7 # 12; 1 # 4]%Q
            | _ => False end
  | _ => False end.
Proof. vm_compute. split; reflexivity. Qed.
Example C31_hypotheses : strictly_increasing [0; 1; 3]%R.
Proof.
  intros i j x y H Hi Hj. destruct j as [|[|[|j]]]; [lia | | | destruct j; discriminate]; cbn in Hj; injection Hj as <-;
    destruct i as [|[|i]]; try lia; cbn in Hi; injection Hi as <-; lra.
Qed.

(** * C32 *)
(** The returned values are the derivatives of the polynomials that the B-splines are on the cell, hence, inside the cell, of the B-splines. *)
Theorem C32_uniform_deriv : forall q d periodic (a b : R) ncells, 1 <= d -> 1 <= ncells -> (a < b)%R -> ncells + 1 + 2 * d < 2 ^ 31 ->
  let t := uniform_knots d a b ncells in
  forall values x, (a <= x <= b)%R -> a_len values = d + 1 ->
  exists s v j, ub_construct RA q d periodic a b ncells = Ok s /\ ub_eval_deriv RA s values x = Ok (v, j) /\
    0 <= j < ncells /\ (t (d + j)%Z <= x <= t (d + j + 1)%Z)%R /\ a_len v = d + 1 /\
    (forall r, 0 <= r <= d ->
       (forall y, (t (d + j)%Z <= y < t (d + j + 1)%Z)%R ->
          bspline t b (Z.to_nat d) (j + r) y = bspline_piece t (d + j) (Z.to_nat d) (j + r) y) /\
       derivable_pt_lim (bspline_piece t (d + j) (Z.to_nat d) (j + r)) x (a_at v r) /\
       ((t (d + j)%Z < x < t (d + j + 1)%Z)%R -> derivable_pt_lim (bspline t b (Z.to_nat d) (j + r)) x (a_at v r))) /\
    sum_f_R0 (fun r => a_at v (Z.of_nat r)) (Z.to_nat d) = 0%R.
Proof. intros q d periodic a b ncells Hd Hnc Hab Hbig. exact (un_eval_deriv q d periodic a b ncells Hd Hnc Hab Hbig). Qed.
Print Assumptions C32_uniform_deriv.
Theorem C32_non_uniform_deriv : forall d periodic (l : list R), 1 <= d -> (2 <= length l)%nat -> strictly_increasing l -> Z.of_nat (length l) + 2 * d < 2 ^ 31 ->
  let ncells := Z.of_nat (length l) - 1 in let t := knots periodic d l in
  forall junk left_ right_ values x, (first_point l <= x <= last_point l)%R -> a_len values = d + 1 ->
  exists s v j, nb_construct RA junk d periodic l = Ok (Some s) /\ nb_eval_deriv RA s left_ right_ values x = Ok (v, j) /\
    0 <= j < ncells /\ (t (d + j)%Z <= x <= t (d + j + 1)%Z)%R /\ a_len v = d + 1 /\
    (forall r, 0 <= r <= d ->
       (forall y, (t (d + j)%Z <= y < t (d + j + 1)%Z)%R ->
          bspline t (last_point l) (Z.to_nat d) (j + r) y = bspline_piece t (d + j) (Z.to_nat d) (j + r) y) /\
       derivable_pt_lim (bspline_piece t (d + j) (Z.to_nat d) (j + r)) x (a_at v r) /\
       ((t (d + j)%Z < x < t (d + j + 1)%Z)%R -> derivable_pt_lim (bspline t (last_point l) (Z.to_nat d) (j + r)) x (a_at v r))) /\
    sum_f_R0 (fun r => a_at v (Z.of_nat r)) (Z.to_nat d) = 0%R.
Proof. intros d periodic l Hd Hlen Hs Hbig. exact (nu_eval_deriv d periodic l Hd Hlen Hs Hbig). Qed.
Print Assumptions C32_non_uniform_deriv.
Example C32_ex :
  match nb_construct QA (fun _ => 9 # 1)%Q 2 false [0 # 1; 1 # 1; 3 # 1]%Q with
  | Ok (Some s) => match nb_eval_deriv QA s (fun _ => 5 # 1)%Q (fun _ => 5 # 1)%Q (mk_arr 3 (fun _ => 7 # 1)%Q) (2 # 1)%Q with
            | Ok (v, j) => j = 1 /\ map (a_at v) [0; 1; 2] = [-1 # 3; -1 # 6; 1 # 2]%Q
            | _ => False end
  | _ => False end.
Proof. vm_compute. split; reflexivity. Qed.

(** * C33 *)
(** Column k holds the k-th derivatives. *)
Theorem C33_uniform_n_derivs : forall q d periodic (a b : R) ncells, 1 <= d -> 1 <= ncells -> (a < b)%R -> ncells + 1 + 2 * d < 2 ^ 31 ->
  let t := uniform_knots d a b ncells in
  forall ndu_ a_ derivs x n, (a <= x <= b)%R -> 0 <= n <= d -> a2_n derivs = d + 1 -> a2_m derivs = n + 1 ->
  exists s v j, ub_construct RA q d periodic a b ncells = Ok s /\ ub_eval_basis_and_n_derivs RA s ndu_ a_ derivs x n = Ok (v, j) /\
    0 <= j < ncells /\ (t (d + j)%Z <= x <= t (d + j + 1)%Z)%R /\ a2_n v = d + 1 /\ a2_m v = n + 1 /\
    (forall r k, 0 <= r <= d -> 0 <= k <= n ->
       exists g, nth_derivative (Z.to_nat k) (bspline_piece t (d + j) (Z.to_nat d) (j + r)) g /\ a2_at v r k = g x).
Proof. intros q d periodic a b ncells Hd Hnc Hab Hbig. exact (un_n_derivs q d periodic a b ncells Hd Hnc Hab Hbig). Qed.
Print Assumptions C33_uniform_n_derivs.
(** Columns 0 and 1 agree with eval_basis and eval_deriv. *)
Theorem C33_uniform_columns : forall q d periodic (a b : R) ncells, 1 <= d -> 1 <= ncells -> (a < b)%R -> ncells + 1 + 2 * d < 2 ^ 31 ->
  let t := uniform_knots d a b ncells in
  forall s ndu_ a_ values values' derivs x n,
  ub_construct RA q d periodic a b ncells = Ok s -> (a <= x <= b)%R ->
  1 <= n <= d -> a2_n derivs = d + 1 -> a2_m derivs = n + 1 -> a_len values = d + 1 -> a_len values' = d + 1 ->
  exists v v' w j, ub_eval_basis RA s values x = Ok (v, j) /\ ub_eval_deriv RA s values' x = Ok (v', j) /\
    ub_eval_basis_and_n_derivs RA s ndu_ a_ derivs x n = Ok (w, j) /\
    (forall r, 0 <= r <= d -> a2_at w r 0 = a_at v r /\ a2_at w r 1 = a_at v' r).
Proof. intros q d periodic a b ncells Hd Hnc Hab Hbig. exact (un_columns q d periodic a b ncells Hd Hnc Hab Hbig). Qed.
Print Assumptions C33_uniform_columns.
(** For non-uniform B-splines, the factor degree! / (degree - n)! has to fit in an [int]. *)
Theorem C33_non_uniform_n_derivs : forall d periodic (l : list R), 1 <= d -> (2 <= length l)%nat -> strictly_increasing l -> Z.of_nat (length l) + 2 * d < 2 ^ 31 ->
  let ncells := Z.of_nat (length l) - 1 in let t := knots periodic d l in
  forall junk left_ right_ ndu_ a_ derivs x n, (first_point l <= x <= last_point l)%R ->
  0 <= n <= d -> falling_z d (Z.to_nat n) < 2 ^ 31 -> a2_n derivs = d + 1 -> a2_m derivs = n + 1 ->
  exists s v j, nb_construct RA junk d periodic l = Ok (Some s) /\ nb_eval_basis_and_n_derivs RA s left_ right_ ndu_ a_ derivs x n = Ok (v, j) /\
    0 <= j < ncells /\ (t (d + j)%Z <= x <= t (d + j + 1)%Z)%R /\ a2_n v = d + 1 /\ a2_m v = n + 1 /\
    (forall r k, 0 <= r <= d -> 0 <= k <= n ->
       exists g, nth_derivative (Z.to_nat k) (bspline_piece t (d + j) (Z.to_nat d) (j + r)) g /\ a2_at v r k = g x).
Proof. intros d periodic l Hd Hlen Hs Hbig. exact (nu_n_derivs d periodic l Hd Hlen Hs Hbig). Qed.
Print Assumptions C33_non_uniform_n_derivs.
Theorem C33_non_uniform_columns : forall d periodic (l : list R), 1 <= d -> (2 <= length l)%nat -> strictly_increasing l -> Z.of_nat (length l) + 2 * d < 2 ^ 31 ->
  let ncells := Z.of_nat (length l) - 1 in let t := knots periodic d l in
  forall junk s left_ right_ l1 r1 l2 r2 ndu_ a_ values values' derivs x n,
  nb_construct RA junk d periodic l = Ok (Some s) -> (first_point l <= x <= last_point l)%R ->
  1 <= n <= d -> falling_z d (Z.to_nat n) < 2 ^ 31 -> a2_n derivs = d + 1 -> a2_m derivs = n + 1 -> a_len values = d + 1 -> a_len values' = d + 1 ->
  exists v v' w j, nb_eval_basis RA s left_ right_ values x = Ok (v, j) /\ nb_eval_deriv RA s l1 r1 values' x = Ok (v', j) /\
    nb_eval_basis_and_n_derivs RA s l2 r2 ndu_ a_ derivs x n = Ok (w, j) /\
    (forall r, 0 <= r <= d -> a2_at w r 0 = a_at v r /\ a2_at w r 1 = a_at v' r).
Proof. intros d periodic l Hd Hlen Hs Hbig. exact (nu_columns d periodic l Hd Hlen Hs Hbig). Qed.
Print Assumptions C33_non_uniform_columns.
(** No degree below 13 is concerned by the bound. *)
Theorem C33_degree_12 : forall d n, 0 <= n <= d -> d <= 12 -> falling_z d (Z.to_nat n) < 2 ^ 31.
Proof. exact fall_small. Qed.
Print Assumptions C33_degree_12.
(** Finding: without the bound the factor wraps and the derivatives are wrong (degree 13, 11th derivative). *)
Theorem C33_unbounded_refuted : exists d l left_ right_ ndu_ a_ derivs x n s v j r k g,
  1 <= d /\ strictly_increasing l /\ (first_point l <= x <= last_point l)%R /\ 0 <= n <= d /\ a2_n derivs = d + 1 /\ a2_m derivs = n + 1 /\
  nb_construct RA (fun _ => 0%R) d false l = Ok (Some s) /\
  nb_eval_basis_and_n_derivs RA s left_ right_ ndu_ a_ derivs x n = Ok (v, j) /\ 0 <= r <= d /\ 0 <= k <= n /\
  nth_derivative (Z.to_nat k) (bspline_piece (knots false d l) d (Z.to_nat d) r) g /\ a2_at v r k <> g x.
Proof. exact n_derivs_overflow. Qed.
Print Assumptions C33_unbounded_refuted.
Example C33_ex :
  match ub_construct QA 3%nat 3 true (0 # 1)%Q (2 # 1)%Q 4 with
  | Ok s => match ub_eval_basis_and_n_derivs QA s (fun _ _ => 5 # 1)%Q (fun _ _ => 5 # 1)%Q (mk_arr2 4 4 (fun _ _ => 7 # 1)%Q) (3 # 4)%Q 3 with
            | Ok (v, j) => j = 1 /\ map (fun r => a2_at v r 3) [0; 1; 2; 3] = [-8 # 1; 24 # 1; -24 # 1; 8 # 1]%Q
            | _ => False end
  | _ => False end.
Proof. vm_compute. split; reflexivity. Qed.

(** * C34 *)
(** The search terminates and returns the cell that contains x; for x outside the domain by no more than the tolerance, the nearest cell. *)
Theorem C34_non_uniform_cell : forall d periodic (l : list R), 1 <= d -> (2 <= length l)%nat -> strictly_increasing l -> Z.of_nat (length l) + 2 * d < 2 ^ 31 ->
  let ncells := Z.of_nat (length l) - 1 in let t := knots periodic d l in
  forall junk x, in_range_assert RA x (first_point l) (last_point l) = true ->
  exists s c, nb_construct RA junk d periodic l = Ok (Some s) /\ nb_find_cell_start RA s x = Ok c /\ d <= c < d + ncells /\
    ((first_point l <= x < last_point l)%R -> (nth (Z.to_nat (c - d)) l 0 <= x < nth (Z.to_nat (c + 1 - d)) l 0)%R) /\
    ((x < first_point l)%R -> c = d) /\ ((last_point l <= x)%R -> c = d + ncells - 1).
Proof. intros d periodic l Hd Hlen Hs Hbig. exact (nu_find_cell d periodic l Hd Hlen Hs Hbig). Qed.
Print Assumptions C34_non_uniform_cell.
(** Farther away the assertion of the code fails. *)
Theorem C34_non_uniform_far : forall d periodic (l : list R), 1 <= d -> (2 <= length l)%nat -> strictly_increasing l -> Z.of_nat (length l) + 2 * d < 2 ^ 31 ->
  let ncells := Z.of_nat (length l) - 1 in let t := knots periodic d l in
  forall junk x,
  (x < first_point l - (last_point l - first_point l) * tolerance RA \/ last_point l + (last_point l - first_point l) * tolerance RA < x)%R ->
  exists s, nb_construct RA junk d periodic l = Ok (Some s) /\ nb_find_cell_start RA s x = Undef.
Proof. intros d periodic l Hd Hlen Hs Hbig. exact (nu_find_cell_far d periodic l Hd Hlen Hs Hbig). Qed.
Print Assumptions C34_non_uniform_far.
Theorem C34_uniform_cell : forall q d periodic (a b : R) ncells, 1 <= d -> 1 <= ncells -> (a < b)%R -> ncells + 1 + 2 * d < 2 ^ 31 ->
  let t := uniform_knots d a b ncells in
  forall x, in_range_assert RA x a b = true ->
  exists s j off, ub_construct RA q d periodic a b ncells = Ok s /\ ub_icell_and_offset RA s x = Ok (j, off) /\ 0 <= j < ncells /\ (0 <= off <= 1)%R /\
    ((a <= x < b)%R -> (a + IZR j * ((b - a) / IZR ncells) <= x < a + IZR (j + 1) * ((b - a) / IZR ncells))%R) /\
    ((a <= x <= b)%R -> x = (a + (IZR j + off) * ((b - a) / IZR ncells))%R) /\
    ((x < a)%R -> j = 0 /\ off = 0%R) /\ ((b <= x)%R -> j = ncells - 1 /\ off = 1%R).
Proof. intros q d periodic a b ncells Hd Hnc Hab Hbig. exact (un_locate q d periodic a b ncells Hd Hnc Hab Hbig). Qed.
Print Assumptions C34_uniform_cell.
(** The same for the non-uniform search in binary64, for all finite doubles, with no rounding error. *)
Theorem C34_double_precision : forall junk d periodic (l : list spec_float) s x, 1 <= d -> (2 <= length l)%nat -> Z.of_nat (length l) + 2 * d < 2 ^ 31 ->
  Forall fok l -> strictly_increasing (map fval l) -> fok x ->
  nb_construct FA junk d periodic l = Ok (Some s) ->
  in_range_assert FA x (nth 0 l (S754_zero false)) (nth (length l - 1) l (S754_zero false)) = true ->
  let v k := nth k (map fval l) 0%R in
  exists c, nb_find_cell_start FA s x = Ok (d + Z.of_nat c) /\ (c < length l - 1)%nat /\
    ((v 0%nat <= fval x < v (length l - 1)%nat)%R -> (v c <= fval x < v (c + 1)%nat)%R) /\
    ((fval x < v 0%nat)%R -> c = 0%nat) /\ ((v (length l - 1)%nat <= fval x)%R -> c = (length l - 2)%nat).
Proof. exact nu_float_cell. Qed.
Print Assumptions C34_double_precision.
Example C34_ex :
  match nb_construct FA (fun _ => S754_nan) 2 true [nofz FA 0; nofz FA 1; ndiv FA (nofz FA 7) (nofz FA 3); nofz FA 4] with
  | Ok (Some s) => map (fun x => match nb_find_cell_start FA s (ndiv FA (nofz FA x) (nofz FA 3)) with Ok c => c | _ => -1 end) [0; 2; 3; 6; 7; 11; 12]
      = [2; 2; 3; 3; 4; 4; 4]
  | _ => False end.
Proof. vm_compute. reflexivity. Qed.

(** * C35 *)
(** [knots] is the specification of the knots: see the four facts about it. *)
Theorem C35_knots : forall d periodic (l : list R) junk, 0 <= d -> (2 <= length l)%nat -> Z.of_nat (length l) + 2 * d < 2 ^ 31 ->
  increasing l -> (first_point l < last_point l)%R ->
  let t := knots periodic d l in let ncells := Z.of_nat (length l) - 1 in
  exists s, nb_construct RA junk d periodic l = Ok (Some s) /\ nb_knot_size RA s = Z.of_nat (length l) + 2 * d /\
    (forall k, 0 <= k < Z.of_nat (length l) + 2 * d -> nb_coord RA s k = Ok (t k : num RA)) /\
    (forall k, 0 <= k <= ncells -> t (d + k) = nth (Z.to_nat k) l 0%R) /\
    (forall i j, i <= j -> (t i <= t j)%R) /\
    (if periodic then forall k, t (k + ncells) = (t k + (last_point l - first_point l))%R
     else (forall k, k <= d -> t k = first_point l) /\ (forall k, d + ncells <= k -> t k = last_point l)) /\
    nb_ncells RA s = ncells /\ nb_npoints RA s = Z.of_nat (length l) /\ nb_size RA s = ncells + d /\
    nb_nbasis RA s = (if periodic then ncells else ncells + d) /\
    nb_rmin RA s = Ok (first_point l : num RA) /\ nb_rmax RA s = Ok (last_point l : num RA).
Proof. exact nu_construct. Qed.
Print Assumptions C35_knots.
(** Break points that are not sorted are refused. *)
Theorem C35_unsorted : forall (l : list R) d periodic junk, 0 <= d -> (2 <= length l)%nat -> Z.of_nat (length l) + 2 * d < 2 ^ 31 ->
  ~ increasing l -> (first_point l < last_point l)%R -> nb_construct RA junk d periodic l = Ok None.
Proof. intros l d periodic junk Hd Hlen Hbig. apply construct_unsorted; assumption. Qed.
Print Assumptions C35_unsorted.
Example C35_ex :
  match nb_construct QA (fun _ => 9 # 1)%Q 4 true [0 # 1; 1 # 1; 3 # 1]%Q with
  | Ok (Some s) => map (nb_coord QA s) [0; 1; 2; 3; 4; 5; 6; 7; 8; 9; 10]
      = [Ok (-6 # 1); Ok (-5 # 1); Ok (-3 # 1); Ok (-2 # 1); Ok (0 # 1); Ok (1 # 1); Ok (3 # 1); Ok (4 # 1); Ok (6 # 1); Ok (7 # 1); Ok (9 # 1)]%Q
  | _ => False end.
Proof. vm_compute. reflexivity. Qed.

(** * C52 *)
(** Finding: at the upper end of the domain that was asked for, the located cell can be one past the last one, and the last of the B-splines used with it does not exist. *)
Theorem C52_cell_in_range_refuted : exists d periodic rmin rmax n s j off,
  ub_construct FA 0%nat d periodic (nofz FA rmin) (nofz FA rmax) n = Ok s /\ rmin < rmax /\ 1 <= d /\ 1 <= n /\ ub_ncells FA s = n /\
  nleb FA (ub_rmin FA s) (nofz FA rmax) = true /\ nleb FA (nofz FA rmax) (ub_rmax FA s) = true /\
  ub_icell_and_offset FA s (nofz FA rmax) = Ok (j, off) /\ n <= j /\ ub_size FA s <= j + d.
Proof. exact uniform_cell_out_of_range. Qed.
Print Assumptions C52_cell_in_range_refuted.
(** The same strictly inside the domain. *)
Theorem C52_cell_in_range_inside_refuted : exists d periodic rmin rmax n s x j off,
  ub_construct FA 0%nat d periodic (nofz FA rmin) (nofz FA rmax) n = Ok s /\ rmin < rmax /\ 1 <= d /\ 1 <= n /\ ub_ncells FA s = n /\
  fok x /\ nltb FA (ub_rmin FA s) x = true /\ nltb FA x (ub_rmax FA s) = true /\ nltb FA x (nofz FA rmax) = true /\
  ub_icell_and_offset FA s x = Ok (j, off) /\ n <= j /\ ub_size FA s <= j + d.
Proof. exact uniform_cell_out_of_range_inside. Qed.
Print Assumptions C52_cell_in_range_inside_refuted.
(** What holds in binary64, for every domain whose bounds and step are far from overflow and underflow: in the range of the
    knots the cell is never negative and at most one past the last one, which it reaches only with an offset below 2^-14;
    strictly inside, cell plus offset is the position in units of the step up to (n + 2) 2^-49; the ends are located exactly. *)
Theorem C52_cell_at_most_one_past : forall q d periodic (a b : spec_float) n, fok a -> fok b -> 1 <= d -> 1 <= n -> n + 1 + 2 * d < 2 ^ 31 ->
  (Rabs (fval a) <= bpow radix2 900)%R -> (Rabs (fval b) <= bpow radix2 900)%R -> (IZR n * bpow radix2 (-900) <= fval b - fval a)%R ->
  exists s, ub_construct FA q d periodic a b n = Ok s /\ ub_ncells FA s = n /\ ub_size FA s = n + d /\
    fok (ub_rmin FA s) /\ fok (ub_rmax FA s) /\ fok (ub_step FA s) /\ (0 < fval (ub_step FA s))%R /\
    forall x, fok x -> (fval (ub_rmin FA s) <= fval x <= fval (ub_rmax FA s))%R ->
      exists j off, ub_icell_and_offset FA s x = Ok (j, off) /\ fok off /\ (0 <= fval off <= 1)%R /\
        0 <= j <= n /\ (j = n -> (fval off <= / IZR (2 ^ 14))%R) /\
        (fval x = fval (ub_rmin FA s) -> j = 0 /\ fval off = 0%R) /\
        ((fval (ub_rmin FA s) < fval x)%R -> fval x = fval (ub_rmax FA s) -> j = n - 1 /\ fval off = 1%R) /\
        ((fval (ub_rmin FA s) < fval x < fval (ub_rmax FA s))%R ->
         (Rabs (IZR j + fval off - (fval x - fval (ub_rmin FA s)) / fval (ub_step FA s)) <= / IZR (2 ^ 49) * IZR (n + 2))%R).
Proof. exact un_float_cell_bound. Qed.
Print Assumptions C52_cell_at_most_one_past.
Example C52_bound_ex : fok (nofz FA 2) /\ fok (nofz FA 100) /\ (Rabs (fval (nofz FA 2)) <= bpow radix2 900)%R /\ (Rabs (fval (nofz FA 100)) <= bpow radix2 900)%R /\
  (IZR 106 * bpow radix2 (-900) <= fval (nofz FA 100) - fval (nofz FA 2))%R.
Proof. exact cell_bound_hypotheses. Qed.
Example C52_ex :
  match ub_construct FA 0%nat 3 false (nofz FA 2) (nofz FA 100) 98 with
  | Ok s => map (fun x => match ub_icell_and_offset FA s (nofz FA x) with Ok (j, _) => j | _ => -1 end) [2; 3; 50; 99; 100] = [0; 1; 48; 97; 97]
  | _ => False end.
Proof. vm_compute. reflexivity. Qed.
