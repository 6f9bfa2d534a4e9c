(** The statements about B-splines, assembled. *)
From Coq Require Import Bool Reals Lia Lra ZifyBool List.
From Verif Require Import BSplineModel BSplineSpec LoopProofs BSplineMath BSplineDeriv BSplineProofs BSplineNDerivs BSplineUniform SamplingSpec SamplingProofs CellProofs KnotProofs NonUniformProofs UniformProofs.
Import ListNotations.
Local Open Scope bool_scope. Local Open Scope Z_scope.

(** *** derivatives *)
Lemma DV_sum t c d x : 1 <= d -> sum_f_R0 (fun r => DV t c d (Z.of_nat r) x) (Z.to_nat d) = 0%R.
Proof.
  intros Hd. assert (G : forall m : nat, sum_f_R0 (fun r => DV t c d (Z.of_nat r) x) m = (- (IZR d * Aq t c (d - 1) (Z.of_nat m) x))%R).
  { induction m as [|m IH]; cbn [sum_f_R0].
    - unfold DV. rewrite (Aq_out t c (d - 1) (Z.of_nat 0 - 1)) by lia. ring.
    - rewrite IH. unfold DV. replace (Z.of_nat (S m) - 1) with (Z.of_nat m) by lia. ring. }
  rewrite G. rewrite Aq_out by lia. ring.
Qed.
Lemma dpl_local f g x y lo hi : (lo < x < hi)%R -> (forall z, (lo < z < hi)%R -> f z = g z) -> derivable_pt_lim g x y -> derivable_pt_lim f x y.
Proof.
  intros Hx He Hg eps Heps. destruct (Hg eps Heps) as (delta & Hdelta).
  assert (Hm : (0 < Rmin delta (Rmin (x - lo) (hi - x)))%R) by (repeat apply Rmin_glb_lt; try apply (cond_pos delta); lra).
  exists (mkposreal _ Hm). intros h Hh0 Hh. cbn [pos] in Hh.
  pose proof (Rmin_l delta (Rmin (x - lo) (hi - x))). pose proof (Rmin_r delta (Rmin (x - lo) (hi - x))).
  pose proof (Rmin_l (x - lo) (hi - x)). pose proof (Rmin_r (x - lo) (hi - x)).
  assert (Habs : (- (x - lo) < h < hi - x)%R) by (apply Rabs_def2 in Hh; lra).
  rewrite (He (x + h)%R), (He x) by lra. apply Hdelta; [exact Hh0 | lra].
Qed.

(** *** non-uniform *)
Section NU.
Context (d : Z) (periodic : bool) (l : list R).
Let ncells := Z.of_nat (length l) - 1.
Let t := knots periodic d l.
Hypothesis Hd : 1 <= d.
Hypothesis Hlen : (2 <= length l)%nat.
Hypothesis Hs : strictly_increasing l.
Hypothesis Hbig : Z.of_nat (length l) + 2 * d < 2 ^ 31.
Lemma nu_space junk : exists s, nb_construct RA junk d periodic l = Ok (Some s) /\
  nb_degree RA s = d /\ nb_periodic RA s = periodic /\ nb_break_front RA s = d /\ nb_break_size RA s = Z.of_nat (length l) /\
  nb_knot_size RA s = Z.of_nat (length l) + 2 * d /\
  (forall k, 0 <= k < Z.of_nat (length l) + 2 * d -> nb_coord RA s k = Ok (t k : num RA)).
Proof. apply construct_ok; try assumption; [lia | now apply strict_incr | now apply first_last]. Qed.
Lemma nu_cell_bspline c y i : d <= c < d + ncells -> 0 <= i < ncells + d -> (t c <= y < t (c + 1)%Z)%R ->
  bspline t (last_point l) (Z.to_nat d) i y = bspline_piece t c (Z.to_nat d) i y.
Proof. intros. eapply pt_bspline; try eassumption. left. assumption. Qed.
Theorem nu_eval_basis : forall junk left_ right_ values x, (first_point l <= x <= last_point l)%R -> a_len values = d + 1 ->
  exists s v j, nb_construct RA junk d periodic l = Ok (Some s) /\ nb_eval_basis RA s left_ right_ values x = Ok (v, j) /\
    0 <= j < ncells /\ (t (d + j)%Z <= x <= t (d + j + 1)%Z)%R /\ a_len v = d + 1 /\
    (forall r, 0 <= r <= d -> a_at v r = bspline t (last_point l) (Z.to_nat d) (j + r) x /\ (0 <= a_at v r)%R) /\
    (forall i, 0 <= i < ncells + d -> i < j \/ j + d < i -> bspline t (last_point l) (Z.to_nat d) i x = 0%R) /\
    sum_f_R0 (fun r => a_at v (Z.of_nat r)) (Z.to_nat d) = 1%R.
Proof.
  intros junk left_ right_ values x Hx Hv. destruct (nu_space junk) as (s & E & S1 & S2 & S3 & S4 & S5 & S6).
  destruct (find_cell_in l d periodic s) with (x := x) as (c & Ec & _ & Hc & Hxc); try assumption.
  fold t in Hxc. fold ncells in Hc, Hxc.
  destruct (pt_eval_basis l d periodic s) with (x := x) (c := c) (left_ := left_) (right_ := right_) (values := values) as (v & Ev & Lv & Hvv); try assumption.
  exists s, v, (c - d). split; [exact E|]. split; [exact Ev|]. split; [lia|]. replace (d + (c - d)) with c by ring.
  split; [eapply pt_closed; eassumption|]. split; [exact Lv|]. split; [|split].
  - intros r Hr. rewrite Hvv by exact Hr. split; [eapply pt_V; eassumption | eapply pt_nonneg; eassumption].
  - intros i Hi Ho. eapply pt_other; try eassumption. lia.
  - rewrite <- (pt_sum l d periodic Hd Hlen Hs x c Hc). apply sum_eq. intros r Hr. apply Hvv. lia.
Qed.
Theorem nu_eval_deriv : forall junk left_ right_ values x, (first_point l <= x <= last_point l)%R -> a_len values = d + 1 ->
  exists s v j, nb_construct RA junk d periodic l = Ok (Some s) /\ nb_eval_deriv RA s left_ right_ values x = Ok (v, j) /\
    0 <= j < ncells /\ (t (d + j)%Z <= x <= t (d + j + 1)%Z)%R /\ a_len v = d + 1 /\
    (forall r, 0 <= r <= d ->
       (forall y, (t (d + j)%Z <= y < t (d + j + 1)%Z)%R ->
          bspline t (last_point l) (Z.to_nat d) (j + r) y = bspline_piece t (d + j) (Z.to_nat d) (j + r) y) /\
       derivable_pt_lim (bspline_piece t (d + j) (Z.to_nat d) (j + r)) x (a_at v r) /\
       ((t (d + j)%Z < x < t (d + j + 1)%Z)%R -> derivable_pt_lim (bspline t (last_point l) (Z.to_nat d) (j + r)) x (a_at v r))) /\
    sum_f_R0 (fun r => a_at v (Z.of_nat r)) (Z.to_nat d) = 0%R.
Proof.
  intros junk left_ right_ values x Hx Hv. destruct (nu_space junk) as (s & E & S1 & S2 & S3 & S4 & S5 & S6).
  destruct (find_cell_in l d periodic s) with (x := x) as (c & Ec & _ & Hc & Hxc); try assumption.
  fold t in Hxc. fold ncells in Hc, Hxc.
  destruct (pt_eval_deriv l d periodic s) with (x := x) (c := c) (left_ := left_) (right_ := right_) (values := values) as (v & Ev & Lv & Hvv); try assumption.
  exists s, v, (c - d). split; [exact E|]. split; [exact Ev|]. split; [lia|]. replace (d + (c - d)) with c by ring.
  split; [eapply pt_closed; eassumption|]. split; [exact Lv|]. split.
  - intros r Hr. assert (Hloc : forall y, (t c <= y < t (c + 1)%Z)%R ->
      bspline t (last_point l) (Z.to_nat d) (c - d + r) y = bspline_piece t c (Z.to_nat d) (c - d + r) y).
    { intros y Hy. apply nu_cell_bspline; [exact Hc | lia | exact Hy]. }
    assert (Hder : derivable_pt_lim (bspline_piece t c (Z.to_nat d) (c - d + r)) x (a_at v r)).
    { rewrite Hvv by exact Hr. exact (pt_DV l d periodic Hd Hlen Hs x c Hc r). }
    split; [exact Hloc|]. split; [exact Hder|]. intros Hin. eapply dpl_local; [exact Hin | | exact Hder]. intros z Hz. apply Hloc. lra.
  - rewrite <- (DV_sum t c d x Hd). apply sum_eq. intros r Hr. apply Hvv. lia.
Qed.
Theorem nu_n_derivs : forall junk left_ right_ ndu_ a_ derivs x n, (first_point l <= x <= last_point l)%R ->
  0 <= n <= d -> falling_z d (Z.to_nat n) < 2 ^ 31 -> a2_n derivs = d + 1 -> a2_m derivs = n + 1 ->
  exists s v j, nb_construct RA junk d periodic l = Ok (Some s) /\ nb_eval_basis_and_n_derivs RA s left_ right_ ndu_ a_ derivs x n = Ok (v, j) /\
    0 <= j < ncells /\ (t (d + j)%Z <= x <= t (d + j + 1)%Z)%R /\ a2_n v = d + 1 /\ a2_m v = n + 1 /\
    (forall r k, 0 <= r <= d -> 0 <= k <= n ->
       exists g, nth_derivative (Z.to_nat k) (bspline_piece t (d + j) (Z.to_nat d) (j + r)) g /\ a2_at v r k = g x).
Proof.
  intros junk left_ right_ ndu_ a_ derivs x n Hx Hn Hf L1 L2. destruct (nu_space junk) as (s & E & S1 & S2 & S3 & S4 & S5 & S6).
  destruct (find_cell_in l d periodic s) with (x := x) as (c & Ec & _ & Hc & Hxc); try assumption.
  fold t in Hxc. fold ncells in Hc, Hxc.
  destruct (pt_n_derivs l d periodic s) with (x := x) (c := c) (left_ := left_) (right_ := right_) (ndu_ := ndu_) (a_ := a_) (derivs := derivs) (m := n) as (v & Ev & M1 & M2 & Hvv); try assumption.
  exists s, v, (c - d). split; [exact E|]. split; [exact Ev|]. split; [lia|]. replace (d + (c - d)) with c by ring.
  split; [eapply pt_closed; eassumption|]. split; [exact M1|]. split; [exact M2|].
  intros r k Hr Hk. exists (kth t c d r (Z.to_nat k)). split; [|apply Hvv; assumption]. apply (pt_kth l d periodic Hd Hlen Hs c Hc r k Hr). lia.
Qed.
(** The three functions agree. *)
Theorem nu_columns : forall junk s left_ right_ l1 r1 l2 r2 ndu_ a_ values values' derivs x n,
  nb_construct RA junk d periodic l = Ok (Some s) -> (first_point l <= x <= last_point l)%R ->
  1 <= n <= d -> falling_z d (Z.to_nat n) < 2 ^ 31 -> a2_n derivs = d + 1 -> a2_m derivs = n + 1 -> a_len values = d + 1 -> a_len values' = d + 1 ->
  exists v v' w j, nb_eval_basis RA s left_ right_ values x = Ok (v, j) /\ nb_eval_deriv RA s l1 r1 values' x = Ok (v', j) /\
    nb_eval_basis_and_n_derivs RA s l2 r2 ndu_ a_ derivs x n = Ok (w, j) /\
    (forall r, 0 <= r <= d -> a2_at w r 0 = a_at v r /\ a2_at w r 1 = a_at v' r).
Proof.
  intros junk s left_ right_ l1 r1 l2 r2 ndu_ a_ values values' derivs x n Es Hx Hn Hf L1 L2 L3 L4.
  destruct (nu_space junk) as (s' & E & S1 & S2 & S3 & S4 & S5 & S6). assert (s' = s) by congruence. subst s'.
  destruct (find_cell_in l d periodic s) with (x := x) as (c & Ec & _ & Hc & Hxc); try assumption.
  fold t in Hxc. fold ncells in Hc, Hxc.
  destruct (pt_eval_basis l d periodic s) with (x := x) (c := c) (left_ := left_) (right_ := right_) (values := values) as (v & Ev & Lv & Hvv); try assumption.
  destruct (pt_eval_deriv l d periodic s) with (x := x) (c := c) (left_ := l1) (right_ := r1) (values := values') as (v' & Ev' & Lv' & Hvv'); try assumption.
  destruct (pt_n_derivs l d periodic s) with (x := x) (c := c) (left_ := l2) (right_ := r2) (ndu_ := ndu_) (a_ := a_) (derivs := derivs) (m := n) as (w & Ew & M1 & M2 & Hw); try assumption; [lia|].
  exists v, v', w, (c - d). split; [exact Ev|]. split; [exact Ev'|]. split; [exact Ew|]. intros r Hr.
  rewrite !Hw, Hvv, Hvv' by lia. split; [apply kth_0; exact Hr|]. change (Z.to_nat 1) with 1%nat.
  assert (H1 : derivable_pt_lim (kth t c d r 0) x (kth t c d r 1 x)).
  { apply (kth_deriv t c d); try lia. - intros. eapply pt_mono; try eassumption. - eapply pt_cell; eassumption. }
  apply (uniqueness_limite (kth t c d r 0) x); [exact H1|].
  eapply dpl_ext; [| reflexivity | exact (pt_DV l d periodic Hd Hlen Hs x c Hc r)]. intros y. symmetry. now apply kth_0.
Qed.
(** cell search *)
Theorem nu_find_cell : forall junk x, in_range_assert RA x (first_point l) (last_point l) = true ->
  exists s c, nb_construct RA junk d periodic l = Ok (Some s) /\ nb_find_cell_start RA s x = Ok c /\ d <= c < d + ncells /\
    ((first_point l <= x < last_point l)%R -> (nth (Z.to_nat (c - d)) l 0 <= x < nth (Z.to_nat (c + 1 - d)) l 0)%R) /\
    ((x < first_point l)%R -> c = d) /\ ((last_point l <= x)%R -> c = d + ncells - 1).
Proof.
  intros junk x Hx. destruct (nu_space junk) as (s & E & S1 & S2 & S3 & S4 & S5 & S6).
  destruct (find_cell l d periodic s) with (x := x) as (c & Ec & Hc & Hxc); try assumption.
  fold t in Hxc. fold ncells in Hc, Hxc. exists s, c. split; [exact E|]. split; [exact Ec|]. split; [exact Hc|].
  assert (Hb : forall k, d <= k <= d + ncells -> t k = nth (Z.to_nat (k - d)) l 0%R).
  { intros k Hk. unfold t. replace k with (d + (k - d)) at 1 by ring. apply knots_break; [exact Hlen|]. unfold ncells in Hk. lia. }
  pose proof (first_last l Hlen Hs) as Hfl.
  assert (H1 : (t d = first_point l)%R) by (apply sp_t_first; assumption). assert (H2 : (t (d + ncells) = last_point l)%R) by (apply sp_t_last; assumption).
  assert (Hm : forall i j, i <= j -> (t i <= t j)%R) by (intros; apply sp_mono; assumption).
  split; [|split].
  - intros Hin. destruct Hxc as [H|[[H _]|[H _]]]; [|lra|lra]. rewrite <- !Hb by lia. exact H.
  - intros Hlo. destruct Hxc as [H|[[_ H]|[H _]]]; [|exact H|lra]. pose proof (Hm d c ltac:(lia)). lra.
  - intros Hhi. destruct Hxc as [H|[[H _]|[_ H]]]; [|lra|exact H]. pose proof (Hm (c + 1) (d + ncells) ltac:(lia)). lra.
Qed.
Theorem nu_find_cell_far : forall junk x,
  (x < first_point l - (last_point l - first_point l) * tolerance RA \/ last_point l + (last_point l - first_point l) * tolerance RA < x)%R ->
  exists s, nb_construct RA junk d periodic l = Ok (Some s) /\ nb_find_cell_start RA s x = Undef.
Proof.
  intros junk x Hx. destruct (nu_space junk) as (s & E & S1 & S2 & S3 & S4 & S5 & S6). exists s. split; [exact E|].
  unfold nb_find_cell_start, nb_find_cell_start_fuel. rewrite (sp_rmin l d periodic s), (sp_rmax l d periodic s) by assumption. cbn [rbind].
  assert (Hf : in_range_assert RA x (first_point l) (last_point l) = false).
  { destruct (in_range_assert _ _ _ _) eqn:Hq; [|reflexivity]. apply in_range_iff in Hq. change (num RA) with R in *. lra. }
  rewrite Hf. reflexivity.
Qed.
End NU.
Theorem nu_construct : forall d periodic (l : list R) junk, 0 <= d -> (2 <= length l)%nat -> Z.of_nat (length l) + 2 * d < 2 ^ 31 ->
  increasing l -> (first_point l < last_point l)%R ->
  let t := knots periodic d l in let ncells := Z.of_nat (length l) - 1 in
  exists s, nb_construct RA junk d periodic l = Ok (Some s) /\ nb_knot_size RA s = Z.of_nat (length l) + 2 * d /\
    (forall k, 0 <= k < Z.of_nat (length l) + 2 * d -> nb_coord RA s k = Ok (t k : num RA)) /\
    (forall k, 0 <= k <= ncells -> t (d + k) = nth (Z.to_nat k) l 0%R) /\
    (forall i j, i <= j -> (t i <= t j)%R) /\
    (if periodic then forall k, t (k + ncells) = (t k + (last_point l - first_point l))%R
     else (forall k, k <= d -> t k = first_point l) /\ (forall k, d + ncells <= k -> t k = last_point l)) /\
    nb_ncells RA s = ncells /\ nb_npoints RA s = Z.of_nat (length l) /\ nb_size RA s = ncells + d /\
    nb_nbasis RA s = (if periodic then ncells else ncells + d) /\
    nb_rmin RA s = Ok (first_point l : num RA) /\ nb_rmax RA s = Ok (last_point l : num RA).
Proof.
  intros d periodic l junk Hd Hlen Hbig Hi Hfl t ncells. destruct (construct_ok l d Hd Hlen Hbig periodic junk Hi Hfl) as (s & E & S1 & S2 & S3 & S4 & S5 & S6).
  exists s. split; [exact E|]. split; [exact S5|]. split; [exact S6|].
  split; [intros k Hk; apply knots_break; [exact Hlen | unfold ncells in Hk; lia]|].
  split; [intros; apply knots_mono; assumption|].
  split. { destruct periodic; [intros; apply knots_period; assumption|]. split; intros; [apply knots_open_left | apply knots_open_right]; try assumption; unfold ncells in *; lia. }
  assert (Hn : nb_npoints RA s = Z.of_nat (length l)) by (unfold nb_npoints; rewrite S5, S1; apply npoints_eq; assumption).
  assert (Hc : nb_ncells RA s = ncells) by (unfold nb_ncells; rewrite Hn; unfold u64_sub; apply u64_small; unfold ncells; lia).
  split; [exact Hc|]. split; [exact Hn|].
  split; [unfold nb_size; rewrite Hc, S1; unfold u64_add; rewrite u64_small; unfold ncells; lia|].
  split; [unfold nb_nbasis; rewrite Hc, S1, S2; unfold u64_add; rewrite u64_small; unfold ncells; destruct periodic; lia|].
  assert (Hb : nb_break_back RA s = d + ncells).
  { unfold nb_break_back. rewrite S3, S4. unfold u64_add, u64_sub. rewrite (u64_small (Z.of_nat (length l))) by lia.
    rewrite (u64_small (Z.of_nat (length l) - 1)) by lia. apply u64_small. lia. }
  split.
  - unfold nb_rmin. rewrite S3, S6 by lia. unfold t. replace d with (d + 0) at 2 by ring. rewrite knots_break by (assumption || lia). reflexivity.
  - unfold nb_rmax. rewrite Hb, S6 by (unfold ncells; lia). unfold t. rewrite knots_break by (assumption || (unfold ncells; lia)). unfold last_point. do 2 f_equal. unfold ncells. lia.
Qed.
