(** Non-uniform B-splines: from the break points to the values. *)
From Coq Require Import Bool Reals Lia Lra ZifyBool List.
From Verif Require Import BSplineModel BSplineSpec LoopProofs BSplineMath BSplineDeriv BSplineProofs BSplineNDerivs SamplingSpec SamplingProofs CellProofs KnotProofs.
Import ListNotations.
Local Open Scope bool_scope. Local Open Scope Z_scope.

Lemma tol_pos : (0 < tolerance RA)%R.
Proof. unfold tolerance. cbn [ndiv nofz RA]. apply Rdiv_lt_0_compat; apply IZR_lt; lia. Qed.
Lemma in_range_in (x a b : R) : (a <= x <= b)%R -> in_range_assert RA x a b = true.
Proof.
  intros H. unfold in_range_assert. pose proof tol_pos as Ht. cbn [nleb nmul nopp nsub RA]. set (e := tolerance RA) in *. clearbody e.
  change (num RA) with R in *. assert (0 <= (b - a) * e)%R by (apply Rmult_le_pos; lra). rewrite !R_leb_true; [reflexivity | |]; lra.
Qed.
Lemma in_range_iff (x a b : R) : in_range_assert RA x a b = true <-> (a - (b - a) * tolerance RA <= x <= b + (b - a) * tolerance RA)%R.
Proof.
  unfold in_range_assert. cbn [nleb nmul nopp nsub RA]. set (e := tolerance RA) in *. clearbody e. change (num RA) with R in *.
  rewrite andb_true_iff. unfold R_leb. destruct (Rle_dec _ _); destruct (Rle_dec _ _); split; intros; try lra; try (destruct H; congruence); split; reflexivity.
Qed.

Lemma em_small i j : 0 <= j <= i -> i < 2 ^ 63 -> elem_minus i j = i - j.
Proof. intros. unfold elem_minus, u64_sub. rewrite u64_small by lia. apply i64_small. lia. Qed.

Section Space.
Context (l : list R) (d : Z) (periodic : bool) (s : n_bsplines RA).
Hypothesis Hd : 1 <= d.
Hypothesis Hlen : (2 <= length l)%nat.
Let n := Z.of_nat (length l).
Let ncells := n - 1.
Let t := knots periodic d l.
Hypothesis Hbig : n + 2 * d < 2 ^ 31.
Hypothesis Hstrict : strictly_increasing l.
Hypothesis Hdeg : nb_degree RA s = d.
Hypothesis Hfront : nb_break_front RA s = d.
Hypothesis Hsize : nb_break_size RA s = n.
Hypothesis Hcoord : forall k, 0 <= k < n + 2 * d -> nb_coord RA s k = Ok (t k : num RA).
Lemma sp_t_first : t d = first_point l.
Proof. clear -Hd Hlen. unfold t. replace d with (d + 0) at 2 by ring. rewrite knots_break; [reflexivity | exact Hlen | lia]. Qed.
Lemma sp_t_last : t (d + ncells) = last_point l.
Proof. clear -Hd Hlen.
  unfold t. rewrite knots_break; [| exact Hlen | unfold ncells, n; lia]. unfold last_point. f_equal. unfold ncells, n. lia.
Qed.
Lemma sp_mono a b : a <= b -> (t a <= t b)%R.
Proof. clear -Hlen Hstrict. intros. unfold t. apply knots_mono; [exact Hlen | now apply strict_incr | assumption]. Qed.
Lemma sp_cell c : d <= c < d + ncells -> (t c < t (c + 1)%Z)%R.
Proof. clear -Hlen Hstrict. intros. unfold t. apply knots_cell; assumption. Qed.
Lemma sp_first_last : (first_point l < last_point l)%R.
Proof. clear -Hlen Hstrict. now apply first_last. Qed.
Lemma sp_rmin : nb_rmin RA s = Ok (first_point l : num RA).
Proof. unfold nb_rmin. rewrite Hfront, Hcoord by (unfold n in *; lia). now rewrite sp_t_first. Qed.
Lemma sp_back : nb_break_back RA s = d + ncells.
Proof. unfold nb_break_back. rewrite Hfront, Hsize. unfold u64_add, u64_sub. rewrite (u64_small n), (u64_small (n - 1)) by (unfold n in *; lia). unfold ncells. apply u64_small. unfold n in *. lia. Qed.
Lemma sp_rmax : nb_rmax RA s = Ok (last_point l : num RA).
Proof. unfold nb_rmax. rewrite sp_back, Hcoord by (unfold ncells, n in *; lia). now rewrite sp_t_last. Qed.
Lemma nc1 : 1 <= ncells. Proof. unfold ncells, n. lia. Qed.
(** The cell of x, and the nearest cell when x is outside. *)
Definition cell_of (x : R) (c : Z) : Prop :=
  d <= c < d + ncells /\
  ((t c <= x < t (c + 1)%Z)%R \/ ((x < first_point l)%R /\ c = d) \/ ((last_point l <= x)%R /\ c = d + ncells - 1)).
Lemma find_cell (x : R) : in_range_assert RA x (first_point l) (last_point l) = true ->
  exists c, nb_find_cell_start RA s x = Ok c /\ cell_of x c.
Proof.
  intros Hx. unfold nb_find_cell_start, nb_find_cell_start_fuel. rewrite sp_rmin, sp_rmax. cbn [rbind].
  change (num RA) with R in *. rewrite Hx. unfold assert_. rewrite Hfront, sp_back. pose proof nc1. pose proof sp_first_last as Hfl.
  cbn [nleb RA]. unfold R_leb at 1. destruct (Rle_dec x (first_point l)) as [H1|H1].
  - exists d. cbn [rbind]. split; [reflexivity|]. split; [lia|]. destruct (Req_dec x (first_point l)) as [->|]; [|right; left; split; [lra | reflexivity]].
    left. pose proof (sp_cell d ltac:(lia)). rewrite sp_t_first in *. lra.
  - unfold R_leb at 1. destruct (Rle_dec (last_point l) x) as [H2|H2].
    + cbn [rbind]. unfold u64_sub. rewrite u64_small by (unfold ncells, n in *; lia). exists (d + ncells - 1). split; [reflexivity|]. split; [lia|].
      right. right. split; [exact H2 | reflexivity].
    + destruct (search_ok RA (fun y => y) s t t d (d + ncells) x) with (fuel := nb_fuel RA s) (low := d) (high := d + ncells) as (c & E & Hc & Hxc).
      * intros i Hi. split; [|reflexivity]. apply Hcoord. unfold ncells in Hi. lia.
      * intros; reflexivity.
      * intros; reflexivity.
      * lia.
      * unfold ncells. lia.
      * lia.
      * lia.
      * unfold nb_fuel. rewrite Hsize. unfold ncells, n in *. lia.
      * rewrite sp_t_first, sp_t_last. lra.
      * rewrite E. cbn [rbind]. exists c. split; [reflexivity|]. split; [lia|]. left. exact Hxc.
Qed.
Lemma find_cell_in (x : R) : (first_point l <= x <= last_point l)%R ->
  exists c, nb_cell RA s x = Ok c /\ nb_find_cell_start RA s x = Ok c /\ d <= c < d + ncells /\ ((t c <= x < t (c + 1)%Z)%R \/ (x = last_point l /\ c = d + ncells - 1)).
Proof.
  intros Hx. destruct (find_cell x (in_range_in _ _ _ Hx)) as (c & E & Hc & Hxc).
  assert (Hxc' : (t c <= x < t (c + 1)%Z)%R \/ (x = last_point l /\ c = d + ncells - 1)).
  { destruct Hxc as [?|[[? ?]|[? ?]]]; [left; assumption | lra | right; split; [lra | assumption]]. }
  exists c. split; [|tauto]. unfold nb_cell. rewrite sp_rmin, sp_rmax. cbn [rbind]. change (num RA) with R in *.
  rewrite in_range_in by exact Hx. unfold assert_ at 1. rewrite E. cbn [rbind]. rewrite Hcoord by (unfold ncells in Hc; lia). cbn [rbind].
  unfold u64_add. rewrite u64_small by (unfold ncells in Hc; lia). rewrite Hcoord by (unfold ncells in Hc; lia). cbn [rbind].
  rewrite sp_back, Hfront. unfold assert_. cbn [nleb nsub nmul RA]. change (num RA) with R in *.
  assert (0 <= (last_point l - first_point l) * tolerance RA)%R by (pose proof tol_pos; apply Rmult_le_pos; [lra | apply Rlt_le; exact tol_pos]).
  assert (Hb : (t c <= x <= t (c + 1)%Z)%R).
  { destruct Hxc' as [?|[-> ->]]; [lra|]. replace (d + ncells - 1 + 1) with (d + ncells) by ring. rewrite sp_t_last.
    pose proof (sp_mono (d + ncells - 1) (d + ncells) ltac:(lia)) as Hq. rewrite sp_t_last in Hq. lra. }
  rewrite !R_leb_true by lra. replace (d <=? c) with true by lia. replace (c <=? d + ncells) with true by lia. reflexivity.
Qed.
(** *** at a point of the domain *)
Section Point.
Context (x : R) (c : Z).
Hypothesis Hc : d <= c < d + ncells.
Hypothesis Hx : (t c <= x < t (c + 1)%Z)%R \/ (x = last_point l /\ c = d + ncells - 1).
Hypothesis Ecell : nb_cell RA s x = Ok c.
Notation V := (V t c).
Lemma pt_coord k : c - d + 1 <= k <= c + d -> nb_coord RA s k = Ok (t k : num RA).
Proof. intros. apply Hcoord. unfold ncells in Hc. lia. Qed.
Lemma pt_mono a b : c - d + 1 <= a <= b -> b <= c + d -> (t a <= t b)%R.
Proof. clear -Hlen Hstrict. intros. apply sp_mono. lia. Qed.
Lemma pt_cell : (t c < t (c + 1)%Z)%R. Proof. clear -Hlen Hstrict Hc. now apply sp_cell. Qed.
Lemma pt_big : c + d < 2 ^ 63. Proof. unfold ncells in Hc. lia. Qed.
Lemma pt_closed : (t c <= x <= t (c + 1)%Z)%R.
Proof. clear -Hd Hlen Hstrict Hc Hx.
  destruct Hx as [?|[E1 E2]]; [lra|]. subst c. replace (d + ncells - 1 + 1) with (d + ncells) by ring. rewrite sp_t_last, <- E1.
  pose proof (sp_mono (d + ncells - 1) (d + ncells) ltac:(lia)) as Hq. rewrite sp_t_last in Hq. lra.
Qed.
Lemma pt_bspline i : 0 <= i < ncells + d -> bspline t (last_point l) (Z.to_nat d) i x = bspline_piece t c (Z.to_nat d) i x.
Proof. clear -Hd Hlen Hstrict Hc Hx.
  intros Hi. apply (bspline_is_piece t c (last_point l) x (Z.to_nat d) i 0 (n + 2 * d)); try (unfold ncells in *; lia).
  - intros. apply sp_mono. lia.
  - destruct Hx as [H|[E1 E2]].
    + left. split; [exact H|]. pose proof (sp_mono (c + 1) (d + ncells) ltac:(lia)) as Hq. rewrite sp_t_last in Hq. lra.
    + right. subst c. replace (d + ncells - 1 + 1) with (d + ncells) by ring. rewrite sp_t_last. split; [|split; assumption].
      pose proof (sp_cell (d + ncells - 1) ltac:(lia)) as Hq. replace (d + ncells - 1 + 1) with (d + ncells) in Hq by ring. now rewrite sp_t_last in Hq.
Qed.
Lemma pt_V r : 0 <= r <= d -> V d r x = bspline t (last_point l) (Z.to_nat d) (c - d + r) x.
Proof. clear -Hd Hlen Hstrict Hc Hx. intros Hr. symmetry. apply pt_bspline. lia. Qed.
Lemma pt_other i : 0 <= i < ncells + d -> i < c - d \/ c < i -> bspline t (last_point l) (Z.to_nat d) i x = 0%R.
Proof. clear -Hd Hlen Hstrict Hc Hx. intros Hi Ho. rewrite pt_bspline by exact Hi. apply piece_zero. lia. Qed.
Lemma pt_nonneg r : (0 <= V d r x)%R.
Proof. clear -Hd Hlen Hstrict Hc Hx. apply (V_nonneg t c d pt_mono pt_cell d); [lia | lia | exact pt_closed]. Qed.
Lemma pt_sum : sum_f_R0 (fun r => V d (Z.of_nat r) x) (Z.to_nat d) = 1%R.
Proof. clear -Hd Hlen Hstrict Hc. apply (V_sum t c d pt_mono pt_cell d); lia. Qed.
Lemma pt_jmin : nb_first_bspline_in_cell RA s c = c - d.
Proof.
  unfold nb_first_bspline_in_cell, reference_element. rewrite Hfront, em_small by (unfold ncells in *; lia).
  unfold u64_add. rewrite !(u64_small (c - d)) by (unfold ncells in *; lia). rewrite u64_small; unfold ncells in *; lia.
Qed.
Lemma pt_eval_basis (left_ right_ : Z -> R) (values : arr R) : a_len values = d + 1 ->
  exists v, nb_eval_basis RA s left_ right_ values x = Ok (v, c - d) /\ a_len v = d + 1 /\ (forall r, 0 <= r <= d -> a_at v r = V d r x).
Proof.
  intros Hv. unfold nb_eval_basis. change (num RA) with R. rewrite Hdeg, Hv, Z.eqb_refl. unfold assert_. rewrite Ecell. cbn [rbind].
  change (num RA) with R in *. rewrite (aset_ok values) by lia. cbn [rbind].
  destruct (nb_triangle_ok s t c d x pt_coord ltac:(lia) pt_big pt_mono pt_cell d (mk_arr d left_) (mk_arr d right_)
              (mk_arr (a_len values) (upd (a_at values) 0 1%R))) as (l' & r' & v' & E & L & H); try reflexivity; try lia.
  { cbn [a_len]. lia. }
  change (num RA) with R in *. cbn [nofz RA]. rewrite E. cbn [rbind]. rewrite pt_jmin. exists v'. split; [reflexivity|]. split; [|exact H].
  rewrite L. exact Hv.
Qed.
Lemma pt_eval_deriv (left_ right_ : Z -> R) (values : arr R) : a_len values = d + 1 ->
  exists v, nb_eval_deriv RA s left_ right_ values x = Ok (v, c - d) /\ a_len v = d + 1 /\ (forall r, 0 <= r <= d -> a_at v r = DV t c d r x).
Proof.
  intros Hv. unfold nb_eval_deriv. cbv zeta. change (num RA) with R. rewrite Hdeg, Hv, Z.eqb_refl. unfold assert_. rewrite Ecell. cbn [rbind].
  change (num RA) with R in *. rewrite (aset_ok values) by lia. cbn [rbind].
  destruct (nb_triangle_ok s t c d x pt_coord ltac:(lia) pt_big pt_mono pt_cell (d - 1) (mk_arr d left_) (mk_arr d right_)
              (mk_arr (a_len values) (upd (a_at values) 0 1%R))) as (l' & r' & v' & E & L & H); try reflexivity; try lia.
  { cbn [a_len]. lia. }
  change (num RA) with R in *. cbn [nofz RA]. rewrite E. cbn [rbind]. cbn [a_len] in L. rewrite Hv in L.
  rewrite (aget_ok v') by lia. cbn [rbind].
  assert (Ecp : u64_add c 1 = c + 1) by (unfold u64_add; rewrite u64_small; [reflexivity | unfold ncells in *; lia]).
  assert (Ecm : u64_sub (c + 1) d = c + 1 - d) by (unfold u64_sub; rewrite u64_small; [reflexivity | unfold ncells in *; lia]).
  rewrite Ecp, Ecm, (pt_coord (c + 1)), (pt_coord (c + 1 - d)) by lia. cbn [rbind]. change (num RA) with R in *.
  rewrite (aset_ok v') by lia. cbn [rbind].
  set (saved := ndiv RA (nmul RA (IZR d) (a_at v' 0)) (nsub RA (t (c + 1)) (t (c + 1 - d)))).
  assert (Es : saved = (IZR d * Aq t c (d - 1) 0 x)%R).
  { unfold saved. rewrite Aq_in by lia. unfold G. rewrite H by lia. cbn [ndiv nmul nsub RA].
    replace (c + 0 + 1) with (c + 1) by ring. replace (c - (d - 1) + 0) with (c + 1 - d) by ring. change (num RA) with R. unfold Rdiv. ring. }
  destruct (nb_deriv_loop s t c d x pt_coord ltac:(lia) pt_big pt_mono (mk_arr (a_len v') (upd (a_at v') 0 (nopp RA saved))) saved)
    as (sv & w & Ew & Lw & Hs & H0 & Hr); try exact Es; try lia.
  { exact L. }
  { intros k Hk. cbn [a_at]. rewrite upd_neq by lia. apply H. lia. }
  cbv zeta in Ew. cbn [nofz RA] in Ew. change (num RA) with R in *. rewrite Ew. cbn [rbind]. rewrite (aset_ok w) by lia. cbn [rbind]. rewrite pt_jmin.
  eexists. split; [reflexivity|]. cbn [a_len a_at]. split; [exact Lw|]. intros r Hrr.
  destruct (Z.eq_dec r d) as [->|].
  - rewrite upd_eq, Hs. unfold DV. rewrite (Aq_out t c (d - 1) d) by lia. ring.
  - rewrite upd_neq by lia. destruct (Z.eq_dec r 0) as [->|]; [|apply Hr; lia].
    rewrite H0. cbn [a_at]. rewrite upd_eq. cbn [nopp RA]. rewrite Es. unfold DV. rewrite (Aq_out t c (d - 1) (0 - 1)) by lia. ring.
Qed.
Lemma pt_DV r : derivable_pt_lim (V d r) x (DV t c d r x).
Proof. clear -Hd Hlen Hstrict Hc.
  pose proof (V_deriv t c d pt_mono pt_cell (d - 1) ltac:(lia) ltac:(lia) r x) as H. replace (d - 1 + 1) with d in H by ring. exact H.
Qed.
Lemma fall_1 k : (Z.of_nat k <= d) -> 1 <= falling_z d k.
Proof. induction k as [|k IH]; [cbn; lia|]. intros Hk. cbn [falling_z]. specialize (IH ltac:(lia)). nia. Qed.
Lemma fall_mono k m : (k <= m)%nat -> Z.of_nat m <= d -> falling_z d k <= falling_z d m.
Proof.
  intros Hk Hm. induction m as [|m IH]; [replace k with 0%nat by lia; lia|]. destruct (Nat.eq_dec k (S m)) as [->|]; [lia|].
  specialize (IH ltac:(lia) ltac:(lia)). cbn [falling_z]. pose proof (fall_1 m ltac:(lia)). nia.
Qed.
Lemma fall_R k : falling d k = IZR (falling_z d k).
Proof. induction k as [|k IH]; [reflexivity|]. cbn [falling falling_z]. now rewrite IH, mult_IZR. Qed.
Lemma nb_scale_ok m (dv : arr2 R) : 0 <= m <= d -> falling_z d (Z.to_nat m) < 2 ^ 31 -> a2_n dv = d + 1 -> a2_m dv = m + 1 ->
  exists dv', nb_scale RA s m dv = Ok dv' /\ a2_n dv' = d + 1 /\ a2_m dv' = m + 1 /\
    (forall r k, 0 <= r <= d -> 1 <= k <= m -> a2_at dv' r k = (a2_at dv r k * falling d (Z.to_nat k))%R) /\
    (forall r, a2_at dv' r 0 = a2_at dv r 0).
Proof.
  intros Hm Hf Hn Hmm. unfold nb_scale. rewrite Hdeg.
  match goal with |- context [for_range 1 (m + 1) ?f ?i] => set (body := f); set (init := i) end.
  destruct (for_range_inv
    (fun k (st : Z * arr2 (num RA)) => (k <= m -> fst st = falling_z d (Z.to_nat k)) /\ a2_n (snd st) = d + 1 /\ a2_m (snd st) = m + 1 /\
      (forall r j, 0 <= r <= d -> 1 <= j < k -> a2_at (snd st) r j = (a2_at dv r j * falling d (Z.to_nat j))%R) /\
      (forall r j, j < 1 \/ k <= j -> a2_at (snd st) r j = a2_at dv r j)) body 1 (m + 1) init) as ([rr dv'] & E & H).
  - lia.
  - unfold init. cbn [fst snd]. split; [|split; [exact Hn | split; [exact Hmm | split; [intros; lia | reflexivity]]]].
    intros Hk. change (Z.to_nat 1) with 1%nat. cbn [falling_z]. change (Z.of_nat 0) with 0.
    rewrite i32_small; [ring | unfold n in *; lia].
  - intros k [r0 w] Hk (H1 & H2 & H3 & H4 & H5). cbn [fst snd] in *. unfold body at 1. change (num RA) with R in *.
    specialize (H1 ltac:(lia)).
    destruct (scale_column w k (IZR r0) ltac:(lia) ltac:(lia)) as (w' & Ew & L1 & L2 & Hs1 & Hs2). change (num RA) with R in *.
    cbn [nofz RA]. rewrite Ew. cbn [rbind]. eexists. split; [reflexivity|]. cbn [fst snd]. split; [|split; [congruence | split; [congruence | split]]].
    + intros Hk1. replace (Z.to_nat (k + 1)) with (S (Z.to_nat k)) by lia. cbn [falling_z]. rewrite Z2Nat.id by lia. rewrite H1.
      assert (B1 : falling_z d (S (Z.to_nat k)) <= falling_z d (Z.to_nat m)) by (apply fall_mono; lia). cbn [falling_z] in B1. rewrite Z2Nat.id in B1 by lia.
      pose proof (fall_1 (Z.to_nat k) ltac:(lia)) as B2. set (F := falling_z d (Z.to_nat k)) in *. clearbody F.
      assert (F <= F * (d - k)) by nia. unfold u64_mul, u64_sub. rewrite (u64_small F), (u64_small (d - k)) by (unfold n in *; lia).
      rewrite u64_small by lia. apply i32_small. lia.
    + intros r j Hr Hj. destruct (Z.eq_dec j k) as [->|].
      * rewrite Hs1 by lia. rewrite H5 by lia. rewrite fall_R, H1. reflexivity.
      * rewrite Hs2 by lia. apply H4; lia.
    + intros r j Hj. rewrite Hs2 by lia. apply H5. lia.
  - cbn [fst snd] in H. destruct H as (_ & H2 & H3 & H4 & H5). change (num RA) with R in *. rewrite E. cbn [rbind]. exists dv'.
    split; [reflexivity|]. split; [exact H2|]. split; [exact H3|]. split; [intros r k Hr Hk; apply H4; lia | intros r; apply H5; lia].
Qed.
Lemma pt_n_derivs (left_ right_ : Z -> R) (ndu_ a_ : Z -> Z -> R) (derivs : arr2 R) m : 0 <= m <= d -> falling_z d (Z.to_nat m) < 2 ^ 31 ->
  a2_n derivs = d + 1 -> a2_m derivs = m + 1 ->
  exists dv, nb_eval_basis_and_n_derivs RA s left_ right_ ndu_ a_ derivs x m = Ok (dv, c - d) /\ a2_n dv = d + 1 /\ a2_m dv = m + 1 /\
    (forall r k, 0 <= r <= d -> 0 <= k <= m -> a2_at dv r k = kth t c d r (Z.to_nat k) x).
Proof.
  intros Hm Hf Hn Hmm. unfold nb_eval_basis_and_n_derivs. cbv zeta. change (num RA) with R. rewrite Hdeg, Hn, Hmm.
  replace ((m <=? d) && (d + 1 =? 1 + d) && (m + 1 =? 1 + m)) with true by lia. unfold assert_. rewrite Ecell. cbn [rbind].
  destruct (nb_ndu_ok s t c d x pt_coord ltac:(lia) pt_big pt_mono pt_cell (mk_arr d left_) (mk_arr d right_) (mk_arr2 (d + 1) (d + 1) ndu_))
    as (l' & r' & ndu & E & Hn1 & Hn2 & Hn3 & Hn4); try reflexivity; try lia; try exact Hdeg.
  change (num RA) with R in *. rewrite E. cbn [rbind].
  destruct (nd_column0_ok d ndu derivs ltac:(lia) Hn1 Hn2 Hn ltac:(lia)) as (dv0 & E0 & L0 & M0 & H0). change (num RA) with R in *. rewrite E0. cbn [rbind].
  destruct (nd_loop_ok d (nb_factor RA) ndu (Gi t c) (fun q k => V q k x) Hn1 Hn2 Hn3) with (n := m) (a := mk_arr2 (d + 1) 2 a_) (dv := dv0)
    as (dv1 & E1 & L1 & M1 & H1 & H1'); try reflexivity; try lia.
  { intros q k y Hk Hq. unfold nb_factor. change (num RA) with R in *. rewrite (aget2_ok ndu) by lia. cbn [rbind]. rewrite Hn4 by lia. reflexivity. }
  change (num RA) with R in *. rewrite E1. cbn [rbind].
  destruct (nb_scale_ok m dv1 Hm Hf L1 M1) as (dv2 & E2 & L2 & M2 & H2 & H2'). change (num RA) with R in *. rewrite E2. cbn [rbind].
  rewrite pt_jmin. exists dv2. split; [reflexivity|]. split; [exact L2|]. split; [exact M2|]. intros r k Hr Hk.
  destruct (Z.eq_dec k 0) as [->|].
  - change (Z.to_nat 0) with 0%nat. rewrite kth_0 by exact Hr. rewrite H2', H1', H0, Hn3 by lia. reflexivity.
  - rewrite H2, H1 by lia. unfold kth, D. ring.
Qed.
Lemma pt_kth r k : 0 <= r <= d -> 0 <= k <= d -> nth_derivative (Z.to_nat k) (V d r) (kth t c d r (Z.to_nat k)).
Proof. clear -Hd Hlen Hstrict Hc. intros. apply (kth_nth t c d pt_mono pt_cell d r (Z.to_nat k)); lia. Qed.
End Point.
End Space.
