(** Uniform B-splines: from the bounds to the values. *)
From Coq Require Import Bool Reals Lia Lra ZifyBool List.
From Verif Require Import BSplineModel BSplineSpec LoopProofs BSplineMath BSplineDeriv BSplineProofs BSplineNDerivs BSplineUniform SamplingSpec SamplingProofs CellProofs KnotProofs NonUniformProofs.
Import ListNotations.
Local Open Scope bool_scope. Local Open Scope Z_scope.

Lemma trunc_pos (x : R) : (0 <= x)%R -> (IZR (R_trunc x) <= x < IZR (R_trunc x) + 1)%R.
Proof.
  intros Hx. unfold R_trunc. destruct (Rlt_dec x 0); [lra|]. pose proof (base_Int_part x). lra.
Qed.

Section Space.
Context (q : tag) (a b : R) (ncells d : Z) (periodic : bool).
Hypothesis Hd : 1 <= d.
Hypothesis Hnc : 1 <= ncells.
Hypothesis Hbig : ncells + 1 + 2 * d < 2 ^ 31.
Hypothesis Hab : (a < b)%R.
Let h := ((b - a) / IZR ncells)%R.
Let t := uniform_knots d a b ncells.
Lemma us_h : (0 < h)%R.
Proof. unfold h. apply Rdiv_lt_0_compat; [lra|]. apply IZR_lt. lia. Qed.
Lemma us_diff i j : (t j - t i = IZR (j - i) * h)%R.
Proof. unfold t, uniform_knots. fold h. rewrite !minus_IZR. ring. Qed.
Lemma us_first : t d = a.
Proof. unfold t, uniform_knots. replace (d - d) with 0 by ring. ring. Qed.
Lemma us_nh : (IZR ncells * h = b - a)%R.
Proof. unfold h. field. apply not_0_IZR. lia. Qed.
Lemma us_last : t (d + ncells) = b.
Proof. pose proof (us_diff d (d + ncells)) as H. replace (d + ncells - d) with ncells in H by ring. rewrite us_nh, us_first in H. lra. Qed.
Lemma us_mono i j : i <= j -> (t i <= t j)%R.
Proof. intros. apply (u_mono t h us_h us_diff). assumption. Qed.
Lemma us_cell c : (t c < t (c + 1)%Z)%R.
Proof. apply (u_cell t h c us_h us_diff). Qed.

Definition is_space (s : u_bsplines RA) : Prop :=
  ub_degree RA s = d /\ ub_periodic RA s = periodic /\ ub_knot_front RA s = 0 /\ ub_break_front RA s = d /\ ub_break_size RA s = ncells + 1 /\
  (forall k, 0 <= k < 2 ^ 63 -> ub_coord RA s k = t k) /\ ub_step RA s = h.
Lemma ub_construct_ok : exists s, ub_construct RA q d periodic a b ncells = Ok s /\ is_space s.
Proof.
  unfold ub_construct. replace (0 <? ncells) with true by lia. unfold assert_.
  replace (i64 (u64_add ncells 1)) with (ncells + 1) by (unfold u64_add; rewrite u64_small, i64_small; lia).
  rewrite (i64_small d) by lia.
  destruct (us_ghosted_ok q a b (ncells + 1) Hab ltac:(lia) d d ltac:(lia) ltac:(lia) ltac:(lia)) as (s & E & Hc & Hs). rewrite E. cbn [rbind].
  unfold front_of, size_of. cbn [g_all g_main front dom_begin map one_elem rbind fst snd]. rewrite extents_1' by lia. cbn [rbind one_elem].
  eexists. split; [reflexivity|]. unfold is_space, ub_coord, ub_step. cbn [ub_degree ub_periodic ub_knot_front ub_break_front ub_break_size ub_knots].
  replace (d + (ncells + 1) - d) with (ncells + 1) by ring. repeat (split; [reflexivity|]). split.
  - intros k Hk. rewrite Hc by exact Hk. unfold pt, t, uniform_knots. replace (ncells + 1 - 1) with ncells by ring. reflexivity.
  - rewrite Hs. replace (ncells + 1 - 1) with ncells by ring. reflexivity.
Qed.
Context (s : u_bsplines RA).
Hypothesis Hs : is_space s.
Lemma us_deg : ub_degree RA s = d. Proof. apply Hs. Qed.
Lemma us_coord k : 0 <= k < 2 ^ 63 -> ub_coord RA s k = t k.
Proof. apply Hs. Qed.
Lemma us_step_eq : ub_step RA s = h. Proof. apply Hs. Qed.
Lemma us_rmin : ub_rmin RA s = a.
Proof. unfold ub_rmin. destruct Hs as (_ & _ & _ & -> & _). rewrite us_coord by lia. exact us_first. Qed.
Lemma us_ncells : ub_ncells RA s = ncells.
Proof. unfold ub_ncells. destruct Hs as (_ & _ & _ & _ & -> & _). unfold u64_sub. rewrite (u64_small (ncells + 1)) by lia. rewrite u64_small; lia. Qed.
Lemma us_rmax : ub_rmax RA s = b.
Proof.
  unfold ub_rmax. destruct Hs as (_ & _ & _ & -> & -> & _). unfold u64_sub, u64_add. rewrite (u64_small (ncells + 1)) by lia.
  rewrite (u64_small (ncells + 1 - 1)) by lia. rewrite u64_small by lia. rewrite us_coord by lia. rewrite <- us_last. f_equal. ring.
Qed.
Lemma us_low (x : R) : in_range_assert RA x a b = true -> (x <= a)%R -> ub_icell_and_offset RA s x = Ok (0, 0%R : num RA).
Proof.
  intros Hx Hxa. unfold ub_icell_and_offset. rewrite us_rmin, us_rmax. change (num RA) with R in *. rewrite Hx. unfold assert_. cbv zeta. cbn [nleb RA].
  rewrite R_leb_true by exact Hxa. reflexivity.
Qed.
Lemma us_high (x : R) : in_range_assert RA x a b = true -> (b <= x)%R -> ub_icell_and_offset RA s x = Ok (ncells - 1, 1%R : num RA).
Proof.
  intros Hx Hxa. unfold ub_icell_and_offset. rewrite us_rmin, us_rmax, us_ncells. change (num RA) with R in *. rewrite Hx. unfold assert_. cbv zeta. cbn [nleb RA].
  rewrite R_leb_false by lra. rewrite R_leb_true by exact Hxa. unfold u64_sub. rewrite u64_small by lia. rewrite i32_small by lia. reflexivity.
Qed.
Lemma us_locate (x : R) : (a <= x <= b)%R ->
  exists j offset, ub_icell_and_offset RA s x = Ok (j, offset) /\ 0 <= j < ncells /\ (x - t (d + j)%Z = offset * h)%R /\
    ((t (d + j)%Z <= x < t (d + j + 1)%Z)%R \/ (x = b /\ j = ncells - 1)).
Proof.
  intros Hx. pose proof us_h as Hh. pose proof us_nh as Hn. destruct (Rle_dec x a) as [H1|H1]; [|destruct (Rle_dec b x) as [H2|H2]].
  - exists 0, 0%R. rewrite us_low by (assumption || now apply in_range_in). split; [reflexivity|]. split; [lia|].
    rewrite Z.add_0_r. rewrite us_first. split; [lra|]. left. pose proof (us_cell d) as Hq. rewrite us_first in Hq. lra.
  - exists (ncells - 1), 1%R. rewrite us_high by (assumption || now apply in_range_in). split; [reflexivity|]. split; [lia|].
    split; [|right; split; [lra | reflexivity]]. pose proof (us_diff (d + (ncells - 1)) (d + ncells)) as Hq.
    replace (d + ncells - (d + (ncells - 1))) with 1 in Hq by ring. rewrite us_last in Hq. lra.
  - set (off := ((x - a) * (1 / h))%R). assert (Eoff : (off * h = x - a)%R) by (unfold off; field; lra).
    assert (B : (0 <= off < IZR ncells)%R) by (split; [nra | apply Rmult_lt_reg_r with h; lra]).
    pose proof (trunc_pos off ltac:(lra)) as T. set (j := R_trunc off) in *.
    assert (Hj : 0 <= j < ncells).
    { split; [|apply lt_IZR; lra]. assert (-1 < j); [|lia]. apply lt_IZR. lra. }
    exists j, (off - IZR j)%R. split; [|split; [exact Hj|]].
    + unfold ub_icell_and_offset. rewrite us_rmin, us_rmax, us_ncells. change (num RA) with R in *. rewrite in_range_in by exact Hx. unfold assert_. cbv zeta.
      cbn [nleb RA]. rewrite R_leb_false by lra. rewrite R_leb_false by lra. unfold ub_inv_step. rewrite us_step_eq.
      cbn [nsub nmul ndiv nofz ntrunc RA]. fold off. fold j. replace ((- 2 ^ 31 <=? j) && (j <? 2 ^ 31)) with true by lia.
      rewrite (i32_small ncells) by lia. replace (j =? ncells) with false by lia. reflexivity.
    + pose proof (us_diff d (d + j)) as Hq. replace (d + j - d) with j in Hq by ring. rewrite us_first in Hq.
      pose proof (us_diff (d + j) (d + j + 1)) as Hq2. replace (d + j + 1 - (d + j)) with 1 in Hq2 by ring. split; [lra|]. left. nra.
Qed.

Section Point.
Context (x : R) (j : Z) (offset : R).
Hypothesis Hj : 0 <= j < ncells.
Hypothesis Hoff : (x - t (d + j)%Z = offset * h)%R.
Hypothesis Hx : (t (d + j)%Z <= x < t (d + j + 1)%Z)%R \/ (x = b /\ j = ncells - 1).
Hypothesis Eloc : ub_icell_and_offset RA s x = Ok (j, offset).
Let c := d + j.
Notation V := (V t c).
Lemma up_closed : (t c <= x <= t (c + 1)%Z)%R.
Proof. clear -Hnc Hab Hj Hx h t c.
  destruct Hx as [?|[E1 E2]]; [unfold c; lra|]. unfold c. subst j. replace (d + (ncells - 1) + 1) with (d + ncells) by ring.
  rewrite us_last, <- E1. pose proof (us_mono (d + (ncells - 1)) (d + ncells) ltac:(lia)) as Hq. rewrite us_last in Hq. lra.
Qed.
Definition um p : forall i k, c - p + 1 <= i <= k -> k <= c + p -> (t i <= t k)%R := fun i k H _ => us_mono i k (proj2 H).
(** for any degree p, not only that of the space *)
Lemma up_bspline p i : 0 <= p -> bspline t b (Z.to_nat p) i x = bspline_piece t c (Z.to_nat p) i x.
Proof. clear -Hnc Hab Hj Hx h t c.
  intros Hp. apply (bspline_is_piece t c b x (Z.to_nat p) i (Z.min c i) (Z.max (c + 1) (i + p + 1))); try lia.
  - intros. apply us_mono. lia.
  - destruct Hx as [H|[E1 E2]].
    + left. split; [exact H|]. unfold c in *. pose proof (us_mono (d + j + 1) (d + ncells) ltac:(lia)) as Hq. rewrite us_last in Hq. lra.
    + right. split; [apply us_cell|]. split; [|exact E1]. unfold c. subst j. replace (d + (ncells - 1) + 1) with (d + ncells) by ring. now rewrite us_last.
Qed.
Lemma up_V p r : 0 <= p -> V p r x = bspline t b (Z.to_nat p) (c - p + r) x.
Proof. clear -Hnc Hab Hj Hx h t c. intros. symmetry. now apply up_bspline. Qed.
Lemma up_other p i : 0 <= p -> i < c - p \/ c < i -> bspline t b (Z.to_nat p) i x = 0%R.
Proof. clear -Hnc Hab Hj Hx h t c. intros Hp Ho. rewrite up_bspline by exact Hp. apply piece_zero. lia. Qed.
Lemma up_nonneg p r : 0 <= p -> (0 <= V p r x)%R.
Proof. clear -Hnc Hab Hj Hx h t c. intros. apply (V_nonneg t c p (um p) (us_cell c) p); [assumption | lia | exact up_closed]. Qed.
Lemma up_sum p : 0 <= p -> sum_f_R0 (fun r => V p (Z.of_nat r) x) (Z.to_nat p) = 1%R.
Proof. intros. apply (V_sum t c p (um p) (us_cell c) p); lia. Qed.
Lemma up_jmin : u64_add reference_element (u64 j) = j.
Proof. unfold reference_element, u64_add. rewrite (u64_small j) by lia. rewrite u64_small; lia. Qed.
Lemma up_eval_degree p (values : arr R) : 0 <= p -> a_len values = p + 1 ->
  exists v, ub_eval_basis_degree RA s values x p = Ok (v, j) /\ a_len v = p + 1 /\ (forall r, 0 <= r <= p -> a_at v r = V p r x).
Proof.
  intros Hp Hv. unfold ub_eval_basis_degree. change (num RA) with R. rewrite Hv, Z.eqb_refl. unfold assert_. rewrite Eloc. cbn [rbind].
  change (num RA) with R in *. rewrite (aset_ok values) by lia. cbn [rbind]. rewrite Hv.
  destruct (ub_triangle_ok t h c offset x us_h us_diff Hoff 1 (p + 1) (mk_arr (p + 1) (upd (a_at values) 0 1%R))) as (v & E & L & H).
  { cbn [a_len]. lia. }
  { reflexivity. }
  change (num RA) with R in *. cbn [nofz RA a_len]. rewrite E. cbn [rbind]. rewrite up_jmin. exists v. split; [reflexivity|]. split; [exact L|].
  intros r Hr. rewrite H by lia. replace (p + 1 - 1) with p by ring. ring.
Qed.
Lemma up_eval_basis (values : arr R) : a_len values = d + 1 ->
  exists v, ub_eval_basis RA s values x = Ok (v, j) /\ a_len v = d + 1 /\ (forall r, 0 <= r <= d -> a_at v r = V d r x).
Proof. intros. unfold ub_eval_basis. rewrite us_deg. now apply up_eval_degree; [lia|]. Qed.
Lemma up_Aq p r : 0 <= p -> r < 0 \/ 0 <= r <= p \/ p < r -> Aq t c p r x = ((if (0 <=? r) && (r <=? p) then V p r x else 0) / (IZR (p + 1) * h))%R.
Proof.
  intros Hp Hr. unfold Aq. rewrite (u_G t h c us_diff). destruct ((0 <=? r) && (r <=? p)); [reflexivity|]. unfold Rdiv. ring.
Qed.
Lemma up_eval_deriv (values : arr R) : a_len values = d + 1 ->
  exists v, ub_eval_deriv RA s values x = Ok (v, j) /\ a_len v = d + 1 /\ (forall r, 0 <= r <= d -> a_at v r = DV t c d r x).
Proof.
  intros Hv. unfold ub_eval_deriv. change (num RA) with R. rewrite us_deg, us_step_eq, Hv, Z.eqb_refl. unfold assert_. rewrite Eloc. cbn [rbind].
  change (num RA) with R in *. rewrite (aset_ok values) by lia. cbn [rbind]. rewrite Hv.
  destruct (ub_triangle_ok t h c offset x us_h us_diff Hoff (1 / h)%R d (mk_arr (d + 1) (upd (a_at values) 0 (1 / h)%R))) as (v & E & L & H).
  { cbn [a_len]. lia. }
  { reflexivity. }
  change (num RA) with R in *. cbn [nofz ndiv RA a_len] in *. rewrite E. cbn [rbind]. cbn [a_len] in L.
  rewrite (aget_ok v) by lia. cbn [rbind]. rewrite (aset_ok v) by lia. cbn [rbind].
  set (W := fun k => (1 / h * V (d - 1) k x)%R).
  destruct (ub_deriv_loop t h us_diff d W (mk_arr (a_len v) (upd (a_at v) 0 (- a_at v 0)%R))) as (bb & w & Ew & Lw & H0 & Hr).
  { lia. } { exact L. } { intros k Hk. cbn [a_at]. rewrite upd_neq by lia. apply H. lia. }
  change (num RA) with R in *. change (nopp RA (a_at v 0)) with (- a_at v 0)%R.
  assert (E0 : a_at v 0 = W 0) by (apply H; lia). rewrite E0 in *. rewrite Ew. cbn [rbind]. rewrite (aset_ok w) by lia. cbn [rbind]. rewrite up_jmin.
  eexists. split; [reflexivity|]. cbn [a_len a_at]. split; [exact Lw|]. intros r Hrr.
  assert (Dh : forall y, (1 / h * y = IZR d * (y / (IZR (d - 1 + 1) * h)))%R).
  { intros y. replace (d - 1 + 1) with d by ring. pose proof us_h. field. split; first [lra | apply not_0_IZR; lia]. }
  assert (DVe : DV t c d r x = ((if (0 <=? r - 1) && (r - 1 <=? d - 1) then W (r - 1)%Z else 0) - (if (0 <=? r) && (r <=? d - 1) then W r else 0))%R).
  { unfold DV. rewrite !up_Aq by lia. unfold W. destruct ((0 <=? r - 1) && (r - 1 <=? d - 1)); destruct ((0 <=? r) && (r <=? d - 1)); rewrite ?Dh; unfold Rdiv; ring. }
  rewrite DVe. destruct (Z.eq_dec r d) as [->|].
  - rewrite upd_eq. replace ((0 <=? d - 1) && (d - 1 <=? d - 1)) with true by lia. replace ((0 <=? d) && (d <=? d - 1)) with false by lia. ring.
  - rewrite upd_neq by lia. destruct (Z.eq_dec r 0) as [->|].
    + rewrite H0. cbn [a_at]. rewrite upd_eq. replace ((0 <=? 0 - 1) && (0 - 1 <=? d - 1)) with false by lia.
      replace ((0 <=? 0) && (0 <=? d - 1)) with true by lia. ring.
    + rewrite Hr by lia. replace ((0 <=? r - 1) && (r - 1 <=? d - 1)) with true by lia. replace ((0 <=? r) && (r <=? d - 1)) with true by lia. ring.
Qed.
Lemma up_DV r : derivable_pt_lim (V d r) x (DV t c d r x).
Proof.
  pose proof (V_deriv t c d (um d) (us_cell c) (d - 1) ltac:(lia) ltac:(lia) r x) as H. replace (d - 1 + 1) with d in H by ring. exact H.
Qed.
Definition ug (p m : Z) : R := (/ IZR (p + 1))%R.
Lemma coef_uniform p r k : forall m, coef (Gi t c) p r k m = (coef ug p r k m * (/ h) ^ k)%R.
Proof.
  induction k as [|k IH]; intros m; cbn [coef].
  - cbn [pow]. ring.
  - destruct ((0 <=? m) && (m <=? p - Z.of_nat (S k))) eqn:E; [|ring]. rewrite !IH. unfold Gi. rewrite (u_G t h c us_diff). unfold ug. cbn [pow].
    rewrite Rinv_mult. ring.
Qed.
Lemma ub_scale_ok m (dv : arr2 R) : 0 <= m <= d -> a2_n dv = d + 1 -> a2_m dv = m + 1 ->
  exists dv', ub_scale RA s m dv = Ok dv' /\ a2_n dv' = d + 1 /\ a2_m dv' = m + 1 /\
    (forall r k, 0 <= r <= d -> 1 <= k <= m -> a2_at dv' r k = (a2_at dv r k * (falling d (Z.to_nat k) * (/ h) ^ Z.to_nat k))%R) /\
    (forall r, a2_at dv' r 0 = a2_at dv r 0).
Proof.
  intros Hm Hn Hmm. unfold ub_scale, ub_inv_step. rewrite us_deg, us_step_eq. cbv zeta.
  match goal with |- context [for_range 1 (m + 1) ?f ?i] => set (body := f); set (init := i) end.
  destruct (for_range_inv
    (fun k (st : num RA * arr2 (num RA)) => (fst st = falling d (Z.to_nat k) * (/ h) ^ Z.to_nat k)%R /\ a2_n (snd st) = d + 1 /\ a2_m (snd st) = m + 1 /\
      (forall r i, 0 <= r <= d -> 1 <= i < k -> a2_at (snd st) r i = (a2_at dv r i * (falling d (Z.to_nat i) * (/ h) ^ Z.to_nat i))%R) /\
      (forall r i, i < 1 \/ k <= i -> a2_at (snd st) r i = a2_at dv r i)) body 1 (m + 1) init) as ([rr dv'] & E & H).
  - lia.
  - unfold init. cbn [fst snd]. split; [|split; [exact Hn | split; [exact Hmm | split; [intros; lia | reflexivity]]]].
    change (Z.to_nat 1) with 1%nat. cbn [falling pow nmul nofz ndiv RA]. change (Z.of_nat 0) with 0. rewrite Z.sub_0_r. unfold Rdiv. change (num RA) with R. ring.
  - intros k [r0 w] Hk (H1 & H2 & H3 & H4 & H5). cbn [fst snd] in *. unfold body at 1. change (num RA) with R in *.
    destruct (scale_column w k r0 ltac:(lia) ltac:(lia)) as (w' & Ew & L1 & L2 & Hs1 & Hs2). change (num RA) with R in *.
    rewrite Ew. cbn [rbind]. eexists. split; [reflexivity|]. cbn [fst snd]. split; [|split; [congruence | split; [congruence | split]]].
    + replace (Z.to_nat (k + 1)) with (S (Z.to_nat k)) by lia. cbn [falling pow]. rewrite Z2Nat.id by lia. rewrite H1. cbn [nmul nofz ndiv RA].
      unfold Rdiv. change (num RA) with R. ring.
    + intros r i Hr Hi. destruct (Z.eq_dec i k) as [->|].
      * rewrite Hs1 by lia. rewrite H5 by lia. rewrite H1. reflexivity.
      * rewrite Hs2 by lia. apply H4; lia.
    + intros r i Hi. rewrite Hs2 by lia. apply H5. lia.
  - cbn [fst snd] in H. destruct H as (_ & H2 & H3 & H4 & H5). change (num RA) with R in *. rewrite E. cbn [rbind]. exists dv'.
    split; [reflexivity|]. split; [exact H2|]. split; [exact H3|]. split; [intros r k Hr Hk; apply H4; lia | intros r; apply H5; lia].
Qed.
Lemma up_n_derivs (ndu_ a_ : Z -> Z -> R) (derivs : arr2 R) m : 0 <= m <= d -> (a <= x <= b)%R -> a2_n derivs = d + 1 -> a2_m derivs = m + 1 ->
  exists dv, ub_eval_basis_and_n_derivs RA s ndu_ a_ derivs x m = Ok (dv, j) /\ a2_n dv = d + 1 /\ a2_m dv = m + 1 /\
    (forall r k, 0 <= r <= d -> 0 <= k <= m -> a2_at dv r k = kth t c d r (Z.to_nat k) x).
Proof.
  intros Hm Hab' Hn Hmm. unfold ub_eval_basis_and_n_derivs. cbv zeta. change (num RA) with R. rewrite us_deg, us_rmin, us_rmax, Hn, Hmm.
  rewrite in_range_in by exact Hab'.
  replace (true && (m <=? d) && (d + 1 =? 1 + d) && (m + 1 =? 1 + m)) with true by lia. unfold assert_. rewrite Eloc. cbn [rbind].
  destruct (ub_ndu_ok t h c offset x us_h us_diff Hoff s d (mk_arr2 (d + 1) (d + 1) ndu_) us_deg ltac:(lia) eq_refl eq_refl)
    as (ndu & E & Hn1 & Hn2 & Hn3). change (num RA) with R in *. rewrite E. cbn [rbind].
  destruct (nd_column0_ok d ndu derivs ltac:(lia) Hn1 Hn2 Hn ltac:(lia)) as (dv0 & E0 & L0 & M0 & H0). change (num RA) with R in *. rewrite E0. cbn [rbind].
  destruct (nd_loop_ok d (ub_factor RA) ndu ug (fun p k => V p k x) Hn1 Hn2 Hn3) with (n := m) (a := mk_arr2 (d + 1) 2 a_) (dv := dv0)
    as (dv1 & E1 & L1 & M1 & H1 & H1'); try reflexivity; try lia.
  change (num RA) with R in *. rewrite E1. cbn [rbind].
  destruct (ub_scale_ok m dv1 Hm L1 M1) as (dv2 & E2 & L2 & M2 & H2 & H2'). change (num RA) with R in *. rewrite E2. cbn [rbind].
  rewrite up_jmin. exists dv2. split; [reflexivity|]. split; [exact L2|]. split; [exact M2|]. intros r k Hr Hk.
  destruct (Z.eq_dec k 0) as [->|].
  - change (Z.to_nat 0) with 0%nat. rewrite kth_0 by exact Hr. rewrite H2', H1', H0, Hn3 by lia. reflexivity.
  - rewrite H2, H1 by lia. unfold kth, D.
    rewrite (zsum_ext _ (fun i => coef (Gi t c) d r (Z.to_nat k) i * V (d - Z.of_nat (Z.to_nat k)) i x)%R
      (fun i => ((/ h) ^ Z.to_nat k) * (coef ug d r (Z.to_nat k) i * V (d - Z.of_nat (Z.to_nat k)) i x))%R).
    2: { intros i Hi. rewrite coef_uniform. ring. }
    rewrite zsum_scal. ring.
Qed.
Lemma up_kth r k : 0 <= r <= d -> 0 <= k <= d -> nth_derivative (Z.to_nat k) (V d r) (kth t c d r (Z.to_nat k)).
Proof. intros. apply (kth_nth t c d (um d) (us_cell c) d r (Z.to_nat k)); lia. Qed.
End Point.
End Space.
