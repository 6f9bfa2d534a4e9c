(** The statements about uniform B-splines, assembled. *)
From Coq Require Import Bool Reals Lia Lra ZifyBool List.
From Verif Require Import BSplineModel BSplineSpec LoopProofs BSplineMath BSplineDeriv BSplineProofs BSplineNDerivs BSplineUniform SamplingSpec SamplingProofs CellProofs KnotProofs NonUniformProofs UniformProofs SplineLemmas.
Import ListNotations.
Local Open Scope bool_scope. Local Open Scope Z_scope.

Section U.
Context (q : tag) (d : Z) (periodic : bool) (a b : R) (ncells : Z).
Let t := uniform_knots d a b ncells.
Hypothesis Hd : 1 <= d.
Hypothesis Hnc : 1 <= ncells.
Hypothesis Hab : (a < b)%R.
Hypothesis Hbig : ncells + 1 + 2 * d < 2 ^ 31.
Theorem un_construct : exists s, ub_construct RA q d periodic a b ncells = Ok s /\
    ub_knot_front RA s = 0 /\ ub_break_front RA s = d /\ ub_break_size RA s = ncells + 1 /\
    (forall k, 0 <= k < 2 ^ 63 -> ub_coord RA s k = t k) /\
    ub_rmin RA s = a /\ ub_rmax RA s = b /\ ub_step RA s = ((b - a) / IZR ncells)%R /\
    ub_ncells RA s = ncells /\ ub_size RA s = ncells + d /\ ub_nbasis RA s = (if periodic then ncells else ncells + d) /\
    (forall i, 0 <= i < ncells + d -> ub_first_support_knot RA s i = i /\ ub_last_support_knot RA s i = i + d + 1) /\
    (forall k, t (k + 1) = (t k + (b - a) / IZR ncells)%R) /\ t d = a /\ t (d + ncells) = b.
Proof.
  destruct (ub_construct_ok q a b ncells d periodic Hd Hnc Hbig Hab) as (s & E & Hs). exists s.
  pose proof Hs as (S1 & S2 & S3 & S4 & S5 & S6 & S7). split; [exact E|]. split; [exact S3|]. split; [exact S4|]. split; [exact S5|]. split; [exact S6|].
  assert (Hn : ub_ncells RA s = ncells) by (apply (us_ncells a b ncells d periodic Hd Hnc Hbig s Hs)).
  split; [apply (us_rmin a b ncells d periodic); assumption|]. split; [apply (us_rmax a b ncells d periodic); assumption|]. split; [exact S7|]. split; [exact Hn|].
  split; [unfold ub_size; rewrite S1, Hn; unfold u64_add; rewrite u64_small; lia|].
  split; [unfold ub_nbasis; rewrite S1, S2, Hn; unfold u64_add; rewrite u64_small; destruct periodic; lia|].
  split.
  { intros i Hi. unfold ub_last_support_knot, ub_first_support_knot, reference_element. rewrite S1, S3. rewrite elem_minus_0 by lia.
    unfold u64_add. rewrite (u64_small i), (u64_small (d + 1)) by lia. rewrite (u64_small (0 + i)) by lia. rewrite u64_small by lia. lia. }
  split; [|split; [eapply us_first | eapply us_last; eassumption]].
  intros k. pose proof (us_diff a b ncells d k (k + 1)) as H. fold t in H. replace (k + 1 - k) with 1 in H by ring. lra.
Qed.
Theorem un_eval_basis : forall values x, (a <= x <= b)%R -> a_len values = d + 1 ->
  exists s v j, ub_construct RA q d periodic a b ncells = Ok s /\ ub_eval_basis RA s values x = Ok (v, j) /\
    0 <= j < ncells /\ (t (d + j)%Z <= x <= t (d + j + 1)%Z)%R /\ a_len v = d + 1 /\
    (forall r, 0 <= r <= d -> a_at v r = bspline t b (Z.to_nat d) (j + r) x /\ (0 <= a_at v r)%R) /\
    (forall i, i < j \/ j + d < i -> bspline t b (Z.to_nat d) i x = 0%R) /\
    sum_f_R0 (fun r => a_at v (Z.of_nat r)) (Z.to_nat d) = 1%R.
Proof.
  intros values x Hx Hv. destruct (ub_construct_ok q a b ncells d periodic Hd Hnc Hbig Hab) as (s & E & Hs).
  destruct (us_locate a b ncells d periodic Hd Hnc Hbig Hab s Hs x Hx) as (j & off & El & Hj & Ho & Hxc).
  destruct (up_eval_basis a b ncells d periodic Hd Hnc Hbig Hab s Hs x j off Hj Ho El values Hv) as (v & Ev & Lv & Hvv).
  exists s, v, j. split; [exact E|]. split; [exact Ev|]. split; [exact Hj|]. split; [eapply up_closed; eassumption|]. split; [exact Lv|]. split; [|split].
  - intros r Hr. rewrite Hvv by exact Hr. split.
    + replace (j + r) with (d + j - d + r) by ring. eapply up_V; try eassumption. lia.
    + eapply up_nonneg; try eassumption. lia.
  - intros i Hi. eapply up_other; try eassumption; lia.
  - rewrite <- (up_sum a b ncells d Hnc Hab x j d ltac:(lia)). apply sum_eq. intros r Hr. apply Hvv. lia.
Qed.
Theorem un_eval_deriv : forall values x, (a <= x <= b)%R -> a_len values = d + 1 ->
  exists s v j, ub_construct RA q d periodic a b ncells = Ok s /\ ub_eval_deriv RA s values x = Ok (v, j) /\
    0 <= j < ncells /\ (t (d + j)%Z <= x <= t (d + j + 1)%Z)%R /\ a_len v = d + 1 /\
    (forall r, 0 <= r <= d ->
       (forall y, (t (d + j)%Z <= y < t (d + j + 1)%Z)%R ->
          bspline t b (Z.to_nat d) (j + r) y = bspline_piece t (d + j) (Z.to_nat d) (j + r) y) /\
       derivable_pt_lim (bspline_piece t (d + j) (Z.to_nat d) (j + r)) x (a_at v r) /\
       ((t (d + j)%Z < x < t (d + j + 1)%Z)%R -> derivable_pt_lim (bspline t b (Z.to_nat d) (j + r)) x (a_at v r))) /\
    sum_f_R0 (fun r => a_at v (Z.of_nat r)) (Z.to_nat d) = 0%R.
Proof.
  intros values x Hx Hv. destruct (ub_construct_ok q a b ncells d periodic Hd Hnc Hbig Hab) as (s & E & Hs).
  destruct (us_locate a b ncells d periodic Hd Hnc Hbig Hab s Hs x Hx) as (j & off & El & Hj & Ho & Hxc).
  destruct (up_eval_deriv a b ncells d periodic Hd Hnc Hbig Hab s Hs x j off Hj Ho El values Hv) as (v & Ev & Lv & Hvv).
  exists s, v, j. split; [exact E|]. split; [exact Ev|]. split; [exact Hj|]. split; [eapply up_closed; eassumption|]. split; [exact Lv|]. split.
  - intros r Hr. assert (Hloc : forall y, (t (d + j)%Z <= y < t (d + j + 1)%Z)%R ->
      bspline t b (Z.to_nat d) (j + r) y = bspline_piece t (d + j) (Z.to_nat d) (j + r) y).
    { intros y Hy. apply (up_bspline a b ncells d Hnc Hab y j Hj (or_introl Hy)). lia. }
    assert (Hder : derivable_pt_lim (bspline_piece t (d + j) (Z.to_nat d) (j + r)) x (a_at v r)).
    { rewrite Hvv by exact Hr. pose proof (up_DV a b ncells d Hd Hnc Hab x j r) as H. unfold V in H. replace (d + j - d + r) with (j + r) in H by ring. exact H. }
    split; [exact Hloc|]. split; [exact Hder|]. intros Hin. eapply dpl_local; [exact Hin | | exact Hder]. intros z Hz. apply Hloc. lra.
  - rewrite <- (DV_sum t (d + j) d x Hd). apply sum_eq. intros r Hr. apply Hvv. lia.
Qed.
Theorem un_n_derivs : forall ndu_ a_ derivs x n, (a <= x <= b)%R -> 0 <= n <= d -> a2_n derivs = d + 1 -> a2_m derivs = n + 1 ->
  exists s v j, ub_construct RA q d periodic a b ncells = Ok s /\ ub_eval_basis_and_n_derivs RA s ndu_ a_ derivs x n = Ok (v, j) /\
    0 <= j < ncells /\ (t (d + j)%Z <= x <= t (d + j + 1)%Z)%R /\ a2_n v = d + 1 /\ a2_m v = n + 1 /\
    (forall r k, 0 <= r <= d -> 0 <= k <= n ->
       exists g, nth_derivative (Z.to_nat k) (bspline_piece t (d + j) (Z.to_nat d) (j + r)) g /\ a2_at v r k = g x).
Proof.
  intros ndu_ a_ derivs x n Hx Hn L1 L2. destruct (ub_construct_ok q a b ncells d periodic Hd Hnc Hbig Hab) as (s & E & Hs).
  destruct (us_locate a b ncells d periodic Hd Hnc Hbig Hab s Hs x Hx) as (j & off & El & Hj & Ho & Hxc).
  destruct (up_n_derivs a b ncells d periodic Hd Hnc Hbig Hab s Hs x j off Hj Ho El ndu_ a_ derivs n Hn Hx L1 L2) as (v & Ev & M1 & M2 & Hvv).
  exists s, v, j. split; [exact E|]. split; [exact Ev|]. split; [exact Hj|]. split; [eapply up_closed; eassumption|]. split; [exact M1|]. split; [exact M2|].
  intros r k Hr Hk. exists (kth t (d + j) d r (Z.to_nat k)). split; [|apply Hvv; assumption].
  pose proof (up_kth a b ncells d Hd Hnc Hab j r k Hr ltac:(lia)) as H. unfold V in H. replace (d + j - d + r) with (j + r) in H by ring. exact H.
Qed.
Theorem un_columns : forall s ndu_ a_ values values' derivs x n,
  ub_construct RA q d periodic a b ncells = Ok s -> (a <= x <= b)%R ->
  1 <= n <= d -> a2_n derivs = d + 1 -> a2_m derivs = n + 1 -> a_len values = d + 1 -> a_len values' = d + 1 ->
  exists v v' w j, ub_eval_basis RA s values x = Ok (v, j) /\ ub_eval_deriv RA s values' x = Ok (v', j) /\
    ub_eval_basis_and_n_derivs RA s ndu_ a_ derivs x n = Ok (w, j) /\
    (forall r, 0 <= r <= d -> a2_at w r 0 = a_at v r /\ a2_at w r 1 = a_at v' r).
Proof.
  intros s ndu_ a_ values values' derivs x n Es Hx Hn L1 L2 L3 L4.
  destruct (ub_construct_ok q a b ncells d periodic Hd Hnc Hbig Hab) as (s' & E & Hs). assert (s' = s) by congruence. subst s'.
  destruct (us_locate a b ncells d periodic Hd Hnc Hbig Hab s Hs x Hx) as (j & off & El & Hj & Ho & Hxc).
  destruct (up_eval_basis a b ncells d periodic Hd Hnc Hbig Hab s Hs x j off Hj Ho El values L3) as (v & Ev & Lv & Hvv).
  destruct (up_eval_deriv a b ncells d periodic Hd Hnc Hbig Hab s Hs x j off Hj Ho El values' L4) as (v' & Ev' & Lv' & Hvv').
  destruct (up_n_derivs a b ncells d periodic Hd Hnc Hbig Hab s Hs x j off Hj Ho El ndu_ a_ derivs n ltac:(lia) Hx L1 L2) as (w & Ew & M1 & M2 & Hw).
  exists v, v', w, j. split; [exact Ev|]. split; [exact Ev'|]. split; [exact Ew|]. intros r Hr. rewrite !Hw, Hvv, Hvv' by lia.
  split; [apply kth_0; exact Hr|]. change (Z.to_nat 1) with 1%nat. fold t.
  assert (H1 : derivable_pt_lim (kth t (d + j) d r 0) x (kth t (d + j) d r 1 x)).
  { apply (kth_deriv t (d + j) d); try lia. - intros. apply us_mono; try assumption. lia. - apply us_cell; assumption. }
  apply (uniqueness_limite (kth t (d + j) d r 0) x); [exact H1|].
  eapply dpl_ext; [| reflexivity | exact (up_DV a b ncells d Hd Hnc Hab x j r)]. intros y. symmetry. now apply kth_0.
Qed.
(** cell location *)
Theorem un_locate : forall x, in_range_assert RA x a b = true ->
  exists s j off, ub_construct RA q d periodic a b ncells = Ok s /\ ub_icell_and_offset RA s x = Ok (j, off) /\ 0 <= j < ncells /\ (0 <= off <= 1)%R /\
    ((a <= x < b)%R -> (a + IZR j * ((b - a) / IZR ncells) <= x < a + IZR (j + 1) * ((b - a) / IZR ncells))%R) /\
    ((a <= x <= b)%R -> x = (a + (IZR j + off) * ((b - a) / IZR ncells))%R) /\
    ((x < a)%R -> j = 0 /\ off = 0%R) /\ ((b <= x)%R -> j = ncells - 1 /\ off = 1%R).
Proof.
  intros x Hin. destruct (ub_construct_ok q a b ncells d periodic Hd Hnc Hbig Hab) as (s & E & Hs). exists s.
  pose proof (us_h a b ncells d Hnc Hab) as Hh. pose proof (us_nh a b ncells d Hnc) as Hn. set (h := ((b - a) / IZR ncells)%R) in *.
  assert (Hp : forall k, uniform_knots d a b ncells (d + k) = (a + IZR k * h)%R) by (intros k; unfold uniform_knots; fold h; replace (d + k - d) with k by ring; reflexivity).
  destruct (Rle_dec b x) as [H2|H2]; [|destruct (Rlt_dec x a) as [H1|H1]].
  - exists (ncells - 1), 1%R. rewrite (us_high a b ncells d periodic Hd Hnc Hbig Hab s Hs x Hin H2). repeat split; try assumption; try lia; try lra.
    intros Hx. rewrite minus_IZR. replace (a + (IZR ncells - 1 + 1) * h)%R with (a + IZR ncells * h)%R by ring. lra.
  - exists 0, 0%R. rewrite (us_low a b ncells d periodic Hd Hnc Hbig s Hs x Hin) by lra. repeat split; try assumption; try lia; try lra.
  - destruct (us_locate a b ncells d periodic Hd Hnc Hbig Hab s Hs x ltac:(lra)) as (j & off & El & Hj & Ho & Hxc).
    fold h in Ho. replace (d + j + 1) with (d + (j + 1)) in Hxc by ring. rewrite !Hp in *. rewrite plus_IZR in *. exists j, off. split; [exact E|]. split; [exact El|]. split; [exact Hj|].
    destruct Hxc as [Hxc|[Hxc _]]; [|lra].
    assert (0 <= off <= 1)%R by (split; [apply Rmult_le_reg_r with h; lra | apply Rmult_le_reg_r with h; lra]).
    split; [assumption|]. split; [intros; rewrite plus_IZR; exact Hxc|]. split; [intros; lra|]. split; intros; lra.
Qed.
End U.

(** Periodic B-splines on equally spaced break points: the two classes agree. *)
Definition equally_spaced (a b : R) (ncells : Z) : list R :=
  map (fun k => a + IZR (Z.of_nat k) * ((b - a) / IZR ncells))%R (seq 0 (S (Z.to_nat ncells))).
Section Both.
Context (q : tag) (d : Z) (a b : R) (ncells : Z).
Hypothesis Hd : 1 <= d.
Hypothesis Hnc : 1 <= ncells.
Hypothesis Hab : (a < b)%R.
Hypothesis Hbig : ncells + 1 + 2 * d < 2 ^ 31.
Let h := ((b - a) / IZR ncells)%R.
Let l := equally_spaced a b ncells.
Lemma es_len : Z.of_nat (length l) = ncells + 1.
Proof. unfold l, equally_spaced. rewrite map_length, seq_length. lia. Qed.
Lemma es_nth k : 0 <= k <= ncells -> nth (Z.to_nat k) l 0%R = (a + IZR k * h)%R.
Proof.
  intros Hk. apply nth_error_nth. unfold l, equally_spaced. erewrite map_nth_error; [|apply nth_error_nth' with (d := O); rewrite seq_length; lia].
  rewrite seq_nth by lia. fold h. do 3 f_equal. f_equal. lia.
Qed.
Lemma es_strict : strictly_increasing l.
Proof.
  intros i j x y Hij Hx Hy. pose proof (us_h a b ncells d Hnc Hab) as Hh. fold h in Hh. pose proof es_len.
  assert (i < length l)%nat by (apply nth_error_Some; congruence). assert (j < length l)%nat by (apply nth_error_Some; congruence).
  apply nth_error_nth with (d := 0%R) in Hx. apply nth_error_nth with (d := 0%R) in Hy.
  rewrite <- (Nat2Z.id i), es_nth in Hx by lia. rewrite <- (Nat2Z.id j), es_nth in Hy by lia. subst x y.
  assert (IZR (Z.of_nat i) < IZR (Z.of_nat j))%R by (apply IZR_lt; lia). nra.
Qed.
Lemma es_first : first_point l = a.
Proof. unfold first_point. change 0%nat with (Z.to_nat 0). rewrite es_nth by lia. ring. Qed.
Lemma es_last : last_point l = b.
Proof.
  unfold last_point. pose proof es_len. replace (length l - 1)%nat with (Z.to_nat ncells) by lia. rewrite es_nth by lia.
  unfold h. field. apply not_0_IZR. lia.
Qed.
Lemma es_knots k : knots true d l k = uniform_knots d a b ncells k.
Proof.
  unfold knots, periodic_knots, uniform_knots. cbv zeta. rewrite es_len, es_first, es_last. replace (ncells + 1 - 1) with ncells by ring.
  pose proof (Z.mod_pos_bound (k - d) ncells ltac:(lia)). rewrite es_nth by lia. fold h.
  rewrite (Z.div_mod (k - d) ncells) at 3 by lia. rewrite plus_IZR, mult_IZR.
  pose proof (us_nh a b ncells d Hnc) as Hn. fold h in Hn. replace (b - a)%R with (IZR ncells * h)%R. ring.
Qed.
Theorem uniform_is_non_uniform : forall junk left_ right_ values values' x, (a <= x <= b)%R -> a_len values = d + 1 -> a_len values' = d + 1 ->
  exists s s' v v' j, ub_construct RA q d true a b ncells = Ok s /\ nb_construct RA junk d true l = Ok (Some s') /\
    ub_eval_basis RA s values x = Ok (v, j) /\ nb_eval_basis RA s' left_ right_ values' x = Ok (v', j) /\
    (forall r, 0 <= r <= d -> a_at v r = a_at v' r).
Proof.
  intros junk left_ right_ values values' x Hx L1 L2. pose proof es_len as Hl.
  destruct (un_eval_basis q d true a b ncells Hd Hnc Hab Hbig values x Hx L1) as (s & v & j & E1 & E2 & Hj & Hxj & _ & Hv & _ & _).
  destruct (ub_construct_ok q a b ncells d true Hd Hnc Hbig Hab) as (s0 & E0 & Hs). assert (s0 = s) by congruence. subst s0.
  destruct (us_locate a b ncells d true Hd Hnc Hbig Hab s Hs x Hx) as (j0 & off & El & Hj0 & Ho & Hxc).
  assert (j0 = j). { destruct (up_eval_basis a b ncells d true Hd Hnc Hbig Hab s Hs x j0 off Hj0 Ho El values L1) as (w & Ew & _). congruence. } subst j0.
  destruct (nu_space d true l Hd ltac:(lia) es_strict ltac:(lia) junk) as (s' & E & S1 & S2 & S3 & S4 & S5 & S6).
  destruct (find_cell_in l d true s' Hd ltac:(lia) ltac:(lia) es_strict S3 S4 S6 x) as (c & Ec & _ & Hc & Hxc').
  { rewrite es_first, es_last. exact Hx. }
  destruct (pt_eval_basis l d true s' Hd ltac:(lia) ltac:(lia) es_strict S1 S3 S6 x c Hc Ec left_ right_ values' L2) as (v' & Ev' & _ & Hv').
  rewrite !es_knots, es_last in Hxc'. rewrite Hl in *. replace (ncells + 1 - 1) with ncells in * by ring.
  set (t := uniform_knots d a b ncells) in *.
  assert (Hm : forall i k, i <= k -> (t i <= t k)%R) by (intros; apply us_mono; assumption).
  assert (Hlast : t (d + ncells) = b) by (apply us_last; assumption).
  assert (c = d + j).
  { destruct Hxc as [A|[A1 A2]]; destruct Hxc' as [B|[B1 B2]].
    - destruct (Z.lt_trichotomy c (d + j)) as [L|[L|L]]; [|exact L|].
      + pose proof (Hm (c + 1) (d + j) ltac:(lia)). lra.
      + pose proof (Hm (d + j + 1) c ltac:(lia)). lra.
    - pose proof (Hm (d + j + 1) (d + ncells) ltac:(lia)). lra.
    - pose proof (Hm (c + 1) (d + ncells) ltac:(lia)). lra.
    - lia. }
  subst c. exists s, s', v, v', j. split; [exact E1|]. split; [exact E|]. split; [exact E2|]. replace (d + j - d) with j in Ev' by ring. split; [exact Ev'|].
  intros r Hr. rewrite Hv' by exact Hr. fold t in Hv. destruct (Hv r Hr) as (-> & _).
  pose proof (up_bspline a b ncells d Hnc Hab x j Hj Hxc d (j + r) ltac:(lia)) as Hq. fold t in Hq. rewrite Hq. unfold V. replace (d + j - d + r) with (j + r) by ring.
  unfold bspline_piece. apply cdb_knots. intros i _. symmetry. apply es_knots.
Qed.
End Both.
