(** The interpolation points of non-uniform B-splines. *)
From Coq Require Import Bool Reals Lia Lra ZifyBool List.
From Verif Require Import PointsModel PointsSpec BSplineSpec LoopProofs BSplineMath BSplineDeriv SamplingSpec SamplingProofs CellProofs KnotProofs NonUniformProofs SplineLemmas.
Import ListNotations.
Local Open Scope bool_scope. Local Open Scope Z_scope.

Lemma arr_list_points (a : arr R) (f : Z -> R) : (forall k, 0 <= k < a_len a -> a_at a k = f k) -> arr_list a = points_of (a_len a) f.
Proof. intros H. unfold arr_list, points_of. apply map_ext_in. intros k Hk. apply in_seq in Hk. apply H. lia. Qed.
Lemma points_nth n f k x : nth_error (points_of n f) k = Some x -> (Z.of_nat k < n) /\ x = f (Z.of_nat k).
Proof.
  unfold points_of. intros H. assert (L : (k < Z.to_nat n)%nat).
  { rewrite <- (seq_length (Z.to_nat n) 0), <- (map_length (fun k => f (Z.of_nat k))). apply nth_error_Some. congruence. }
  split; [lia|]. rewrite nth_error_map in H. rewrite (nth_error_nth' _ 0%nat) in H by (rewrite seq_length; lia). rewrite seq_nth in H by lia. cbn in H. congruence.
Qed.
Lemma points_len n f : 0 <= n -> Z.of_nat (length (points_of n f)) = n.
Proof. intros. unfold points_of. rewrite map_length, seq_length. lia. Qed.
Lemma points_at n f k : 0 <= k < n -> nth (Z.to_nat k) (points_of n f) 0%R = f k.
Proof.
  intros H. destruct (nth_error (points_of n f) (Z.to_nat k)) as [x|] eqn:E.
  - rewrite (nth_error_nth _ _ _ E). apply points_nth in E. rewrite Z2Nat.id in E by lia. apply E.
  - apply nth_error_None in E. unfold points_of in E. rewrite map_length, seq_length in E. lia.
Qed.
Lemma strict_steps (f : Z -> R) n : (forall i, 0 <= i -> i + 1 < n -> (f i < f (i + 1)%Z)%R) -> forall i j, 0 <= i < j -> j < n -> (f i < f j)%R.
Proof.
  intros H i j Hij Hj. assert (G : forall k, 0 <= k -> i + 1 + k < n -> (f i < f (i + 1 + k)%Z)%R).
  { intros k Hk. pattern k. apply natlike_ind; [| | exact Hk].
    - intros. rewrite Z.add_0_r. apply H; lia.
    - intros x Hx IH Hn. apply Rlt_trans with (f (i + 1 + x)%Z); [apply IH; lia|].
      replace (i + 1 + Z.succ x) with (i + 1 + x + 1) by lia. apply H; lia. }
  replace j with (i + 1 + (j - i - 1)) by lia. apply G; lia.
Qed.
Lemma points_strict n f : (forall i, 0 <= i -> i + 1 < n -> (f i < f (i + 1)%Z)%R) -> strictly_increasing (points_of n f).
Proof.
  intros H i j x y Hij Hx Hy. apply points_nth in Hx. apply points_nth in Hy. destruct Hx as [Hi ->]. destruct Hy as [Hj ->].
  apply (strict_steps f n H); lia.
Qed.
Lemma strict_sorted l : strictly_increasing l -> is_sorted RA l = true.
Proof. intros H. apply is_sorted_iff. intros i j x y Hij Hx Hy. apply Rlt_le. exact (H i j x y Hij Hx Hy). Qed.
Lemma ns_ok l : strictly_increasing l -> ns_construct RA l = Some (mk_ns RA l 0).
Proof. intros H. unfold ns_construct. now rewrite strict_sorted. Qed.

Lemma greville_zsum t d i : 1 <= d -> greville t d i = (zsum d (fun k => t (i + 1 + k)%Z) / IZR d)%R.
Proof.
  intros Hd. unfold greville. f_equal. unfold zsum. replace (Z.to_nat d) with (S (Z.to_nat d - 1)) at 2 by lia.
  generalize (Z.to_nat d - 1)%nat. intros m. induction m as [|m IH]; [cbn [sum_f_R0 nsum]; lra|].
  cbn [sum_f_R0]. rewrite IH. remember (S m) as m' eqn:Em. cbn [nsum]. reflexivity.
Qed.
Lemma zsum_le n f g : (forall k, 0 <= k < n -> (f k <= g k)%R) -> (zsum n f <= zsum n g)%R.
Proof.
  intros H. unfold zsum. assert (G : forall m, (m <= Z.to_nat n)%nat -> (nsum m f <= nsum m g)%R); [|apply G; lia].
  induction m as [|m IH]; intros Hm; cbn [nsum]; [lra|]. specialize (IH ltac:(lia)). specialize (H (Z.of_nat m) ltac:(lia)). lra.
Qed.
Lemma zsum_const n c : 0 <= n -> zsum n (fun _ => c) = (IZR n * c)%R.
Proof.
  intros Hn. pattern n. apply natlike_ind; [rewrite zsum_0; lra | | exact Hn]. intros x Hx IH. replace (Z.succ x) with (x + 1) by lia.
  rewrite zsum_S by lia. rewrite IH, plus_IZR. lra.
Qed.
Lemma greville_bounds t d i lo hi : 1 <= d -> (forall k, i + 1 <= k <= i + d -> (lo <= t k <= hi)%R) -> (lo <= greville t d i <= hi)%R.
Proof.
  intros Hd H. rewrite greville_zsum by lia. assert (Hp : (0 < IZR d)%R) by (apply IZR_lt; lia).
  pose proof (zsum_le d (fun _ => lo) (fun k => t (i + 1 + k)%Z) ltac:(intros; apply H; lia)) as H1.
  pose proof (zsum_le d (fun k => t (i + 1 + k)%Z) (fun _ => hi) ltac:(intros; apply H; lia)) as H2.
  rewrite zsum_const in H1, H2 by lia. split.
  - apply (Rmult_le_reg_r (IZR d)); [exact Hp|]. unfold Rdiv. rewrite Rmult_assoc, Rinv_l by lra. lra.
  - apply (Rmult_le_reg_r (IZR d)); [exact Hp|]. unfold Rdiv. rewrite Rmult_assoc, Rinv_l by lra. lra.
Qed.
Lemma greville_step t d i : 1 <= d -> (greville t d (i + 1) - greville t d i = (t (i + d + 1)%Z - t (i + 1)%Z) / IZR d)%R.
Proof.
  intros Hd. rewrite !greville_zsum by lia. assert (Hp : (IZR d <> 0)%R) by (apply not_0_IZR; lia).
  replace d with (d - 1 + 1) at 1 3 by lia. rewrite zsum_S by lia. rewrite (zsum_shift (d - 1)) by lia.
  rewrite (zsum_ext (d - 1) (fun m => t (i + 1 + (m + 1))) (fun k => t (i + 1 + 1 + k))) by (intros; f_equal; lia).
  replace (i + 1 + 1 + (d - 1)) with (i + d + 1) by lia. replace (i + 1 + 0) with (i + 1) by lia. field. exact Hp.
Qed.
Lemma greville_shift t d i p L : 1 <= d -> (forall k, t (k + p)%Z = (t k + L)%R) -> greville t d (i + p) = (greville t d i + L)%R.
Proof.
  intros Hd H. rewrite !greville_zsum by lia. rewrite (zsum_ext d _ (fun k => t (i + 1 + k)%Z + L)%R).
  2: { intros m Hm. rewrite <- H. f_equal. lia. }
  rewrite zsum_plus, zsum_const by lia. field. apply not_0_IZR. lia.
Qed.

Section NU.
Context (d : Z) (periodic : bool) (l : list R) (s : n_bsplines RA).
Let n := Z.of_nat (length l).
Let ncells := n - 1.
Let t := knots periodic d l.
Let nbasis := if periodic then ncells else ncells + d.
Hypothesis Hd : 1 <= d.
Hypothesis Hlen : (2 <= length l)%nat.
Hypothesis Hs : strictly_increasing l.
Hypothesis Hbig : n + 2 * d < 2 ^ 31.
Hypothesis S1 : nb_degree RA s = d.
Hypothesis S2 : nb_periodic RA s = periodic.
Hypothesis S3 : nb_break_front RA s = d.
Hypothesis S4 : nb_break_size RA s = n.
Hypothesis S5 : nb_knot_size RA s = n + 2 * d.
Hypothesis S6 : forall k, 0 <= k < n + 2 * d -> nb_coord RA s k = Ok (t k : num RA).
Lemma g_nbasis : nb_nbasis RA s = nbasis.
Proof.
  clear -Hd Hlen Hbig S1 S2 S5 n ncells nbasis.
  unfold nb_nbasis, nb_ncells, nb_npoints. rewrite S1, S2, S5. unfold n in *. rewrite npoints_eq by lia. unfold u64_sub, u64_add.
  rewrite (u64_small (Z.of_nat (length l) - 1)) by lia. unfold nbasis, ncells, n. destruct periodic; rewrite u64_small; lia.
Qed.
Lemma g_first ib : 0 <= ib < 2 ^ 62 -> u64_add (nb_first_support_knot ib) 1 = ib + 1.
Proof. intros. unfold nb_first_support_knot, reference_element. rewrite elem_minus_0 by lia. unfold u64_add. rewrite (u64_small ib) by lia. rewrite (u64_small (0 + ib)) by lia. rewrite u64_small; lia. Qed.
Lemma average_ok (a : arr R) ib : 0 <= ib < nbasis -> ib < a_len a ->
  exists a', ng_average RA s ib a = Ok a' /\ a_len a' = a_len a /\ a_at a' ib = greville t d ib /\ (forall k, k <> ib -> a_at a' k = a_at a k).
Proof.
  clear -Hd Hlen Hbig S1 S2 S5 S6 n ncells nbasis t.
  intros Hib Hl. assert (Hnb : nbasis <= ncells + d) by (unfold nbasis; destruct periodic; lia).
  unfold ng_average. change (num RA) with R in *. rewrite S1. rewrite aset_ok by lia. cbn [rbind]. rewrite g_first by (unfold ncells, n in *; lia). cbn [nofz nadd ndiv RA].
  match goal with |- context [for_range ?lo ?hi ?f ?x] =>
    destruct (for_range_inv (fun ik (b : arr R) => a_len b = a_len a /\ a_at b ib = zsum (ik - (ib + 1)) (fun k => t (ib + 1 + k)%Z) /\ (forall k, k <> ib -> a_at b k = a_at a k)) f lo hi x) as (b & -> & B1 & B2 & B3) end.
  - lia.
  - cbn [a_len a_at]. split; [reflexivity|]. rewrite Z.sub_diag, zsum_0, upd_eq. split; [reflexivity|]. intros. now apply upd_neq.
  - intros ik b Hik (B1 & B2 & B3). rewrite aget_ok by lia. cbn [rbind]. rewrite S6 by (unfold n, ncells in *; lia). cbn [rbind]. rewrite aset_ok by lia.
    eexists. split; [reflexivity|]. cbn [a_len a_at]. split; [exact B1|]. rewrite upd_eq. split; [|intros; rewrite upd_neq by lia; now apply B3].
    rewrite B2. replace (ik + 1 - (ib + 1)) with (ik - (ib + 1) + 1) by lia. rewrite zsum_S by lia. f_equal. f_equal. lia.
  - cbn [rbind]. rewrite aget_ok by lia. cbn [rbind]. rewrite aset_ok by lia. eexists. split; [reflexivity|]. cbn [a_len a_at]. rewrite upd_eq.
    split; [exact B1|]. split; [|intros; rewrite upd_neq by lia; now apply B3]. rewrite greville_zsum by lia. rewrite B2. repeat f_equal. lia.
Qed.
Lemma averages_ok (a : arr R) : nbasis <= a_len a ->
  exists a', for_range 0 (nb_nbasis RA s) (ng_average RA s) a = Ok a' /\ a_len a' = a_len a /\
    (forall k, 0 <= k < nbasis -> a_at a' k = greville t d k) /\ (forall k, nbasis <= k -> a_at a' k = a_at a k).
Proof.
  clear -Hd Hlen Hbig S1 S2 S5 S6 n ncells nbasis t.
  intros Hl. rewrite g_nbasis. assert (Hnb : 1 <= nbasis) by (unfold nbasis, ncells, n; destruct periodic; lia).
  destruct (for_range_inv (fun i (b : arr R) => a_len b = a_len a /\ (forall k, 0 <= k < i -> a_at b k = greville t d k) /\ (forall k, i <= k -> a_at b k = a_at a k))
     (ng_average RA s) 0 nbasis a) as (b & E & B1 & B2 & B3); [lia | repeat split; intros; lia || reflexivity | | eauto].
  intros i b Hi (B1 & B2 & B3). destruct (average_ok b i Hi ltac:(lia)) as (b' & E & C1 & C2 & C3). change (num RA) with R in *. exists b'. split; [exact E|].
  split; [lia|]. split.
  - intros k Hk. destruct (Z.eq_dec k i) as [->|]; [exact C2|]. rewrite C3 by lia. apply B2. lia.
  - intros k Hk. rewrite C3 by lia. apply B3. lia.
Qed.
Lemma g_strict i : (periodic = true \/ (0 <= i /\ i + 1 < ncells + d)) -> (greville t d i < greville t d (i + 1))%R.
Proof.
  clear -Hd Hlen Hs n ncells t.
  intros Hi. pose proof (greville_step t d i Hd) as E. assert (Hp : (0 < IZR d)%R) by (apply IZR_lt; lia).
  assert (H : (t (i + 1)%Z < t (i + d + 1)%Z)%R).
  { destruct periodic eqn:Ep; unfold t, knots.
    - assert (L : forall k, (periodic_knots d l k < periodic_knots d l (k + 1))%R).
      { intros k. pose proof (Z.mod_pos_bound (k - d) ncells ltac:(unfold ncells, n; lia)) as Hm. pose proof (Z.div_mod (k - d) ncells ltac:(unfold ncells, n; lia)) as Hdm.
        set (r := (k - d) mod ncells) in *. set (qq := (k - d) / ncells) in *.
        assert (G : forall m z, knots true d l (z + m * ncells)%Z = (knots true d l z + IZR m * (last_point l - first_point l))%R).
        { intros m z. unfold knots, periodic_knots. fold n. fold ncells. replace (z + m * ncells - d) with (z - d + m * ncells) by ring.
          rewrite Z.mod_add, Z.div_add by (unfold ncells, n; lia). rewrite plus_IZR. ring. }
        change (knots true d l k < knots true d l (k + 1))%R.
        replace k with (d + r + qq * ncells) at 1 by lia. replace (k + 1) with (d + r + 1 + qq * ncells) by lia. rewrite !G.
        pose proof (knots_cell l d Hlen true (d + r) Hs ltac:(unfold ncells, n in *; lia)). lra. }
      apply Rlt_le_trans with (periodic_knots d l (i + 1 + 1)); [apply L|].
      replace (i + d + 1) with (i + 1 + 1 + (d - 1)) by lia. generalize (i + 1 + 1). intros z.
      assert (0 <= d - 1) as Hd1 by lia. pattern (d - 1). apply natlike_ind; [rewrite Z.add_0_r; lra | | exact Hd1].
      intros x Hx IH. replace (z + Z.succ x) with (z + x + 1) by lia. pose proof (L (z + x)). lra.
    - destruct Hi as [|Hi]; [discriminate|]. change (open_knots d l) with (knots false d l).
      assert (Hn : 1 <= ncells) by (unfold ncells, n; lia).
      pose proof (fun a b H => knots_mono l d Hlen false (strict_incr l Hs) a b H) as M.
      destruct (Z_le_gt_dec d (i + 1)) as [G|G].
      + apply Rlt_le_trans with (knots false d l (i + 1 + 1)); [|apply M; lia]. apply knots_cell; try assumption; unfold ncells, n in *; lia.
      + apply Rle_lt_trans with (knots false d l d); [apply M; lia|]. apply Rlt_le_trans with (knots false d l (d + 1)); [|apply M; lia].
        apply knots_cell; try assumption; unfold ncells, n in *; lia. }
  assert (0 < (t (i + d + 1)%Z - t (i + 1)%Z) / IZR d)%R by (apply Rdiv_lt_0_compat; lra). lra.
Qed.
End NU.

Section Open.
Context (d : Z) (l : list R) (s : n_bsplines RA).
Let n := Z.of_nat (length l).
Let ncells := n - 1.
Let t := knots false d l.
Hypothesis Hd : 1 <= d.
Hypothesis Hlen : (2 <= length l)%nat.
Hypothesis Hs : strictly_increasing l.
Hypothesis Hbig : n + 2 * d < 2 ^ 31.
Hypothesis S1 : nb_degree RA s = d.
Hypothesis S2 : nb_periodic RA s = false.
Hypothesis S5 : nb_knot_size RA s = n + 2 * d.
Hypothesis S6 : forall k, 0 <= k < n + 2 * d -> nb_coord RA s k = Ok (t k : num RA).
Lemma open_points : ng_points RA s = Ok (Some (mk_ns RA (points_of (ncells + d) (greville t d)) 0)).
Proof.
  unfold ng_points. rewrite S2. rewrite (g_nbasis d false l s) by assumption.
  destruct (averages_ok d false l s Hd Hlen Hbig S1 S2 S5 S6 (mk_arr (ncells + d) (fun _ => 0%R))) as (a & E & L & H & _); [cbn [a_len]; unfold ncells, n; lia|].
  rewrite (g_nbasis d false l s) in E by assumption. cbn [nofz RA]. fold n ncells in E. fold n ncells. change (num RA) with R in *. rewrite E. cbn [rbind]. f_equal.
  cbn [a_len] in L. fold n ncells t in H. rewrite (arr_list_points a (greville t d)) by (rewrite L; exact H). rewrite L. apply ns_ok.
  apply points_strict. intros i Hi Hi1. apply g_strict; try assumption. right. fold n ncells. lia.
Qed.
Lemma open_first : greville t d 0 = first_point l.
Proof.
  clear -Hd Hlen Hs n ncells t.
  assert (H : (first_point l <= greville t d 0 <= first_point l)%R); [|lra].
  apply greville_bounds; [exact Hd|]. intros k Hk. unfold t. rewrite knots_open_left by (assumption || lia). lra.
Qed.
Lemma open_last : greville t d (ncells + d - 1) = last_point l.
Proof.
  clear -Hd Hlen Hs n ncells t.
  assert (H : (last_point l <= greville t d (ncells + d - 1) <= last_point l)%R); [|lra].
  apply greville_bounds; [exact Hd|]. intros k Hk. unfold t. rewrite knots_open_right by (assumption || unfold ncells, n in *; lia). lra.
Qed.
Lemma open_range i : (first_point l <= greville t d i <= last_point l)%R.
Proof.
  clear -Hd Hlen Hs n ncells t.
  apply greville_bounds; [exact Hd|]. intros k Hk. pose proof (fun a b H => knots_mono l d Hlen false (strict_incr l Hs) a b H) as M.
  unfold t. split.
  - destruct (Z_le_gt_dec k d); [rewrite knots_open_left by (assumption || lia); lra|]. rewrite <- (knots_open_left l d Hlen d) by lia. apply M. lia.
  - destruct (Z_le_gt_dec (d + ncells) k); [rewrite knots_open_right by (assumption || unfold ncells, n in *; lia); lra|].
    rewrite <- (knots_open_right l d Hlen (d + ncells)) by (unfold ncells, n; lia). apply M. lia.
Qed.
End Open.

Section Periodic.
Context (d : Z) (l : list R) (s : n_bsplines RA).
Let n := Z.of_nat (length l).
Let ncells := n - 1.
Let t := knots true d l.
Let L := (last_point l - first_point l)%R.
Hypothesis Hd : 1 <= d.
Hypothesis Hlen : (2 <= length l)%nat.
Hypothesis Hs : strictly_increasing l.
Hypothesis Hbig : n + 2 * d < 2 ^ 31.
Hypothesis Hcells : d <= ncells.
Hypothesis S1 : nb_degree RA s = d.
Hypothesis S2 : nb_periodic RA s = true.
Hypothesis S5 : nb_knot_size RA s = n + 2 * d.
Hypothesis S6 : forall k, 0 <= k < n + 2 * d -> nb_coord RA s k = Ok (t k : num RA).
Hypothesis S7 : nb_rmin RA s = Ok (first_point l : num RA).
Hypothesis S8 : nb_rmax RA s = Ok (last_point l : num RA).
Lemma per_strict i j : i < j -> (greville t d i < greville t d j)%R.
Proof.
  clear -Hd Hlen Hs n ncells t.
  intros Hij. replace j with (i + 1 + (j - i - 1)) by lia. assert (H : 0 <= j - i - 1) by lia. pattern (j - i - 1). apply natlike_ind; [| | exact H].
  - rewrite Z.add_0_r. apply g_strict; try assumption. now left.
  - intros x Hx IH. apply Rlt_trans with (1 := IH). replace (i + 1 + Z.succ x) with (i + 1 + x + 1) by lia. apply g_strict; try assumption. now left.
Qed.
Lemma per_shift i : greville t d (i + ncells) = (greville t d i + L)%R.
Proof. clear -Hd Hlen n ncells t L. apply greville_shift; [exact Hd|]. intros k. unfold t, ncells, n, L. apply knots_period. exact Hlen. Qed.
Lemma per_first_ge : (first_point l <= greville t d (d - 1))%R.
Proof.
  clear -Hd Hlen Hs Hcells n ncells t.
  apply (greville_bounds t d (d - 1) (first_point l) (t (2 * d - 1))); [exact Hd|]. intros k Hk. split.
  - replace (first_point l) with (t d). { apply knots_mono; try assumption; [now apply strict_incr | lia]. }
    unfold t. replace d with (d + 0) at 2 by lia. rewrite knots_break by (assumption || lia). reflexivity.
  - apply knots_mono; try assumption; [now apply strict_incr | lia].
Qed.
Lemma while_shift (a : arr R) : a_len a = ncells + 1 -> (forall k, 0 <= k < ncells -> a_at a k = greville t d k) ->
  exists m temp, ng_shift_loop RA s (first_point l : num RA) (L : num RA) a = Ok (Some (temp, m)) /\ 0 <= m < d /\
   a_len temp = d /\ (forall k, 0 <= k < m -> a_at temp k = greville t d (k + ncells)) /\
   (first_point l <= greville t d m)%R /\ (forall k, k < m -> 0 <= k -> (greville t d k < first_point l)%R).
Proof.
  intros La Ha. unfold ng_shift_loop. rewrite S1. change (num RA) with R in *.
  match goal with |- context [while_ ?fuel ?c ?b ?st] => set (cond := c); set (body := b) end.
  assert (G : forall fuel k temp, (Z.to_nat d - Z.to_nat k <= fuel)%nat -> 0 <= k < d -> a_len temp = d ->
     (forall j, 0 <= j < k -> a_at temp j = greville t d (j + ncells)) -> (forall j, j < k -> 0 <= j -> (greville t d j < first_point l)%R) ->
     exists m temp', while_ fuel cond body (temp, k) = Ok (Some (temp', m)) /\ 0 <= m < d /\ a_len temp' = d /\
     (forall j, 0 <= j < m -> a_at temp' j = greville t d (j + ncells)) /\
     (first_point l <= greville t d m)%R /\ (forall j, j < m -> 0 <= j -> (greville t d j < first_point l)%R)).
  { induction fuel as [|fuel IH]; intros k temp Hf Hk Ht1 Ht2 Hlow; [lia|].
    cbn [while_]. unfold cond at 1. cbn [snd]. rewrite aget_ok by lia. cbn [rbind]. rewrite Ha by (unfold ncells in *; lia). cbn [nltb RA].
    destruct (Rlt_dec (greville t d k) (first_point l)) as [Hlt|Hge].
    - rewrite R_ltb_true by exact Hlt. cbn [rbind]. unfold body at 1. cbn [fst snd]. unfold assert_. replace (k <? d) with true by (symmetry; apply Z.ltb_lt; lia).
      rewrite aget_ok by lia. cbn [rbind]. rewrite aset_ok by lia. cbn [rbind]. rewrite Ha by (unfold ncells in *; lia). cbn [nadd RA].
      assert (Hk1 : k + 1 < d).
      { destruct (Z.eq_dec k (d - 1)) as [E|]; [|lia]. pose proof per_first_ge as P. rewrite <- E in P. lra. }
      apply IH; cbn [a_len a_at]; try lia.
      + intros j Hj. destruct (Z.eq_dec j k) as [->|]; [rewrite upd_eq, per_shift; reflexivity|]. rewrite upd_neq by lia. apply Ht2. lia.
      + intros j Hj Hj0. destruct (Z.eq_dec j k) as [->|]; [exact Hlt|]. apply Hlow; lia.
    - rewrite R_ltb_false by lra. exists k, temp. repeat split; try assumption; try lia. lra. }
  destruct (G (Z.to_nat d + 1)%nat 0 (mk_arr d (fun _ => 0%R))) as (m & temp & E & H); cbn [a_len]; try lia; try (intros; lia).
  exists m, temp. split; [exact E|exact H].
Qed.
Lemma periodic_points : exists m, 0 <= m < d /\
  ng_points RA s = Ok (Some (mk_ns RA (points_of (ncells + 1) (fun k => greville t d (k + m))) 0)) /\
  (forall k, 0 <= k < ncells -> (first_point l <= greville t d (k + m) < last_point l)%R).
Proof.
  assert (Hn1 : nb_nbasis RA s = ncells) by (rewrite (g_nbasis d true l s) by assumption; reflexivity).
  unfold ng_points. rewrite S2, Hn1. unfold u64_add. rewrite u64_small by (unfold ncells, n in *; lia).
  destruct (averages_ok d true l s Hd Hlen Hbig S1 S2 S5 S6 (mk_arr (ncells + 1) (fun _ => 0%R))) as (a & E & La & Ha & _); [cbn [a_len]; unfold ncells, n; lia|].
  fold n ncells in Ha. fold t in Ha. cbn [a_len] in La. rewrite Hn1 in E.
  destruct (while_shift a La Ha) as (m & temp & W & Hm & Lt & Ht & Hge & Hlow).
  exists m. split; [exact Hm|].
  assert (Hrange : forall k, 0 <= k < ncells -> (first_point l <= greville t d (k + m) < last_point l)%R).
  { intros k Hk. split.
    - destruct (Z.eq_dec k 0) as [->|]; [exact Hge|]. apply Rle_trans with (1 := Hge). apply Rlt_le, per_strict. lia.
    - assert (Hprev : (greville t d (m - 1) < first_point l)%R).
      { destruct (Z.eq_dec m 0) as [->|]; [|apply Hlow; lia].
        apply Rle_lt_trans with (t (d - 1)).
        - apply (greville_bounds t d (0 - 1) (t 0) (t (d - 1)) Hd). intros j Hj. split; (apply knots_mono; [exact Hlen | now apply strict_incr | lia]).
        - assert (Ef : first_point l = t d) by (unfold t; replace d with (d + 0) at 2 by lia; rewrite knots_break by (assumption || lia); reflexivity).
          rewrite Ef. replace (t (d - 1)) with (t (d - 1 + ncells) - L)%R by (unfold t, ncells, n, L; rewrite knots_period by exact Hlen; ring).
          replace (t d) with (t (d + ncells) - L)%R by (unfold t, ncells, n, L; rewrite knots_period by exact Hlen; ring).
          replace (d - 1 + ncells) with (d + (ncells - 1)) by lia. unfold t. rewrite !knots_break by (exact Hlen || unfold ncells, n in *; lia).
          assert (nth (Z.to_nat (ncells - 1)) l 0 < nth (Z.to_nat ncells) l 0)%R by (apply strict_nth; [exact Hlen | exact Hs | unfold ncells, n in *; lia]). lra. }
      assert (Hle : (greville t d (k + m) <= greville t d (m - 1 + ncells))%R).
      { destruct (Z.eq_dec (k + m) (m - 1 + ncells)) as [->|]; [lra|]. apply Rlt_le, per_strict. lia. }
      rewrite per_shift in Hle. unfold L in Hle. lra. }
  split; [|exact Hrange].
  cbn [nofz RA]. change (num RA) with R in *. rewrite E. cbn [rbind]. unfold ng_periodic. change (num RA) with R in *.
  rewrite S7, S8. cbn [rbind nsub RA]. fold L. change (num RA) with R in *. rewrite W. cbn [rbind]. rewrite Hn1. unfold u64_sub. rewrite (u64_small (ncells - m)) by (unfold ncells, n in *; lia).
  assert (Emn : forall i, 0 <= i < m -> u64_add (ncells - m) i = ncells - m + i) by (intros; unfold u64_add; rewrite u64_small; unfold ncells, n in *; lia).
  destruct (for_range_inv (fun i (b : arr R) => a_len b = ncells + 1 /\ (forall k, 0 <= k < i -> a_at b k = greville t d (k + m)) /\ (forall k, i <= k < ncells -> a_at b k = greville t d k))
     (fun i points => v <- aget points (i + m) ;; aset points i v) 0 (ncells - m) a) as (b & -> & B1 & B2 & B3).
  { lia. } { repeat split; [exact La | intros; lia | intros; apply Ha; lia]. }
  { intros i b Hi (B1 & B2 & B3). rewrite aget_ok by lia. cbn [rbind]. rewrite aset_ok by lia. eexists. split; [reflexivity|]. cbn [a_len a_at]. split; [exact B1|]. split.
    - intros k Hk. destruct (Z.eq_dec k i) as [->|]; [rewrite upd_eq; apply B3; lia|]. rewrite upd_neq by lia. apply B2. lia.
    - intros k Hk. rewrite upd_neq by lia. apply B3. lia. }
  cbn [rbind].
  destruct (for_range_inv (fun i (c : arr R) => a_len c = ncells + 1 /\ (forall k, 0 <= k < ncells - m + i -> a_at c k = greville t d (k + m)))
     (fun i points => v <- aget temp i ;; aset points (u64_add (ncells - m) i) v) 0 m b) as (c & -> & C1 & C2).
  { lia. } { split; [exact B1|]. intros k Hk. apply B2. lia. }
  { intros i c Hi (C1 & C2). rewrite aget_ok by lia. cbn [rbind]. rewrite Emn by lia. rewrite aset_ok by lia. eexists. split; [reflexivity|]. cbn [a_len a_at]. split; [exact C1|].
    intros k Hk. destruct (Z.eq_dec k (ncells - m + i)) as [->|]; [rewrite upd_eq, Ht by lia; f_equal; lia|]. rewrite upd_neq by lia. apply C2. lia. }
  cbn [rbind]. rewrite aget_ok by lia. cbn [rbind]. rewrite aset_ok by lia. cbn [rbind nadd RA]. f_equal.
  rewrite (arr_list_points _ (fun k => greville t d (k + m))).
  2: { cbn [a_len a_at]. intros k Hk. destruct (Z.eq_dec k ncells) as [->|].
       - replace (a_len c - 1) with ncells by lia. rewrite upd_eq, C2 by lia. rewrite <- per_shift. f_equal. lia.
       - rewrite upd_neq by lia. apply C2. lia. }
  cbn [a_len]. rewrite C1. apply ns_ok. apply points_strict. intros i Hi Hi1. apply per_strict. lia.
Qed.
End Periodic.
