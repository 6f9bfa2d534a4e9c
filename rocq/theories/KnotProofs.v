(** The knots of non-uniform B-splines. *)
From Coq Require Import Bool Reals Lia Lra ZifyBool List.
From Verif Require Import BSplineModel BSplineSpec LoopProofs BSplineMath BSplineDeriv BSplineProofs SamplingSpec SamplingProofs CellProofs.
Import ListNotations.
Local Open Scope bool_scope. Local Open Scope Z_scope.

Section Knots.
Context (l : list R) (d : Z).
Hypothesis Hd : 0 <= d.
Hypothesis Hlen : (2 <= length l)%nat.
Let n := Z.of_nat (length l).
Let ncells := n - 1.
Lemma nc_pos : 1 <= ncells. Proof. unfold ncells, n. lia. Qed.
Lemma knots_break periodic k : 0 <= k < n -> knots periodic d l (d + k) = nth (Z.to_nat k) l 0%R.
Proof.
  intros Hk. unfold knots, periodic_knots, open_knots. cbv zeta. fold n. fold ncells. destruct periodic; cbv beta; replace (d + k - d) with k by ring.
  - destruct (Z.eq_dec k ncells) as [->|].
    + rewrite Z_mod_same_full, Z_div_same_full by (pose proof nc_pos; lia). unfold last_point, first_point.
      replace (length l - 1)%nat with (Z.to_nat ncells) by (unfold ncells, n; lia). change (Z.to_nat 0) with 0%nat. ring.
    + rewrite Z.mod_small, Z.div_small by (unfold ncells in *; lia). ring.
  - f_equal. unfold n in *. lia.
Qed.
Lemma knots_period k : knots true d l (k + ncells) = (knots true d l k + (last_point l - first_point l))%R.
Proof.
  unfold knots, periodic_knots. cbv zeta. fold n. fold ncells. pose proof nc_pos.
  replace (k + ncells - d) with (k - d + 1 * ncells) by ring. rewrite Z.mod_add, Z.div_add by lia. rewrite plus_IZR. ring.
Qed.
Lemma knots_open_left k : k <= d -> knots false d l k = first_point l.
Proof. intros. unfold knots, open_knots, first_point. f_equal. lia. Qed.
Lemma knots_open_right k : d + ncells <= k -> knots false d l k = last_point l.
Proof. intros. unfold knots, open_knots, last_point. f_equal. unfold ncells, n in *. lia. Qed.

(** *** filling the vector *)
Definition same_on (t : Z -> R) (lo hi : Z) (a : arr R) : Prop := a_len a = n + 2 * d /\ forall k, lo <= k <= hi -> a_at a k = t k.
Lemma nth_z_nth k : 0 <= k < n -> nth_z RA l k = Ok (nth (Z.to_nat k) l 0%R : num RA).
Proof.
  intros Hk. replace k with (Z.of_nat (Z.to_nat k)) at 1 by lia. apply nth_z_ok. apply nth_error_nth'. unfold n in Hk. lia.
Qed.
Lemma fill_breaks (junk : Z -> R) periodic :
  exists a, for_range 0 n (fun ii (kn : arr (num RA)) => v <- nth_z RA l ii ;; aset kn (d + ii) v) (mk_arr (n + 2 * d) junk) = Ok a /\
    same_on (knots periodic d l) d (d + ncells) a.
Proof.
  destruct (for_range_inv
    (fun i (a : arr (num RA)) => a_len a = n + 2 * d /\ forall k, d <= k < d + i -> a_at a k = knots periodic d l k)
    (fun ii (kn : arr (num RA)) => v <- nth_z RA l ii ;; aset kn (d + ii) v) 0 n (mk_arr (n + 2 * d) junk)) as (a & E & H1 & H2).
  - unfold n. lia.
  - split; [reflexivity | intros; lia].
  - intros i a Hi (H1 & H2). change (num RA) with R in *. rewrite nth_z_nth by exact Hi. cbn [rbind]. rewrite (aset_ok a) by lia.
    eexists. split; [reflexivity|]. cbn [a_len a_at]. split; [exact H1|]. intros k Hk. destruct (Z.eq_dec k (d + i)) as [->|].
    + rewrite upd_eq. rewrite knots_break by lia. reflexivity.
    + rewrite upd_neq by lia. apply H2. lia.
  - exists a. split; [exact E|]. split; [exact H1|]. intros k Hk. apply H2. unfold ncells in Hk. lia.
Qed.
Lemma fill_periodic (a : arr R) : same_on (knots true d l) d (d + ncells) a ->
  exists a', nb_fill_periodic RA d ncells (last_point l - first_point l)%R a = Ok a' /\ same_on (knots true d l) 0 (n + 2 * d - 1) a'.
Proof.
  intros (La & Ha). unfold nb_fill_periodic. pose proof nc_pos as Hn.
  destruct (for_range_inv
    (fun i (b : arr (num RA)) => same_on (knots true d l) (d - i + 1) (d + ncells + i - 1) b)
    (fun i (kn : arr (num RA)) =>
      u <- aget kn (d + ncells - i) ;;
      kn <- aset kn (d - i) (nsub RA u (last_point l - first_point l)%R) ;;
      v <- aget kn (d + i) ;;
      aset kn (d + ncells + i) (nadd RA v (last_point l - first_point l)%R)) 1 (d + 1) a) as (a' & E & H).
  - lia.
  - split; [exact La|]. intros k Hk. apply Ha. lia.
  - intros i b Hi (Lb & Hb). change (num RA) with R in *. assert (n = ncells + 1) by (unfold ncells; ring).
    rewrite (aget_ok b) by lia. cbn [rbind]. rewrite (aset_ok b) by lia. cbn [rbind]. rewrite aget_ok by (cbn [a_len]; lia). cbn [rbind].
    rewrite aset_ok by (cbn [a_len]; lia). eexists. split; [reflexivity|]. split; [exact Lb|]. cbn [a_len a_at nadd nsub RA].
    assert (K1 : (a_at b (d + ncells - i) - (last_point l - first_point l) = knots true d l (d - i))%R).
    { rewrite Hb by lia. replace (d + ncells - i) with (d - i + ncells) by ring. rewrite knots_period. ring. }
    assert (K2 : upd (a_at b) (d - i) (a_at b (d + ncells - i) - (last_point l - first_point l))%R (d + i) = knots true d l (d + i)).
    { rewrite upd_neq by lia. apply Hb. lia. }
    rewrite K2, K1. replace (knots true d l (d + i) + (last_point l - first_point l))%R with (knots true d l (d + ncells + i)).
    2: { replace (d + ncells + i) with (d + i + ncells) by ring. apply knots_period. }
    intros k Hk. unfold upd. destruct (k =? d + ncells + i) eqn:E1; [f_equal; lia|]. destruct (k =? d - i) eqn:E2; [f_equal; lia|]. apply Hb. lia.
  - exists a'. split; [exact E|]. destruct H as (H1 & H2). split; [exact H1|]. intros k Hk. apply H2. unfold ncells. lia.
Qed.
Lemma fill_open (a : arr R) : same_on (knots false d l) d (d + ncells) a ->
  exists a', nb_fill_open RA d n (first_point l) (last_point l) a = Ok a' /\ same_on (knots false d l) 0 (n + 2 * d - 1) a'.
Proof.
  intros (La & Ha). unfold nb_fill_open. pose proof nc_pos as Hn.
  destruct (for_range_inv
    (fun i (b : arr (num RA)) => same_on (knots false d l) (d - i + 1) (d + ncells + i - 1) b)
    (fun i (kn : arr (num RA)) =>
      kn <- aset kn (d - i) (first_point l : num RA) ;;
      aset kn (d + n - 1 + i) (last_point l : num RA)) 1 (d + 1) a) as (a' & E & H).
  - lia.
  - split; [exact La|]. intros k Hk. apply Ha. lia.
  - intros i b Hi (Lb & Hb). change (num RA) with R in *. assert (n = ncells + 1) by (unfold ncells; ring).
    rewrite (aset_ok b) by lia. cbn [rbind]. rewrite aset_ok by (cbn [a_len]; lia). eexists. split; [reflexivity|]. split; [exact Lb|].
    cbn [a_len a_at]. intros k Hk. unfold upd. destruct (k =? d + n - 1 + i) eqn:E1; [rewrite knots_open_right by lia; reflexivity|].
    destruct (k =? d - i) eqn:E2; [rewrite knots_open_left by lia; reflexivity|]. apply Hb. lia.
  - exists a'. split; [exact E|]. destruct H as (H1 & H2). split; [exact H1|]. intros k Hk. apply H2. unfold ncells. lia.
Qed.

(** *** order *)
Lemma increasing_nth : increasing l -> forall i j, (i <= j < length l)%nat -> (nth i l 0 <= nth j l 0)%R.
Proof.
  intros H i j Hij. destruct (Nat.eq_dec i j) as [->|]; [lra|]. apply (H i j); [lia | apply nth_error_nth'; lia | apply nth_error_nth'; lia].
Qed.
Lemma strict_nth : strictly_increasing l -> forall i j, (i < j < length l)%nat -> (nth i l 0 < nth j l 0)%R.
Proof. intros H i j Hij. apply (H i j); [lia | apply nth_error_nth'; lia | apply nth_error_nth'; lia]. Qed.
Lemma strict_incr : strictly_increasing l -> increasing l.
Proof. intros H i j x y Hij Hi Hj. left. now apply (H i j). Qed.
Lemma step_mono (t : Z -> R) : (forall k, (t k <= t (k + 1)%Z)%R) -> forall a b, a <= b -> (t a <= t b)%R.
Proof.
  intros H a b Hab. assert (G : forall m, 0 <= m -> (t a <= t (a + m)%Z)%R).
  { intros m Hm. pattern m. apply natlike_ind; [rewrite Z.add_0_r; lra | | exact Hm]. clear m Hm. intros m Hm IH.
    replace (a + Z.succ m) with (a + m + 1) by lia. specialize (H (a + m)). lra. }
  replace b with (a + (b - a)) by ring. apply G. lia.
Qed.
Lemma knots_step periodic : increasing l -> forall k, (knots periodic d l k <= knots periodic d l (k + 1)%Z)%R.
Proof.
  intros Hi k. pose proof (increasing_nth Hi) as Hm. destruct periodic; unfold knots.
  - unfold periodic_knots. cbv zeta. fold n. fold ncells. pose proof nc_pos as Hn. set (m := k - d). replace (k + 1 - d) with (m + 1) by (unfold m; ring).
    pose proof (Z.div_mod m ncells ltac:(lia)) as E. pose proof (Z.mod_pos_bound m ncells ltac:(lia)) as B.
    set (q := m / ncells) in *. set (r := m mod ncells) in *.
    destruct (Z.eq_dec r (ncells - 1)) as [E1|E1].
    + assert (Em : m + 1 = (q + 1) * ncells) by lia. rewrite Em. rewrite Z.mod_mul, Z.div_mul by lia. rewrite plus_IZR.
      assert (K : (nth (Z.to_nat r) l 0 <= last_point l)%R) by (apply Hm; unfold ncells, n in *; lia).
      change (Z.to_nat 0) with 0%nat. unfold first_point in *. lra.
    + assert (Em : m + 1 = r + 1 + q * ncells) by lia. rewrite Em. rewrite Z.mod_add, Z.div_add by lia.
      rewrite Z.mod_small, Z.div_small by lia. rewrite Z.add_0_l.
      assert (K : (nth (Z.to_nat r) l 0 <= nth (Z.to_nat (r + 1)) l 0)%R) by (apply Hm; unfold ncells, n in *; lia). lra.
  - unfold open_knots. apply Hm. lia.
Qed.
Lemma knots_mono periodic : increasing l -> forall a b, a <= b -> (knots periodic d l a <= knots periodic d l b)%R.
Proof. intros Hi. apply step_mono. now apply knots_step. Qed.
Lemma knots_cell periodic c : strictly_increasing l -> d <= c < d + ncells -> (knots periodic d l c < knots periodic d l (c + 1)%Z)%R.
Proof.
  intros Hs Hc. replace c with (d + (c - d)) at 1 by ring. replace (c + 1) with (d + (c + 1 - d)) by ring.
  rewrite !knots_break by (unfold ncells in Hc; lia). apply strict_nth; [exact Hs | unfold ncells, n in *; lia].
Qed.
Lemma first_last : strictly_increasing l -> (first_point l < last_point l)%R.
Proof. intros Hs. unfold first_point, last_point. apply strict_nth; [exact Hs | lia]. Qed.

(** *** the constructor *)
Hypothesis Hbig : n + 2 * d < 2 ^ 31.
Lemma npoints_eq : npoints_of (n + 2 * d) d = n.
Proof.
  unfold npoints_of, u64_sub, u64_mul. rewrite (u64_small (n + 2 * d)), (u64_small (2 * d)) by (unfold n in *; lia).
  rewrite u64_small; unfold n in *; lia.
Qed.
Lemma ncells_eq : ncells_of (n + 2 * d) d = ncells.
Proof. unfold ncells_of. rewrite npoints_eq. unfold u64_sub. apply u64_small. unfold ncells, n in *. lia. Qed.
Lemma arr_list_nth (a : arr R) k : 0 <= k < a_len a -> nth_error (arr_list a) (Z.to_nat k) = Some (a_at a k).
Proof.
  intros H. unfold arr_list. erewrite map_nth_error; [|apply nth_error_nth' with (d := O); rewrite seq_length; lia].
  rewrite seq_nth by lia. do 2 f_equal. lia.
Qed.
Lemma arr_list_len (a : arr R) : 0 <= a_len a -> Z.of_nat (length (arr_list a)) = a_len a.
Proof. intros. unfold arr_list. rewrite map_length, seq_length. lia. Qed.
Lemma filled_knots periodic (junk : Z -> R) : (first_point l < last_point l)%R ->
  exists a, same_on (knots periodic d l) 0 (n + 2 * d - 1) a /\
    nb_construct RA junk d periodic l =
      match ns_construct RA (arr_list a) with
      | None => Ok None
      | Some k => Ok (Some (mk_nb RA d periodic k (n + 2 * d) d n))
      end.
Proof.
  intros Hfl. unfold nb_construct. cbv zeta. change (num RA) with R. fold n.
  destruct (fill_breaks junk periodic) as (a & E & La & Ha). change (num RA) with R in *. rewrite E. cbn [rbind].
  pose proof nc_pos. assert (En : n = ncells + 1) by (unfold ncells; ring).
  rewrite (aget_ok a) by lia. cbn [rbind]. rewrite (aget_ok a) by lia. cbn [rbind].
  assert (E0 : a_at a d = first_point l).
  { rewrite Ha by lia. replace d with (d + 0) at 2 by ring. rewrite knots_break by lia. reflexivity. }
  assert (E1 : a_at a (n + d - 1) = last_point l).
  { rewrite Ha by lia. replace (n + d - 1) with (d + (n - 1)) by ring. rewrite knots_break by lia. unfold last_point. f_equal. unfold n. lia. }
  rewrite E0, E1. unfold assert_. cbn [nltb RA]. rewrite R_ltb_true by exact Hfl.
  rewrite ncells_eq, npoints_eq. cbn [nsub RA].
  destruct periodic.
  - destruct (fill_periodic a (conj La Ha)) as (a' & E' & H'). exists a'. split; [exact H'|]. rewrite E'. reflexivity.
  - destruct (fill_open a (conj La Ha)) as (a' & E' & H'). exists a'. split; [exact H'|]. rewrite E'. reflexivity.
Qed.
Lemma construct_ok periodic (junk : Z -> R) : increasing l -> (first_point l < last_point l)%R ->
  exists s, nb_construct RA junk d periodic l = Ok (Some s) /\
    nb_degree RA s = d /\ nb_periodic RA s = periodic /\ nb_break_front RA s = d /\ nb_break_size RA s = n /\ nb_knot_size RA s = n + 2 * d /\
    (forall k, 0 <= k < n + 2 * d -> nb_coord RA s k = Ok (knots periodic d l k : num RA)).
Proof.
  intros Hi Hfl. destruct (filled_knots periodic junk Hfl) as (a & (La & Ha) & E).
  assert (Hsort : is_sorted RA (arr_list a) = true).
  { apply is_sorted_iff. intros i j x y Hij Hx Hy.
    assert (B : forall i0 x0, nth_error (arr_list a) i0 = Some x0 -> x0 = knots periodic d l (Z.of_nat i0)).
    { intros i0 x0 H0. assert (i0 < length (arr_list a))%nat by (apply nth_error_Some; congruence).
      pose proof (arr_list_len a ltac:(unfold n in *; lia)). pose proof (arr_list_nth a (Z.of_nat i0) ltac:(lia)) as Hq.
      rewrite Nat2Z.id in Hq. rewrite H0 in Hq. injection Hq as ->. apply Ha. lia. }
    rewrite (B i x Hx), (B j y Hy). apply knots_mono; [exact Hi | lia]. }
  unfold ns_construct in E. change (num RA) with R in *. rewrite Hsort in E. eexists. split; [exact E|].
  cbn [nb_degree nb_periodic nb_break_front nb_break_size nb_knot_size]. repeat (split; [reflexivity|]).
  intros k Hk. unfold nb_coord. cbn [nb_knots]. unfold reference_element.
  pose proof (arr_list_len a ltac:(unfold n in *; lia)) as Hal. change (num RA) with R in *. apply ns_coordinate_ok'; [unfold small; change (num RA) with R; rewrite Hal; lia | lia|].
  rewrite arr_list_nth by lia. apply f_equal. apply Ha. lia.
Qed.
(** Break points that are not sorted are refused. *)
Lemma construct_unsorted periodic (junk : Z -> R) : ~ increasing l -> (first_point l < last_point l)%R ->
  nb_construct RA junk d periodic l = Ok None.
Proof.
  intros Hi Hfl. destruct (filled_knots periodic junk Hfl) as (a & (La & Ha) & E). rewrite E.
  assert (Hsort : is_sorted RA (arr_list a) = false).
  { destruct (is_sorted RA (arr_list a)) eqn:S; [|reflexivity]. exfalso. apply Hi. apply is_sorted_iff in S.
    intros i j x y Hij Hx Hy. assert (i < length l)%nat by (apply nth_error_Some; congruence). assert (j < length l)%nat by (apply nth_error_Some; congruence).
    assert (B : forall i0 x0, (i0 < length l)%nat -> nth_error l i0 = Some x0 -> nth_error (arr_list a) (Z.to_nat (d + Z.of_nat i0)) = Some x0).
    { intros i0 x0 Hi0 Hz. rewrite arr_list_nth by (unfold n in *; lia). rewrite Ha by (unfold n in *; lia). rewrite knots_break by (unfold n; lia).
      rewrite Nat2Z.id. f_equal. now apply nth_error_nth. }
    apply (S (Z.to_nat (d + Z.of_nat i)) (Z.to_nat (d + Z.of_nat j)) x y); [lia | now apply B | now apply B]. }
  unfold ns_construct. change (num RA) with R in *. rewrite Hsort. reflexivity.
Qed.
End Knots.
