(** The knots of non-uniform B-splines built in binary64. *)
From Coq Require Import Bool Reals Lia Lra Psatz ZifyBool List Floats.SpecFloat.
From Flocq Require Import Core.
From Verif Require Import BSplineModel BSplineSpec LoopProofs SamplingSpec SamplingProofs CellProofs FloatLink FloatCell FloatCell2 FloatCell3 FloatBasis FloatStep.
Import ListNotations.
Local Open Scope bool_scope. Local Open Scope Z_scope.

Section Generic.
Context (A : arith) (l : list (num A)) (d : Z).
Let n := Z.of_nat (length l).
Hypothesis Hd : 0 <= d.
Hypothesis Hlen : 2 <= n.
Hypothesis Hbig : n + 2 * d < 2 ^ 31.
Definition outer (periodic : bool) (a : arr (num A)) (i : Z) : Prop :=
  if periodic then a_at a (d - i) = nsub A (a_at a (d + (n - 1) - i)) (nsub A (a_at a (d + (n - 1))) (a_at a d)) /\
                   a_at a (d + (n - 1) + i) = nadd A (a_at a (d + i)) (nsub A (a_at a (d + (n - 1))) (a_at a d))
  else a_at a (d - i) = a_at a d /\ a_at a (d + (n - 1) + i) = a_at a (d + (n - 1)).
Notation keeps := (keeps A l d).
Lemma keeps_at a b k : keeps a -> keeps b -> d <= k < d + n -> a_at a k = a_at b k.
Proof.
  intros (_ & Ha) (_ & Hb) Hk. destruct (nth_error l (Z.to_nat (k - d))) as [v|] eqn:E.
  - replace k with (d + Z.of_nat (Z.to_nat (k - d))) by lia. now rewrite (Ha _ _ E), (Hb _ _ E).
  - apply nth_error_None in E. unfold n in Hk. lia.
Qed.
Lemma g_outer (periodic : bool) (a : arr (num A)) : keeps a ->
  exists a', (if periodic then nb_fill_periodic A d (n - 1) (nsub A (a_at a (d + (n - 1))) (a_at a d)) a else nb_fill_open A d n (a_at a d) (a_at a (d + (n - 1))) a) = Ok a' /\
    keeps a' /\ (forall i, 1 <= i <= d -> outer periodic a' i).
Proof.
  intros Ha. set (x0 := a_at a d). set (x1 := a_at a (d + (n - 1))).
  assert (K0 : forall b, keeps b -> a_at b d = x0) by (intros b Hb; apply keeps_at; [exact Hb | exact Ha | lia]).
  assert (K1 : forall b, keeps b -> a_at b (d + (n - 1)) = x1) by (intros b Hb; apply keeps_at; [exact Hb | exact Ha | lia]).
  destruct periodic.
  - unfold nb_fill_periodic. match goal with |- context [for_range 1 (d + 1) ?f _] => set (body := f) end.
    destruct (for_range_inv (fun i b => keeps b /\ forall k, 1 <= k < i -> outer true b k) body 1 (d + 1) a) as (a' & E & H1 & H2).
    + lia.
    + split; [exact Ha | intros; lia].
    + intros i b Hi (Hb & Ho). pose proof Hb as (Lb & Kb). fold n in Lb. unfold body. rewrite (aget_ok b) by lia. cbn [rbind]. rewrite (aset_ok b) by lia. cbn [rbind].
      rewrite aget_ok by (cbn [a_len]; lia). cbn [rbind]. rewrite aset_ok by (cbn [a_len]; lia). eexists. split; [reflexivity|]. cbn [a_at a_len].
      assert (Kn : keeps (mk_arr (a_len b) (upd (upd (a_at b) (d - i) (nsub A (a_at b (d + (n - 1) - i)) (nsub A x1 x0))) (d + (n - 1) + i) (nadd A (upd (a_at b) (d - i) (nsub A (a_at b (d + (n - 1) - i)) (nsub A x1 x0)) (d + i)) (nsub A x1 x0))))).
      { split; [exact Lb|]. cbn [a_at]. intros k v Hv. pose proof (keeps_index A l d k v Hv) as Hk. fold n in Hk. rewrite !upd_neq by lia. now apply Kb. }
      split; [exact Kn|]. intros k Hk. unfold outer. rewrite (K0 _ Kn), (K1 _ Kn). cbn [a_at]. destruct (Z.eq_dec k i) as [->|Hne].
      * rewrite upd_eq. rewrite !(upd_neq _ (d + (n - 1) + i)) by lia. rewrite upd_eq. rewrite !upd_neq by lia. split; reflexivity.
      * rewrite !upd_neq by lia. pose proof (Ho k ltac:(lia)) as H. unfold outer in H. now rewrite (K0 _ Hb), (K1 _ Hb) in H.
    + exists a'. split; [exact E|]. split; [exact H1|]. intros i Hi. apply H2. lia.
  - unfold nb_fill_open. match goal with |- context [for_range 1 (d + 1) ?f _] => set (body := f) end.
    destruct (for_range_inv (fun i b => keeps b /\ forall k, 1 <= k < i -> outer false b k) body 1 (d + 1) a) as (a' & E & H1 & H2).
    + lia.
    + split; [exact Ha | intros; lia].
    + intros i b Hi (Hb & Ho). pose proof Hb as (Lb & Kb). fold n in Lb. unfold body. rewrite (aset_ok b) by lia. cbn [rbind]. rewrite aset_ok by (cbn [a_len]; lia). eexists. split; [reflexivity|]. cbn [a_at a_len].
      assert (Kn : keeps (mk_arr (a_len b) (upd (upd (a_at b) (d - i) x0) (d + n - 1 + i) x1))).
      { split; [exact Lb|]. cbn [a_at]. intros k v Hv. pose proof (keeps_index A l d k v Hv) as Hk. fold n in Hk. rewrite !upd_neq by lia. now apply Kb. }
      split; [exact Kn|]. intros k Hk. unfold outer. rewrite (K0 _ Kn), (K1 _ Kn). cbn [a_at]. destruct (Z.eq_dec k i) as [->|Hne].
      * replace (d + (n - 1) + i) with (d + n - 1 + i) by ring. rewrite upd_eq. rewrite upd_neq by lia. rewrite upd_eq. split; reflexivity.
      * rewrite !upd_neq by lia. pose proof (Ho k ltac:(lia)) as H. unfold outer in H. now rewrite (K0 _ Hb), (K1 _ Hb) in H.
    + exists a'. split; [exact E|]. split; [exact H1|]. intros i Hi. apply H2. lia.
Qed.
(** What the constructor does: the knots are computed, and it throws when they are not sorted. *)
Lemma g_full junk (periodic : bool) x0 x1 : nth_error l 0 = Some x0 -> nth_error l (length l - 1) = Some x1 -> nltb A x0 x1 = true ->
  exists a, keeps a /\ (forall i, 1 <= i <= d -> outer periodic a i) /\
    nb_construct A junk d periodic l = Ok (if is_sorted A (arr_list a) then Some (mk_nb A d periodic (mk_ns A (arr_list a) 0) (n + 2 * d) d n) else None).
Proof.
  intros H0 H1 Hlt. unfold nb_construct. cbv zeta. fold n. destruct (g_fill A l d Hd ltac:(fold n; lia) junk) as (a & Ea & Ha). fold n in Ea. rewrite Ea. cbn [rbind]. pose proof Ha as (La & Ka). fold n in La.
  rewrite (aget_ok a) by lia. cbn [rbind]. rewrite (aget_ok a) by lia. cbn [rbind]. replace (n + d - 1) with (d + (n - 1)) by ring.
  assert (E0 : a_at a d = x0) by (rewrite <- (Ka O x0 H0); f_equal; lia).
  assert (E1 : a_at a (d + (n - 1)) = x1) by (rewrite <- (Ka _ x1 H1); f_equal; unfold n in *; lia).
  unfold assert_. rewrite E0, E1, Hlt.
  assert (En : npoints_of (n + 2 * d) d = n).
  { unfold npoints_of, u64_sub, u64_mul. rewrite (u64_small (n + 2 * d)), (u64_small (2 * d)) by lia. rewrite u64_small; lia. }
  assert (Ec : ncells_of (n + 2 * d) d = n - 1) by (unfold ncells_of; rewrite En; unfold u64_sub; apply u64_small; lia).
  destruct (g_outer periodic a Ha) as (a' & Ea' & Ha' & Ho). rewrite E0, E1 in Ea'. exists a'. split; [exact Ha'|]. split; [exact Ho|].
  rewrite En, Ec, Ea'. cbn [rbind]. unfold ns_construct. destruct (is_sorted A (arr_list a')); reflexivity.
Qed.
Lemma g_coord (a : arr (num A)) periodic k : a_len a = n + 2 * d -> 0 <= k < n + 2 * d -> nb_coord A (mk_nb A d periodic (mk_ns A (arr_list a) 0) (n + 2 * d) d n) k = Ok (a_at a k).
Proof.
  intros La Hk. unfold nb_coord. cbn [nb_knots]. unfold ns_coordinate. cbn [ns_front ns_points]. rewrite elem_minus_0 by lia. unfold nth_z. replace (k <? 0) with false by lia.
  unfold arr_list. erewrite map_nth_error; [|apply nth_error_nth' with (d := O); rewrite seq_length; lia]. rewrite seq_nth by lia. f_equal. f_equal. lia.
Qed.
End Generic.
Lemma sorted_at (A : arith) (a : arr (num A)) : is_sorted A (arr_list a) = true <-> (forall k, 0 <= k -> k + 1 < a_len a -> nltb A (a_at a (k + 1)) (a_at a k) = false).
Proof.
  unfold arr_list. set (m := Z.to_nat (a_len a)).
  assert (G : forall p q, is_sorted A (map (fun k => a_at a (Z.of_nat k)) (seq q p)) = true <-> (forall k, (q <= k)%nat -> (k + 1 < q + p)%nat -> nltb A (a_at a (Z.of_nat (k + 1))) (a_at a (Z.of_nat k)) = false)).
  { induction p as [|p IH]; intros q; [cbn; split; [intros; lia | reflexivity]|]. cbn [seq map]. destruct p as [|p].
    - cbn. split; [intros; lia | reflexivity].
    - specialize (IH (S q)). cbn [seq map] in *. cbn [is_sorted]. destruct (nltb A (a_at a (Z.of_nat (S q))) (a_at a (Z.of_nat q))) eqn:E.
      + split; [discriminate|]. intros H. specialize (H q ltac:(lia) ltac:(lia)). replace (q + 1)%nat with (S q) in H by lia. congruence.
      + etransitivity; [exact IH|]. split.
        * intros H k Hk Hk'. destruct (Nat.eq_dec k q) as [->|]; [replace (q + 1)%nat with (S q) by lia; exact E | apply H; lia].
        * intros H k Hk Hk'. apply H; lia. }
  etransitivity; [apply G|]. split.
  - intros H k Hk Hk'. specialize (H (Z.to_nat k) ltac:(lia) ltac:(lia)). replace (Z.of_nat (Z.to_nat k + 1)) with (k + 1) in H by lia. replace (Z.of_nat (Z.to_nat k)) with k in H by lia. exact H.
  - intros H k Hk Hk'. rewrite Nat2Z.inj_add. apply H; lia.
Qed.
