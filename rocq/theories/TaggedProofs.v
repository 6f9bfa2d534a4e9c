From Coq Require Import Permutation.
From Verif Require Import Machine MachineProofs TypeSeqModel TypeSeqProofs TaggedModel TaggedSpec.

Lemma get_spec q e x : NoDup (dims e) -> get q e = Ok x <-> In (q, x) e.
Proof.
  unfold get, dims, values. induction e as [|[t a] e IH]; simpl; intros Hn.
  - split; [discriminate | tauto].
  - inversion Hn; subst. destruct (Nat.eqb_spec q t) as [->|Hq].
    + simpl. split; [intros H; injection H as ->; auto|].
      intros [H|H]; [injection H as ->; auto|]. exfalso. apply H1.
      change t with (fst (t, x)). now apply in_map.
    + specialize (IH H2). destruct (ts_rank q (map fst e)) as [k|].
      * simpl. rewrite IH. split; auto. intros [H|H]; [congruence | auto].
      * rewrite IH. split; auto. intros [H|H]; [congruence | auto].
Qed.
Lemma get_in q e : In q (dims e) -> exists x, get q e = Ok x.
Proof.
  unfold get. intros H. apply ts_rank_in in H as [k Hk]. rewrite Hk.
  apply ts_rank_some in Hk as [Hk _].
  assert (Hl : (k < length (values e))%nat).
  { unfold values. rewrite map_length. rewrite <- (map_length fst).
    apply nth_error_Some. unfold dims in Hk. congruence. }
  destruct (nth_error (values e) k) eqn:E; [eauto|]. apply nth_error_None in E. lia.
Qed.
Lemma get_not_in q e : ~ In q (dims e) -> get q e = Rejected.
Proof. intros H. unfold get. apply ts_rank_none in H. now rewrite H. Qed.
Lemma val_of_dims e q x : val_of e q x -> In q (dims e).
Proof. intros H. unfold dims. change q with (fst (q, x)). now apply in_map. Qed.
Lemma val_of_fun e q x y : NoDup (dims e) -> val_of e q x -> val_of e q y -> x = y.
Proof.
  intros Hn Hx Hy. apply get_spec in Hx; auto. apply get_spec in Hy; auto. congruence.
Qed.
Lemma dims_val e q : In q (dims e) -> exists x, val_of e q x.
Proof.
  unfold dims. intros H. apply in_map_iff in H as ([t x] & <- & H). exists x. exact H.
Qed.
Lemma values_In e q x : val_of e q x -> In x (values e).
Proof. intros H. unfold values. change x with (snd (q, x)). now apply in_map. Qed.

Lemma upd_nth_spec op k x e q : nth_error (dims e) k = Some q -> NoDup (dims e) ->
  forall a b, val_of e q a -> op a x = Ok b ->
  exists e', upd_nth op k x e = Ok e' /\ dims e' = dims e /\
    (forall t y, val_of e' t y <-> (t = q /\ y = b) \/ (t <> q /\ val_of e t y)).
Proof.
  revert k. induction e as [|[t0 a0] e IH]; intros k Hk Hn a b Ha Hop.
  - destruct k; discriminate.
  - inversion Hn as [|? ? Hni Hnd]; subst. destruct k as [|k]; simpl in *.
    + injection Hk as ->.
      assert (a = a0).
      { destruct Ha as [Ha|Ha]; [now injection Ha|]. exfalso. apply Hni.
        eapply val_of_dims; exact Ha. }
      subst a0. rewrite Hop. simpl. eexists. split; [reflexivity|]. split; [reflexivity|].
      intros t y. unfold val_of. simpl. split.
      * intros [H|H]; [injection H as <- <-; auto|]. right. split; [|auto].
        intros ->. apply Hni. eapply val_of_dims; exact H.
      * intros [[-> ->]|[Hne [H|H]]]; auto. congruence.
    + destruct Ha as [Ha|Ha].
      { exfalso. injection Ha as <- <-. apply Hni. eapply nth_error_In; eauto. }
      destruct (IH k Hk Hnd a b Ha Hop) as (e' & E & Hd & Hv). rewrite E. simpl.
      eexists. split; [reflexivity|]. split; [simpl; f_equal; exact Hd|].
      intros t y. unfold val_of in *. simpl. rewrite Hv. split.
      * intros [H|[H|H]]; auto. injection H as <- <-. right. split; [|auto].
        intros ->. apply Hni. eapply nth_error_In; eauto.
        intuition.
      * intros [H|[Hne [H|H]]]; auto.
Qed.
Lemma upd_nth_undef op k x e q : nth_error (dims e) k = Some q -> NoDup (dims e) ->
  forall a, val_of e q a -> op a x = Undef -> upd_nth op k x e = Undef.
Proof.
  revert k. induction e as [|[t0 a0] e IH]; intros k Hk Hn a Ha Hop.
  - destruct k; reflexivity.
  - inversion Hn as [|? ? Hni Hnd]; subst. destruct k as [|k]; simpl in *.
    + injection Hk as ->.
      destruct Ha as [Ha|Ha]; [injection Ha as ->; now rewrite Hop|]. exfalso. apply Hni.
        eapply val_of_dims; exact Ha.
    + destruct Ha as [Ha|Ha].
      { exfalso. injection Ha as <- <-. apply Hni. eapply nth_error_In; eauto. }
      now rewrite (IH k Hk Hnd a Ha Hop).
Qed.

(** Componentwise meaning of the fold-assignment. *)
Lemma fold_assign_spec op ot e rhs :
  NoDup (dims e) -> NoDup (dims rhs) -> NoDup ot -> incl ot (dims e) -> incl ot (dims rhs) ->
  (forall q a x, In q ot -> val_of e q a -> val_of rhs q x -> exists b, op a x = Ok b) ->
  exists e', fold_assign op ot e rhs = Ok e' /\ dims e' = dims e /\
    (forall q a, val_of e q a -> ~ In q ot -> val_of e' q a) /\
    (forall q a x b, In q ot -> val_of e q a -> val_of rhs q x -> op a x = Ok b -> val_of e' q b).
Proof.
  revert e. induction ot as [|q ot IH]; intros e Hne Hnr Hno Hie Hir Hop; simpl.
  - exists e. repeat split; auto. contradiction.
  - inversion Hno as [|? ? Hnq Hno']; subst.
    assert (Hqe : In q (dims e)) by (apply Hie; now left).
    assert (Hqr : In q (dims rhs)) by (apply Hir; now left).
    apply ts_rank_in in Hqe as [k Hk]. rewrite Hk. apply ts_rank_some in Hk as [Hk _].
    destruct (get_in q rhs Hqr) as [x Hx]. rewrite Hx. simpl.
    apply get_spec in Hx; auto.
    destruct (dims_val e q) as [a Ha]; [eapply nth_error_In; eauto|].
    destruct (Hop q a x) as [b Hb]; [now left | auto | auto |].
    destruct (upd_nth_spec op k x e q Hk Hne a b Ha Hb) as (e1 & E1 & Hd1 & Hv1).
    rewrite E1. simpl.
    destruct (IH e1) as (e2 & E2 & Hd2 & Hv2 & Hw2); auto; try (rewrite Hd1; auto).
    + intros t Ht. apply Hie. now right.
    + intros t Ht. apply Hir. now right.
    + intros t a' x' Ht Ha' Hx'. apply Hv1 in Ha' as [[-> ->]|[_ Ha']]; [tauto|].
      apply (Hop t a' x'); auto. now right.
    + exists e2. split; [exact E2|]. split; [congruence|]. split.
      * intros t a' Ha' Hn. apply Hv2; [|intros H; apply Hn; now right].
        apply Hv1. right. split; [intros ->; apply Hn; now left | auto].
      * intros t a' x' b' Ht Ha' Hx' Hb'. destruct Ht as [<-|Ht].
        -- apply Hv2; auto. apply Hv1. left. split; [reflexivity|].
           assert (a' = a) by (eapply (val_of_fun e); eauto).
           assert (x' = x) by (eapply (val_of_fun rhs); eauto). congruence.
        -- eapply Hw2; eauto. apply Hv1. right. split; [intros ->; tauto | auto].
Qed.
Lemma fold_assign_undef op ot e rhs :
  NoDup (dims e) -> NoDup (dims rhs) -> NoDup ot -> incl ot (dims e) -> incl ot (dims rhs) ->
  (forall a x, op a x = Undef \/ exists b, op a x = Ok b) ->
  (exists q a x, In q ot /\ val_of e q a /\ val_of rhs q x /\ op a x = Undef) ->
  fold_assign op ot e rhs = Undef.
Proof.
  revert e. induction ot as [|q ot IH]; intros e Hne Hnr Hno Hie Hir Hop Hex; simpl.
  - destruct Hex as (q & ? & ? & [] & _).
  - inversion Hno as [|? ? Hnq Hno']; subst.
    assert (Hqe : In q (dims e)) by (apply Hie; now left).
    assert (Hqr : In q (dims rhs)) by (apply Hir; now left).
    apply ts_rank_in in Hqe as [k Hk]. rewrite Hk. apply ts_rank_some in Hk as [Hk _].
    destruct (get_in q rhs Hqr) as [x Hx]. rewrite Hx. simpl.
    apply get_spec in Hx; auto.
    destruct (dims_val e q) as [a Ha]; [eapply nth_error_In; eauto|].
    destruct (Hop a x) as [Hu|[b Hb]].
    + now rewrite (upd_nth_undef op k x e q Hk Hne a Ha Hu).
    + destruct (upd_nth_spec op k x e q Hk Hne a b Ha Hb) as (e1 & E1 & Hd1 & Hv1).
      rewrite E1. simpl. apply IH; auto; try (rewrite Hd1; auto).
      * intros t Ht. apply Hie. now right.
      * intros t Ht. apply Hir. now right.
      * destruct Hex as (t & a' & x' & [<-|Ht] & Ha' & Hx' & Hu).
        -- exfalso. assert (a' = a) by (eapply (val_of_fun e); eauto).
           assert (x' = x) by (eapply (val_of_fun rhs); eauto). congruence.
        -- exists t, a', x'. repeat split; auto. apply Hv1. right. split; [intros ->; tauto | auto].
Qed.

(** A result described componentwise is determined up to [same_values]. *)
Lemma op_assign_exact op e rhs :
  NoDup (dims e) -> NoDup (dims rhs) -> incl (dims rhs) (dims e) ->
  (forall q a x, val_of e q a -> val_of rhs q x -> exists b, op a x = Ok b) ->
  exists e', op_assign op e rhs = Ok e' /\ dims e' = dims e /\
    (forall q a, val_of e q a -> ~ In q (dims rhs) -> val_of e' q a) /\
    (forall q a x b, val_of e q a -> val_of rhs q x -> op a x = Ok b -> val_of e' q b).
Proof.
  intros Hne Hnr Hi Hop. unfold op_assign.
  rewrite (proj2 (contains_spec _ _) Hi).
  destruct (fold_assign_spec op (dims rhs) e rhs) as (e' & E & Hd & Hv & Hw); auto.
  - intros t Ht; auto.
  - intros q a x _. apply Hop.
  - exists e'. repeat split; auto. intros q a x b Ha Hx Hb. eapply Hw; eauto.
    eapply val_of_dims; eauto.
Qed.
Lemma op_assign_rejected op e rhs : ~ incl (dims rhs) (dims e) -> op_assign op e rhs = Rejected.
Proof.
  intros H. unfold op_assign. destruct (type_seq_contains_v (dims rhs) (dims e)) eqn:E; auto.
  apply contains_spec in E. contradiction.
Qed.

Lemma diff_fold_spec l r ts : NoDup (dims l) -> NoDup (dims r) -> incl ts (dims l) -> incl ts (dims r) ->
  exists v, diff_fold l r ts = Ok v /\ dims v = ts /\ Forall is_i64 (values v) /\
   (forall q a b, In q ts -> val_of l q a -> val_of r q b -> val_of v q (i64 (u64_sub a b))).
Proof.
  intros Hl Hr. induction ts as [|q ts IH]; intros Hil Hir; simpl.
  - exists []. split; [reflexivity|]. split; [reflexivity|]. split; [constructor|]. intros q a b [].
  - destruct (get_in q l) as [a Ha]; [apply Hil; now left|].
    destruct (get_in q r) as [b Hb]; [apply Hir; now left|].
    rewrite Ha, Hb. simpl. destruct IH as (v & E & Hd & Hf & Hv).
    { intros t Ht; apply Hil; now right. } { intros t Ht; apply Hir; now right. }
    rewrite E. simpl. eexists. split; [reflexivity|]. split; [simpl; f_equal; auto|].
    split; [constructor; [apply i64_range | auto]|].
    apply get_spec in Ha; auto. apply get_spec in Hb; auto.
    intros t a' b' Ht Ha' Hb'. destruct Ht as [<-|Ht].
    + left. f_equal. f_equal. assert (a' = a) by (eapply (val_of_fun l); eauto).
      assert (b' = b) by (eapply (val_of_fun r); eauto). congruence.
    + right. apply Hv; auto.
Qed.
Lemma elem_diff_spec l r : NoDup (dims l) -> NoDup (dims r) -> (forall q, In q (dims l) <-> In q (dims r)) ->
  exists v, elem_diff l r = Ok v /\ dims v = dims l /\ Forall is_i64 (values v) /\
   (forall q a b, val_of l q a -> val_of r q b -> val_of v q (i64 (u64_sub a b))).
Proof.
  intros Hl Hr Hs. unfold elem_diff.
  rewrite (proj2 (same_exact _ _) Hs).
  destruct (diff_fold_spec l r (dims l)) as (v & E & Hd & Hf & Hv); auto.
  - intros t; auto. - intros t Ht; now apply Hs.
  - exists v. repeat split; auto. intros q a b Ha Hb. apply Hv; auto. eapply val_of_dims; eauto.
Qed.

Lemma eq_fold_spec l r ts : NoDup (dims l) -> NoDup (dims r) -> incl ts (dims l) -> incl ts (dims r) ->
  exists b, eq_fold l r ts = Ok b /\
   (b = true <-> forall q x, In q ts -> val_of l q x -> val_of r q x).
Proof.
  intros Hl Hr. induction ts as [|q ts IH]; intros Hil Hir; simpl.
  - exists true. repeat split; auto. contradiction.
  - destruct (get_in q l) as [a Ha]; [apply Hil; now left|].
    destruct (get_in q r) as [b Hb]; [apply Hir; now left|].
    rewrite Ha, Hb. simpl. destruct IH as (v & E & Hv).
    { intros t Ht; apply Hil; now right. } { intros t Ht; apply Hir; now right. }
    rewrite E. simpl. eexists. split; [reflexivity|]. rewrite andb_true_iff, Hv, Z.eqb_eq.
    apply get_spec in Ha; auto. apply get_spec in Hb; auto. split.
    + intros [-> H] t x [<-|Ht] Hx; [|auto].
      assert (x = b) by (eapply (val_of_fun l); eauto). now subst.
    + intros H. split.
      * assert (val_of r q a) by (apply H; auto). eapply (val_of_fun r); eauto.
      * intros t x Ht Hx. apply H; auto.
Qed.
Lemma tagged_eq_spec l r : NoDup (dims l) -> NoDup (dims r) -> (forall q, In q (dims l) <-> In q (dims r)) ->
  exists b, tagged_eq l r = Ok b /\ (b = true <-> same_values l r).
Proof.
  intros Hl Hr Hs. destruct (eq_fold_spec l r (dims l)) as (b & E & Hb); auto.
  - intros t; auto. - intros t Ht; now apply Hs.
  - exists b. split; [exact E|]. rewrite Hb. split.
    + intros H q x. split; intros Hx.
      * apply H; auto. eapply val_of_dims; eauto.
      * destruct (dims_val l q) as [y Hy]; [apply Hs; eapply val_of_dims; eauto|].
        assert (val_of r q y) by (apply H; auto; eapply val_of_dims; eauto).
        assert (x = y) by (eapply (val_of_fun r); eauto). now subst.
    + intros H q x _ Hx. now apply H.
Qed.

(** Torsor laws. *)
Lemma same_values_of_dims e f : NoDup (dims e) -> NoDup (dims f) ->
  (forall q, In q (dims e) <-> In q (dims f)) ->
  (forall q x, val_of e q x -> val_of f q x) -> same_values e f.
Proof.
  intros He Hf Hs H q x. split; [apply H|]. intros Hx.
  destruct (dims_val e q) as [y Hy]; [apply Hs; eapply val_of_dims; eauto|].
  assert (x = y) by (eapply (val_of_fun f); eauto). now subst.
Qed.
Lemma elem_val_u64 e q x : elem_wf e -> val_of e q x -> is_u64 x.
Proof.
  intros [_ Hf] Hx. apply values_In in Hx. rewrite Forall_forall in Hf. auto.
Qed.
Lemma vect_val_i64 e q x : vect_wf e -> val_of e q x -> is_i64 x.
Proof.
  intros [_ Hf] Hx. apply values_In in Hx. rewrite Forall_forall in Hf. auto.
Qed.
Lemma forall_values (P : Z -> Prop) e : (forall q x, val_of e q x -> P x) -> Forall P (values e).
Proof.
  intros H. apply Forall_forall. intros x Hx. unfold values in Hx.
  apply in_map_iff in Hx as ([q y] & <- & Hy). eapply H. exact Hy.
Qed.

Lemma diff_then_add a b : elem_wf a -> elem_wf b -> (forall q, In q (dims a) <-> In q (dims b)) ->
  exists v r, elem_diff a b = Ok v /\ vect_wf v /\ elem_add b v = Ok r /\ elem_wf r /\
    same_values r a.
Proof.
  intros Ha Hb Hs. destruct (elem_diff_spec a b) as (v & Ev & Hdv & Hfv & Hv); try apply Ha; try apply Hb; auto.
  assert (Hnv : NoDup (dims v)) by (rewrite Hdv; apply Ha).
  destruct (op_assign_exact uadd b v) as (r & Er & Hdr & H1 & H2); auto.
  { apply Hb. } { intros t Ht. apply Hs. rewrite <- Hdv. auto. }
  { intros. eexists; reflexivity. }
  assert (Hr : forall q x, val_of a q x -> val_of r q x).
  { intros q x Hx. destruct (dims_val b q) as [y Hy]; [apply Hs; eapply val_of_dims; eauto|].
    assert (Hd := Hv q x y Hx Hy). assert (Hw := H2 q y _ _ Hy Hd eq_refl).
    rewrite u64_sub_add in Hw; [exact Hw | eapply (elem_val_u64 a); eauto | eapply (elem_val_u64 b); eauto]. }
  assert (Hsame : same_values r a).
  { intros q x. symmetry. apply same_values_of_dims; auto; try apply Ha.
    rewrite Hdr; apply Hb. intros t. rewrite Hdr. apply Hs. }
  exists v, r. split; [exact Ev|]. split; [split; auto|]. split; [exact Er|]. split; [|exact Hsame].
  split; [rewrite Hdr; apply Hb|]. apply forall_values. intros q x Hx.
  eapply elem_val_u64; [exact Ha|]. apply Hsame. exact Hx.
Qed.
Lemma add_then_diff a v : elem_wf a -> vect_wf v -> (forall q, In q (dims v) <-> In q (dims a)) ->
  exists b w, elem_add a v = Ok b /\ elem_wf b /\ elem_diff b a = Ok w /\ same_values w v.
Proof.
  intros Ha Hv Hs.
  destruct (op_assign_exact uadd a v) as (b & Eb & Hdb & H1 & H2); try apply Ha; try apply Hv; auto.
  { intros t Ht. now apply Hs. } { intros. eexists; reflexivity. }
  assert (Hwfb : elem_wf b).
  { split; [rewrite Hdb; apply Ha|]. apply forall_values. intros q x Hx.
    destruct (dims_val a q) as [y Hy]; [rewrite <- Hdb; eapply val_of_dims; eauto|].
    destruct (dims_val v q) as [z Hz]; [apply Hs; eapply val_of_dims; eauto|].
    assert (Hw := H2 q y z _ Hy Hz eq_refl).
    assert (x = u64_add y z) by (eapply (val_of_fun b); eauto; rewrite Hdb; apply Ha).
    subst x. apply u64_range. }
  destruct (elem_diff_spec b a) as (w & Ew & Hdw & Hfw & Hw); try apply Ha; try apply Hwfb; auto.
  { intros q. rewrite Hdb. tauto. }
  exists b, w. repeat split; auto; try apply Hwfb; intros Hx.
  - symmetry in Hdw. destruct (dims_val v q) as [z Hz]; [apply Hs; rewrite <- Hdb, Hdw; eapply val_of_dims; eauto|].
    destruct (dims_val a q) as [y Hy]; [apply Hs; eapply val_of_dims; eauto|].
    assert (Hq := Hw q _ _ (H2 q y z _ Hy Hz eq_refl) Hy).
    rewrite u64_add_sub in Hq; [| eapply elem_val_u64; [apply Ha | eauto] | eapply vect_val_i64; [apply Hv | eauto]].
    assert (x = z); [|now subst]. eapply (val_of_fun w); eauto. rewrite <- Hdw, Hdb; apply Ha.
  - destruct (dims_val a q) as [y Hy]; [apply Hs; eapply val_of_dims; eauto|].
    assert (Hq := Hw q _ _ (H2 q y x _ Hy Hx eq_refl) Hy).
    rewrite u64_add_sub in Hq; [exact Hq | eapply elem_val_u64; [apply Ha | eauto] | eapply vect_val_i64; [apply Hv | eauto]].
Qed.
Lemma elem_add_sub_frame (sg : bool) e v : elem_wf e -> vect_wf v -> incl (dims v) (dims e) ->
  exists r, (if sg then elem_add e v else elem_sub_vect e v) = Ok r /\ elem_wf r /\ dims r = dims e /\
   (forall q x, val_of e q x -> ~ In q (dims v) -> val_of r q x) /\
   (forall q x y, val_of e q x -> val_of v q y ->
      val_of r q ((if sg then x + y else x - y) mod 2 ^ 64)).
Proof.
  intros He Hv Hi.
  destruct (op_assign_exact (if sg then uadd else usub) e v) as (r & Er & Hdr & H1 & H2);
    try apply He; try apply Hv; auto.
  { intros. destruct sg; eexists; reflexivity. }
  exists r. split; [destruct sg; exact Er|].
  assert (H3 : forall q x y, val_of e q x -> val_of v q y ->
      val_of r q ((if sg then x + y else x - y) mod 2 ^ 64)).
  { intros q x y Hx Hy. eapply H2; eauto. destruct sg; reflexivity. }
  split; [|auto]. split; [rewrite Hdr; apply He|]. apply forall_values. intros q x Hx.
  destruct (dims_val e q) as [y Hy]; [rewrite <- Hdr; eapply val_of_dims; eauto|].
  destruct (in_dec Nat.eq_dec q (dims v)) as [Hq|Hq].
  - destruct (dims_val v q Hq) as [z Hz]. assert (Hw := H3 q y z Hy Hz).
    assert (x = (if sg then y + z else y - z) mod 2 ^ 64) by (eapply (val_of_fun r); eauto; rewrite Hdr; apply He).
    subst x. apply u64_range.
  - assert (Hw := H1 q y Hy Hq). assert (x = y) by (eapply (val_of_fun r); eauto; rewrite Hdr; apply He).
    subst x. eapply elem_val_u64; eauto.
Qed.

(** Vector arithmetic: exact when every component fits, undefined otherwise. *)
Lemma sadd_ok a b : is_i64 (a + b) -> sadd a b = Ok (a + b).
Proof. intros H. unfold sadd, i64_add, i64_ret. apply is_i64b_spec in H. now rewrite H. Qed.
Lemma ssub_ok a b : is_i64 (a - b) -> ssub a b = Ok (a - b).
Proof. intros H. unfold ssub, i64_sub, i64_ret. apply is_i64b_spec in H. now rewrite H. Qed.
Lemma sadd_undef a b : ~ is_i64 (a + b) -> sadd a b = Undef.
Proof.
  intros H. unfold sadd, i64_add, i64_ret. destruct (is_i64b (a + b)) eqn:E; auto.
  apply is_i64b_spec in E. contradiction.
Qed.
Lemma ssub_undef a b : ~ is_i64 (a - b) -> ssub a b = Undef.
Proof.
  intros H. unfold ssub, i64_sub, i64_ret. destruct (is_i64b (a - b)) eqn:E; auto.
  apply is_i64b_spec in E. contradiction.
Qed.
Lemma is_i64_dec z : is_i64 z \/ ~ is_i64 z.
Proof. unfold is_i64. lia. Qed.

Lemma vect_addsub_same (sg : bool) l r : vect_wf l -> vect_wf r ->
  (forall q, In q (dims l) <-> In q (dims r)) ->
  ((forall q x y, val_of l q x -> val_of r q y -> is_i64 (if sg then x + y else x - y)) ->
   exists s, (if sg then vect_add l r else vect_sub l r) = Ok s /\ vect_wf s /\ dims s = dims l /\
     forall q x y, val_of l q x -> val_of r q y -> val_of s q (if sg then x + y else x - y)) /\
  ((exists q x y, val_of l q x /\ val_of r q y /\ ~ is_i64 (if sg then x + y else x - y)) ->
   (if sg then vect_add l r else vect_sub l r) = Undef).
Proof.
  intros Hl Hr Hs.
  assert (Hlen : (length r <= length l)%nat).
  { rewrite <- (map_length fst r), <- (map_length fst l). apply NoDup_incl_length; [apply Hr|].
    intros q Hq. now apply Hs. }
  apply Nat.leb_le in Hlen.
  assert (Hi : incl (dims r) (dims l)) by (intros q Hq; now apply Hs).
  assert (Eo : (if sg then vect_add l r else vect_sub l r) = op_assign (if sg then sadd else ssub) l r).
  { destruct sg; unfold vect_add, vect_sub; now rewrite Hlen. }
  rewrite Eo. split.
  - intros Hfit.
    assert (Hok : forall q x y, val_of l q x -> val_of r q y ->
       (if sg then sadd else ssub) x y = Ok (if sg then x + y else x - y)).
    { intros q x y Hx Hy. specialize (Hfit q x y Hx Hy).
      destruct sg; [now apply sadd_ok | now apply ssub_ok]. }
    destruct (op_assign_exact (if sg then sadd else ssub) l r) as (s & Es & Hds & H1 & H2);
      try apply Hl; try apply Hr; auto. { intros q x y Hx Hy. eauto. }
    exists s. split; [exact Es|].
    assert (H3 : forall q x y, val_of l q x -> val_of r q y -> val_of s q (if sg then x + y else x - y)).
    { intros q x y Hx Hy. eapply H2; eauto. }
    split; [|auto]. split; [rewrite Hds; apply Hl|]. apply forall_values. intros q x Hx.
    destruct (dims_val l q) as [y Hy]; [rewrite <- Hds; eapply val_of_dims; eauto|].
    destruct (dims_val r q) as [z Hz]; [apply Hs; eapply val_of_dims; eauto|].
    assert (Hw := H3 q y z Hy Hz).
    assert (x = (if sg then y + z else y - z)) by (eapply (val_of_fun s); eauto; rewrite Hds; apply Hl).
    subst x. eapply Hfit; eauto.
  - intros (q & x & y & Hx & Hy & Hn). unfold op_assign. rewrite (proj2 (contains_spec _ _) Hi).
    apply fold_assign_undef; try apply Hl; try apply Hr; auto.
    + intros t Ht; auto.
    + intros a b. destruct sg.
      * destruct (is_i64_dec (a + b)); [right; eexists; now apply sadd_ok | left; now apply sadd_undef].
      * destruct (is_i64_dec (a - b)); [right; eexists; now apply ssub_ok | left; now apply ssub_undef].
    + exists q, x, y. repeat split; auto; [eapply val_of_dims; eauto|].
      destruct sg; [now apply sadd_undef | now apply ssub_undef].
Qed.

(** A fold over the dimensions applying one operation to each component (unary minus, scaling). *)
Lemma map_fold_spec (g : Z -> option Z) (F : tagged -> type_seq -> res tagged) v ts : NoDup (dims v) ->
  (forall ts, F v ts = match ts with
                       | [] => Ok []
                       | q :: ts' => rbind (get q v) (fun a => rbind (of_i64 (g a)) (fun b =>
                                     rbind (F v ts') (fun rest => Ok ((q, b) :: rest))))
                       end) ->
  incl ts (dims v) ->
  ((forall q x, In q ts -> val_of v q x -> g x <> None) ->
    exists r, F v ts = Ok r /\ dims r = ts /\ forall q x y, In q ts -> val_of v q x -> g x = Some y -> val_of r q y) /\
  ((exists q x, In q ts /\ val_of v q x /\ g x = None) -> F v ts = Undef).
Proof.
  intros Hn HF. induction ts as [|q ts IH]; intros Hi; rewrite HF; split.
  - intros _. exists []. repeat split. intros q x y [].
  - intros (q & x & [] & _).
  - intros Hg. destruct IH as [IH _]; [intros t Ht; apply Hi; now right|].
    destruct (get_in q v) as [a Ha]; [apply Hi; now left|]. rewrite Ha. cbn [rbind].
    assert (Hva : val_of v q a) by now apply get_spec.
    destruct (g a) as [b|] eqn:Eb; [|exfalso; apply (Hg q a); auto; now left]. cbn [of_i64 rbind].
    destruct IH as (r & Er & Hd & Hr); [intros t x Ht; apply Hg; now right|]. rewrite Er. cbn [rbind].
    exists ((q, b) :: r). split; [reflexivity|]. split; [unfold dims in *; cbn [map fst]; now rewrite Hd|].
    intros t x y [<-|Ht] Hx Hy.
    + assert (x = a) by (eapply (val_of_fun v); eauto). subst x. left. congruence.
    + right. eapply Hr; eauto.
  - intros (t & x & Ht & Hx & Hg). destruct IH as [IH1 IH]; [intros u Hu; apply Hi; now right|].
    destruct (get_in q v) as [a Ha]; [apply Hi; now left|]. rewrite Ha. cbn [rbind].
    assert (Hva : val_of v q a) by now apply get_spec.
    destruct (g a) as [b|] eqn:Eb; [|reflexivity]. cbn [of_i64 rbind].
    destruct Ht as [<-|Ht]; [assert (x = a) by (eapply (val_of_fun v); eauto); congruence|].
    rewrite IH; [reflexivity|]. eauto.
Qed.
Lemma opp_spec v : vect_wf v ->
  ((forall q x, val_of v q x -> is_i64 (- x)) ->
    exists r, vect_opp v = Ok r /\ vect_wf r /\ dims r = dims v /\ forall q x, val_of v q x -> val_of r q (- x)) /\
  ((exists q x, val_of v q x /\ ~ is_i64 (- x)) -> vect_opp v = Undef).
Proof.
  intros Hv. destruct (map_fold_spec i64_opp opp_fold v (dims v)) as [H1 H2]; [apply Hv| |intros t; auto|].
  { intros [|q ts]; reflexivity. }
  split.
  - intros Hf. destruct H1 as (r & Er & Hd & Hr).
    { intros q x _ Hx. unfold i64_opp, i64_ret. specialize (Hf q x Hx). apply is_i64b_spec in Hf. rewrite Hf. discriminate. }
    assert (Hr' : forall q x, val_of v q x -> val_of r q (- x)).
    { intros q x Hx. apply (Hr q x); auto; [eapply val_of_dims; eauto|]. unfold i64_opp, i64_ret.
      specialize (Hf q x Hx). apply is_i64b_spec in Hf. now rewrite Hf. }
    exists r. split; [exact Er|]. split; [|auto]. split; [rewrite Hd; apply Hv|]. apply forall_values. intros q x Hx.
    destruct (dims_val v q) as [y Hy]; [rewrite <- Hd; eapply val_of_dims; eauto|].
    assert (x = - y) by (eapply (val_of_fun r); eauto; rewrite Hd; apply Hv). subst x. eauto.
  - intros (q & x & Hx & Hn). apply H2. exists q, x. split; [eapply val_of_dims; eauto|]. split; [exact Hx|].
    unfold i64_opp, i64_ret. destruct (is_i64b (- x)) eqn:E; [|reflexivity]. apply is_i64b_spec in E. contradiction.
Qed.
Lemma scale_spec k v : vect_wf v ->
  ((forall q x, val_of v q x -> is_i64 (k * x)) ->
    exists r, vect_scale k v = Ok r /\ vect_wf r /\ dims r = dims v /\ forall q x, val_of v q x -> val_of r q (k * x)) /\
  ((exists q x, val_of v q x /\ ~ is_i64 (k * x)) -> vect_scale k v = Undef).
Proof.
  intros Hv. destruct (map_fold_spec (i64_mul k) (scale_fold k) v (dims v)) as [H1 H2]; [apply Hv| |intros t; auto|].
  { intros [|q ts]; reflexivity. }
  split.
  - intros Hf. destruct H1 as (r & Er & Hd & Hr).
    { intros q x _ Hx. unfold i64_mul, i64_ret. specialize (Hf q x Hx). apply is_i64b_spec in Hf. rewrite Hf. discriminate. }
    assert (Hr' : forall q x, val_of v q x -> val_of r q (k * x)).
    { intros q x Hx. apply (Hr q x); auto; [eapply val_of_dims; eauto|]. unfold i64_mul, i64_ret.
      specialize (Hf q x Hx). apply is_i64b_spec in Hf. now rewrite Hf. }
    exists r. split; [exact Er|]. split; [|auto]. split; [rewrite Hd; apply Hv|]. apply forall_values. intros q x Hx.
    destruct (dims_val v q) as [y Hy]; [rewrite <- Hd; eapply val_of_dims; eauto|].
    assert (x = k * y) by (eapply (val_of_fun r); eauto; rewrite Hd; apply Hv). subst x. eauto.
  - intros (q & x & Hx & Hn). apply H2. exists q, x. split; [eapply val_of_dims; eauto|]. split; [exact Hx|].
    unfold i64_mul, i64_ret. destruct (is_i64b (k * x)) eqn:E; [|reflexivity]. apply is_i64b_spec in E. contradiction.
Qed.

(** Sum and difference when one vector has fewer dimensions than the other. *)
Lemma addsub_wide (sg : bool) l r : vect_wf l -> vect_wf r -> incl (dims r) (dims l) ->
  (forall q x y, In q (dims l) -> val0 l q x -> val0 r q y -> is_i64 (if sg then x + y else x - y)) ->
  exists s, op_assign (if sg then sadd else ssub) l r = Ok s /\ vect_wf s /\ dims s = dims l /\
    forall q x y, In q (dims l) -> val0 l q x -> val0 r q y -> val_of s q (if sg then x + y else x - y).
Proof.
  intros Hl Hr Hi Hf.
  assert (Hok : forall q x y, val_of l q x -> val_of r q y ->
       (if sg then sadd else ssub) x y = Ok (if sg then x + y else x - y)).
  { intros q x y Hx Hy. assert (K := Hf q x y (val_of_dims _ _ _ Hx) (or_introl Hx) (or_introl Hy)).
    destruct sg; [now apply sadd_ok | now apply ssub_ok]. }
  destruct (op_assign_exact (if sg then sadd else ssub) l r) as (s & Es & Hds & H1 & H2);
      try apply Hl; try apply Hr; auto. { intros q x y Hx Hy. eauto. }
  assert (H3 : forall q x y, In q (dims l) -> val0 l q x -> val0 r q y -> val_of s q (if sg then x + y else x - y)).
  { intros q x y Hq [Hx|[Hx _]] Hy; [|contradiction]. destruct Hy as [Hy|[Hy ->]].
    - eapply H2; eauto.
    - replace (if sg then x + 0 else x - 0) with x by (destruct sg; lia). auto. }
  exists s. split; [exact Es|]. split; [|auto]. split; [rewrite Hds; apply Hl|]. apply forall_values. intros q x Hx.
  assert (Hq : In q (dims l)) by (rewrite <- Hds; eapply val_of_dims; eauto).
  destruct (dims_val l q Hq) as [y Hy].
  assert (exists z, val0 r q z) as [z Hz].
  { destruct (in_dec Nat.eq_dec q (dims r)) as [K|K]; [destruct (dims_val r q K) as [z Hz]; exists z; now left|].
    exists 0. right. auto. }
  assert (Hw := H3 q y z Hq (or_introl Hy) Hz).
  assert (x = (if sg then y + z else y - z)) by (eapply (val_of_fun s); eauto; rewrite Hds; apply Hl).
  subst x. eapply Hf; eauto. now left.
Qed.
Lemma vect_addsub_mixed (sg : bool) l r : vect_wf l -> vect_wf r ->
  (incl (dims r) (dims l) \/ incl (dims l) (dims r)) ->
  (forall q x y, In q (dims l ++ dims r) -> val0 l q x -> val0 r q y -> is_i64 (if sg then x + y else x - y)) ->
  (sg = false -> ~ incl (dims r) (dims l) -> forall q y, val_of r q y -> is_i64 (- y)) ->
  exists s, (if sg then vect_add l r else vect_sub l r) = Ok s /\ vect_wf s /\
    (forall q, In q (dims s) <-> In q (dims l) \/ In q (dims r)) /\
    forall q x y, In q (dims s) -> val0 l q x -> val0 r q y -> val_of s q (if sg then x + y else x - y).
Proof.
  intros Hl Hr Hi Hf Ho.
  assert (Hlen : forall a b : tagged, NoDup (dims a) -> incl (dims a) (dims b) -> (length a <= length b)%nat).
  { intros a b Na Hab. rewrite <- (map_length fst a), <- (map_length fst b). now apply NoDup_incl_length. }
  destruct (Nat.leb_spec (length r) (length l)) as [Hle|Hlt].
  - assert (Hrl : incl (dims r) (dims l)).
    { destruct Hi as [Hi|Hi]; [exact Hi|]. apply NoDup_length_incl; [apply Hl| |exact Hi].
      unfold dims. rewrite !map_length. exact Hle. }
    apply Nat.leb_le in Hle.
    destruct (addsub_wide sg l r) as (s & Es & Ws & Hd & Hs); auto.
    { intros q x y Hq. apply Hf. apply in_or_app. now left. }
    exists s. split; [destruct sg; unfold vect_add, vect_sub; rewrite Hle; exact Es|]. split; [exact Ws|].
    rewrite Hd. split; [|exact Hs]. intros q. split; [now left|]. intros [K|K]; auto.
  - assert (Hlr : incl (dims l) (dims r)).
    { destruct Hi as [Hi|Hi]; [|exact Hi]. exfalso. specialize (Hlen r l (proj1 Hr) Hi). lia. }
    assert (Hnot : ~ incl (dims r) (dims l)).
    { intros K. specialize (Hlen r l (proj1 Hr) K). lia. }
    assert (E : Nat.leb (length r) (length l) = false) by now apply Nat.leb_gt.
    destruct sg.
    + destruct (addsub_wide true r l) as (s & Es & Ws & Hd & Hs); auto.
      { intros q x y Hq Hx Hy. rewrite Z.add_comm. apply (Hf q); auto. apply in_or_app. now right. }
      exists s. split; [unfold vect_add; rewrite E; exact Es|]. split; [exact Ws|]. rewrite Hd. split.
      * intros q. split; [now right|]. intros [K|K]; auto.
      * intros q x y Hq Hx Hy. rewrite Z.add_comm. auto.
    + destruct (opp_spec r Hr) as [Hopp _]. destruct Hopp as (nr & En & Wn & Hdn & Hn); [intros q x; now apply Ho|].
      assert (Hn0 : forall q y, val0 nr q y -> val0 r q (- y)).
      { intros q y [K|[K ->]].
        - destruct (dims_val r q) as [z Hz]; [rewrite <- Hdn; eapply val_of_dims; eauto|].
          assert (y = - z) by (eapply (val_of_fun nr); eauto; rewrite Hdn; apply Hr). subst y. left.
          now rewrite Z.opp_involutive.
        - right. rewrite <- Hdn. auto. }
      destruct (addsub_wide true nr l) as (s & Es & Ws & Hd & Hs); auto.
      { now rewrite Hdn. }
      { intros q x y Hq Hx Hy. replace (x + y) with (y - - x) by lia. apply (Hf q); auto.
        apply in_or_app. right. now rewrite <- Hdn. }
      exists s. split; [unfold vect_sub; rewrite E, En; exact Es|]. split; [exact Ws|]. rewrite Hd, Hdn. split.
      * intros q. split; [now right|]. intros [K|K]; auto.
      * intros q x y Hq Hx Hy. replace (x - y) with (- y + x) by lia. apply Hs; [now rewrite Hdn| |exact Hx].
        destruct Hy as [Hy|[Hy ->]]; [left; auto|]. right. rewrite Hdn. auto.
Qed.

Lemma eq_reorder l r l' r' : elem_wf l -> elem_wf r -> Permutation l l' -> Permutation r r' ->
  (forall q, In q (dims l) <-> In q (dims r)) -> tagged_eq l r = tagged_eq l' r'.
Proof.
  intros Hl Hr Pl Pr Hs.
  assert (Pdl : Permutation (dims l) (dims l')) by now apply Permutation_map.
  assert (Pdr : Permutation (dims r) (dims r')) by now apply Permutation_map.
  destruct (tagged_eq_spec l r) as (b & E & Hb); try apply Hl; try apply Hr; auto.
  destruct (tagged_eq_spec l' r') as (b' & E' & Hb').
  - eapply Permutation_NoDup; [exact Pdl | apply Hl].
  - eapply Permutation_NoDup; [exact Pdr | apply Hr].
  - intros q. split; intros H.
    + eapply Permutation_in; [exact Pdr|]. apply Hs. eapply Permutation_in; [symmetry; exact Pdl | auto].
    + eapply Permutation_in; [exact Pdl|]. apply Hs. eapply Permutation_in; [symmetry; exact Pdr | auto].
  - rewrite E, E'. f_equal.
    assert (same_values l r <-> same_values l' r').
    { unfold same_values, val_of. split; intros H q x; (split; intros Hx).
      - eapply Permutation_in; [exact Pr|]. apply H. eapply Permutation_in; [symmetry; exact Pl | auto].
      - eapply Permutation_in; [exact Pl|]. apply H. eapply Permutation_in; [symmetry; exact Pr | auto].
      - eapply Permutation_in; [symmetry; exact Pr|]. apply H. eapply Permutation_in; [exact Pl | auto].
      - eapply Permutation_in; [symmetry; exact Pl|]. apply H. eapply Permutation_in; [exact Pr | auto]. }
    destruct b, b'; auto; [symmetry|]; tauto.
Qed.
