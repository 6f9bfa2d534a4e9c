(** Consequences of the per-dimension characterisations, in the form used by the property theorems,
    and counterexamples for the statements that do not hold without a precondition. *)
From Coq Require Import Sorting.Sorted.
From Verif Require Import ListAux Machine MachineProofs TypeSeqModel TypeSeqProofs TaggedModel TaggedSpec TaggedProofs
  DomainModel DomainSpec DomainProofs DomainProofs2 IteratorModel IteratorProofs StridedModel StridedSpec StridedProofs
  SparseModel SparseSpec SparseProofs.

Lemma cut_first_partition d n : dom_wf d -> cut_ok d n ->
  exists t r, take_first d n = Ok t /\ remove_first d n = Ok r /\ ddims t = ddims d /\ ddims r = ddims d /\
    (forall q x, in_dim d q x <-> in_dim t q x \/ in_dim r q x) /\
    (forall q x, ~ (in_dim t q x /\ in_dim r q x)) /\
    (forall q b f y, In (q, (b, f)) d -> val_of n q y -> forall x, in_dim t q x <-> b <= x < b + y).
Proof.
  intros Hd Hc. destruct (take_first_spec d n Hd Hc) as (t & Et & _ & Dt & Ht).
  destruct (remove_first_spec d n Hd Hc) as (r & Er & _ & Dr & Hr).
  exists t, r. do 4 (split; [assumption|]).
  assert (A : forall q b f y, In (q, (b, f)) d -> val_of n q y ->
     (forall x, in_dim t q x <-> b <= x < b + y) /\ (forall x, in_dim r q x <-> b + y <= x < f)).
  { intros q b f y Hi Hy. split; intros x; split.
    - intros (b' & f' & H1 & H2). apply Ht in H1 as (y' & f0 & H3 & H4 & ->).
      destruct (dom_fun d q b f b' f0 (proj1 Hd) Hi H4); subst. rewrite (val_of_fun n q y y'); auto. apply Hc.
    - intros H. exists b, (b + y). split; auto. apply Ht. eauto.
    - intros (b' & f' & H1 & H2). apply Hr in H1 as (y' & b0 & H3 & H4 & ->).
      destruct (dom_fun d q b f b0 f' (proj1 Hd) Hi H4); subst. rewrite (val_of_fun n q y y'); auto. apply Hc.
    - intros H. exists (b + y), f. split; auto. apply Hr. eauto. }
  assert (B : forall q, In q (ddims d) -> exists b f y, In (q, (b, f)) d /\ val_of n q y /\ 0 <= y <= f - b).
  { intros q Hq. apply ddims_in in Hq as (b & f & Hi). destruct (cut_val d n q b f Hc Hi) as (y & Hy & H). eauto 7. }
  assert (Q : forall e q x, ddims e = ddims d -> in_dim e q x -> In q (ddims d)).
  { intros e q x <- (b & f & H & _). apply ddims_in. eauto. }
  split; [|split].
  - intros q x. split.
    + intros H. destruct (B q (Q d q x eq_refl H)) as (b & f & y & Hi & Hy & Hyr). destruct (A q b f y Hi Hy) as [A1 A2].
      destruct H as (b' & f' & H1 & H2). destruct (dom_fun d q b f b' f' (proj1 Hd) Hi H1); subst.
      rewrite A1, A2. lia.
    + intros [H|H].
      * destruct (B q (Q t q x Dt H)) as (b & f & y & Hi & Hy & Hyr). destruct (A q b f y Hi Hy) as [A1 A2].
        apply A1 in H. exists b, f. split; auto. lia.
      * destruct (B q (Q r q x Dr H)) as (b & f & y & Hi & Hy & Hyr). destruct (A q b f y Hi Hy) as [A1 A2].
        apply A2 in H. exists b, f. split; auto. lia.
  - intros q x [H1 H2]. destruct (B q (Q t q x Dt H1)) as (b & f & y & Hi & Hy & Hyr). destruct (A q b f y Hi Hy) as [A1 A2].
    apply A1 in H1. apply A2 in H2. lia.
  - intros q b f y Hi Hy. apply (A q b f y Hi Hy).
Qed.
Lemma cut_last_partition d n : dom_wf d -> cut_ok d n ->
  exists t r, take_last d n = Ok t /\ remove_last d n = Ok r /\ ddims t = ddims d /\ ddims r = ddims d /\
    (forall q x, in_dim d q x <-> in_dim t q x \/ in_dim r q x) /\
    (forall q x, ~ (in_dim t q x /\ in_dim r q x)) /\
    (forall q b f y, In (q, (b, f)) d -> val_of n q y -> forall x, in_dim t q x <-> f - y <= x < f).
Proof.
  intros Hd Hc. destruct (take_last_spec d n Hd Hc) as (t & Et & _ & Dt & Ht).
  destruct (remove_last_spec d n Hd Hc) as (r & Er & _ & Dr & Hr).
  exists t, r. do 4 (split; [assumption|]).
  assert (A : forall q b f y, In (q, (b, f)) d -> val_of n q y ->
     (forall x, in_dim t q x <-> f - y <= x < f) /\ (forall x, in_dim r q x <-> b <= x < f - y)).
  { intros q b f y Hi Hy. split; intros x; split.
    - intros (b' & f' & H1 & H2). apply Ht in H1 as (y' & b0 & H3 & H4 & ->).
      destruct (dom_fun d q b f b0 f' (proj1 Hd) Hi H4); subst. rewrite (val_of_fun n q y y'); auto. apply Hc.
    - intros H. exists (f - y), f. split; auto. apply Ht. eauto.
    - intros (b' & f' & H1 & H2). apply Hr in H1 as (y' & f0 & H3 & H4 & ->).
      destruct (dom_fun d q b f b' f0 (proj1 Hd) Hi H4); subst. rewrite (val_of_fun n q y y'); auto. apply Hc.
    - intros H. exists b, (f - y). split; auto. apply Hr. eauto. }
  assert (B : forall q, In q (ddims d) -> exists b f y, In (q, (b, f)) d /\ val_of n q y /\ 0 <= y <= f - b).
  { intros q Hq. apply ddims_in in Hq as (b & f & Hi). destruct (cut_val d n q b f Hc Hi) as (y & Hy & H). eauto 7. }
  assert (Q : forall e q x, ddims e = ddims d -> in_dim e q x -> In q (ddims d)).
  { intros e q x <- (b & f & H & _). apply ddims_in. eauto. }
  split; [|split].
  - intros q x. split.
    + intros H. destruct (B q (Q d q x eq_refl H)) as (b & f & y & Hi & Hy & Hyr). destruct (A q b f y Hi Hy) as [A1 A2].
      destruct H as (b' & f' & H1 & H2). destruct (dom_fun d q b f b' f' (proj1 Hd) Hi H1); subst.
      rewrite A1, A2. lia.
    + intros [H|H].
      * destruct (B q (Q t q x Dt H)) as (b & f & y & Hi & Hy & Hyr). destruct (A q b f y Hi Hy) as [A1 A2].
        apply A1 in H. exists b, f. split; auto. lia.
      * destruct (B q (Q r q x Dr H)) as (b & f & y & Hi & Hy & Hyr). destruct (A q b f y Hi Hy) as [A1 A2].
        apply A2 in H. exists b, f. split; auto. lia.
  - intros q x [H1 H2]. destruct (B q (Q t q x Dt H1)) as (b & f & y & Hi & Hy & Hyr). destruct (A q b f y Hi Hy) as [A1 A2].
    apply A1 in H1. apply A2 in H2. lia.
  - intros q b f y Hi Hy. apply (A q b f y Hi Hy).
Qed.
Lemma cut_both d n1 n2 : dom_wf d -> cut_ok d n1 -> cut_ok d n2 ->
  (forall q b f y1 y2, In (q, (b, f)) d -> val_of n1 q y1 -> val_of n2 q y2 -> y1 + y2 <= f - b) ->
  exists r, remove_both d n1 n2 = Ok r /\ ddims r = ddims d /\
    forall q b f y1 y2, In (q, (b, f)) d -> val_of n1 q y1 -> val_of n2 q y2 ->
      forall x, in_dim r q x <-> b + y1 <= x < f - y2.
Proof.
  intros Hd H1 H2 H12. destruct (remove_both_spec d n1 n2 Hd H1 H2 H12) as (r & E & _ & D & H).
  exists r. do 2 (split; [assumption|]). intros q b f y1 y2 Hi Hy1 Hy2 x. split.
  - intros (b' & f' & G1 & G2). apply H in G1 as (z1 & z2 & b0 & f0 & G3 & G4 & G5 & -> & ->).
    destruct (dom_fun d q b f b0 f0 (proj1 Hd) Hi G5); subst.
    rewrite (val_of_fun n1 q y1 z1), (val_of_fun n2 q y2 z2); auto; try apply H1; try apply H2.
  - intros G. exists (b + y1), (f - y2). split; auto. apply H. exists y1, y2, b, f. auto.
Qed.

(** Strided domains: cutting partitions the element set. *)
Lemma s_cut_first_partition d v : sdom_wf d -> Forall2 (fun p k => cut1 (snd p) k) d v ->
  exists t r, s_take_first d v = Ok t /\ s_remove_first d v = Ok r /\ sdims t = sdims d /\ sdims r = sdims d /\
    (forall xs, in_progressions t xs <-> in_progressions d xs /\
        Forall2 (fun pk x => x < sb (snd (fst pk)) + snd pk * ss (snd (fst pk))) (combine d v) xs) /\
    (forall xs, in_progressions r xs <-> in_progressions d xs /\
        Forall2 (fun pk x => sb (snd (fst pk)) + snd pk * ss (snd (fst pk)) <= x) (combine d v) xs).
Proof.
  intros Hd Hv.
  destruct (lift_cut s_take_first1 cut1 (fun p k x => x < sb p + k * ss p) s_take_first1_exact d v Hd Hv) as (t & Et & Dt & _ & Ht).
  destruct (lift_cut s_remove_first1 cut1 (fun p k x => sb p + k * ss p <= x) s_remove_first1_exact d v Hd Hv) as (r & Er & Dr & _ & Hr).
  exists t, r. auto 10.
Qed.
Lemma s_cut_last_partition d v : sdom_wf d -> Forall2 (fun p k => cut1 (snd p) k) d v ->
  exists t r, s_take_last d v = Ok t /\ s_remove_last d v = Ok r /\ sdims t = sdims d /\ sdims r = sdims d /\
    (forall xs, in_progressions t xs <-> in_progressions d xs /\
        Forall2 (fun pk x => sb (snd (fst pk)) + (sn (snd (fst pk)) - snd pk) * ss (snd (fst pk)) <= x) (combine d v) xs) /\
    (forall xs, in_progressions r xs <-> in_progressions d xs /\
        Forall2 (fun pk x => x < sb (snd (fst pk)) + (sn (snd (fst pk)) - snd pk) * ss (snd (fst pk))) (combine d v) xs).
Proof.
  intros Hd Hv.
  destruct (lift_cut s_take_last1 cut1 (fun p k x => sb p + (sn p - k) * ss p <= x) s_take_last1_exact d v Hd Hv) as (t & Et & Dt & _ & Ht).
  destruct (lift_cut s_remove_last1 cut1 (fun p k x => x < sb p + (sn p - k) * ss p) s_remove_last1_exact d v Hd Hv) as (r & Er & Dr & _ & Hr).
  exists t, r. auto 10.
Qed.

(** Without a bound on the number of elements, [operator==] is wrong: 2^32 * 2^32 wraps to 0. *)
Lemma dom_eq_wraps : exists d o, dom_wf d /\ dom_wf o /\ ddims d = ddims o /\
  dom_eq d o = Ok true /\ exists e, in_box d e /\ ~ in_box o e.
Proof.
  exists [(0%nat, (0, 2 ^ 32)); (1%nat, (0, 2 ^ 32))], [(0%nat, (0, 0)); (1%nat, (0, 0))].
  assert (N : NoDup [0%nat; 1%nat]) by (repeat constructor; simpl; intuition lia).
  split; [|split; [|split; [|split]]].
  - split; [exact N|]. repeat constructor; simpl; lia.
  - split; [exact N|]. repeat constructor; simpl; lia.
  - reflexivity.
  - vm_compute. reflexivity.
  - exists [(0%nat, 0); (1%nat, 0)]. split.
    + split; [split; [exact N | simpl; tauto]|]. intros q b f [H|[H|[]]]; injection H as <- <- <-; exists 0; split; try lia; unfold val_of; simpl; auto.
    + intros [_ H]. destruct (H 0%nat 0 0) as (x & _ & Hx); [simpl; auto | lia].
Qed.
(** [contains] of an empty strided domain may return true. *)
Lemma s_contains_empty : exists d e, sdom_wf d /\ s_contains d [e] = Ok true /\ ~ in_progressions d (values e).
Proof.
  exists [(0%nat, {| sb := 0; sn := 0; ss := 2 |})], [(0%nat, 0)]. split; [|split].
  - split; [repeat constructor; simpl; auto|]. repeat constructor; simpl; lia.
  - vm_compute. reflexivity.
  - intros H. inversion H as [|? ? ? ? (k & Hk & _)]; subst. simpl in Hk. lia.
Qed.
(** The difference of strided iterators is not the number of increments. *)
Lemma sit_diff_not_count : exists s x n y, 0 < s /\ sit_add s x n = Ok y /\ sit_diff y x <> Ok n.
Proof. exists 3, 10, 2, 16. split; [lia|]. split; vm_compute; [reflexivity | discriminate]. Qed.
(** A negative offset of -2^63 cannot be applied to an iterator. *)
Lemma it_add_min : exists x, is_u64 x /\ it_add x (- 2 ^ 63) = Undef.
Proof. exists 0. split; [unfold is_u64; mlia | reflexivity]. Qed.
(** Two strided domains with the same elements may compare different. *)
Lemma s_eq_incomplete : exists d o, sdom_wf d /\ sdom_wf o /\ sdims d = sdims o /\
  (forall xs, in_progressions d xs <-> in_progressions o xs) /\ s_eq d o = false.
Proof.
  exists [(0%nat, {| sb := 5; sn := 1; ss := 2 |})], [(0%nat, {| sb := 5; sn := 1; ss := 3 |})].
  assert (W : forall s, 0 < s < 10 -> sdom_wf [(0%nat, {| sb := 5; sn := 1; ss := s |})]).
  { intros s Hs. split; [repeat constructor; simpl; auto|]. constructor; [unfold sdim_wf; cbn [sb sn ss snd]; lia | constructor]. }
  split; [apply W; lia|]. split; [apply W; lia|]. split; [reflexivity|]. split; [|vm_compute; reflexivity].
  intros xs. split; intros H; inversion H as [|? ? ? ? (k & Hk & ->) Hn]; subst; cbn [sb sn ss snd] in *;
    constructor; auto; exists 0; cbn [sb sn ss snd]; lia.
Qed.

Lemma cat_exact a b k : nth_error (type_seq_cat a b) k = if Nat.ltb k (length a) then nth_error a k else nth_error b (k - length a).
Proof.
  unfold type_seq_cat. destruct (Nat.ltb_spec k (length a)); [now apply nth_error_app1 | now apply nth_error_app2].
Qed.
Lemma s_back_exact p : sdim_wf p -> 0 < sn p -> exists x, s_back1 p = Ok x /\ progression p x /\ forall y, progression p y -> y <= x.
Proof.
  intros (H1 & H2 & H3 & H4 & H5) Hn. exists (sb p + (sn p - 1) * ss p). split; [|split].
  - unfold s_back1. rewrite ssub_ok' by lia. cbn [rbind]. rewrite smul_ok by nia. cbn [rbind]. f_equal. unfold u64_add, u64. change two64 with (2 ^ 64).
    apply Z.mod_small. nia.
  - exists (sn p - 1). lia.
  - intros y (k & Hk & ->). nia.
Qed.
Definition s_count (d : sdomain) : Z := fold_right (fun p z => sn (snd p) * z) 1 d.
Lemma s_size_mod d acc : 0 <= acc < 2 ^ 64 -> fold_left (fun acc p => u64_mul acc (u64 (sn (snd p)))) d acc = (acc * s_count d) mod 2 ^ 64.
Proof.
  revert acc. induction d as [|p d IH]; intros acc Ha; cbn [fold_left s_count fold_right].
  - rewrite Z.mul_1_r, Z.mod_small; auto.
  - rewrite IH by (unfold u64_mul, u64; change two64 with (2 ^ 64); apply Z.mod_pos_bound; lia).
    unfold u64_mul, u64. change two64 with (2 ^ 64). rewrite Z.mul_mod_idemp_r, Z.mul_mod_idemp_l by lia. f_equal. fold (s_count d). ring.
Qed.
Lemma s_count_zero d : Forall (fun p => sdim_wf (snd p)) d -> 0 <= s_count d /\ (s_count d = 0 <-> forall xs, ~ in_progressions d xs).
Proof.
  induction 1 as [|[q p] d (H1 & H2 & H3 & _) _ [IH1 IH2]]; cbn [s_count fold_right snd].
  - split; [lia|]. split; [lia|]. intros H. exfalso. apply (H []). constructor.
  - fold (s_count d). cbn [snd] in *. split; [nia|]. split.
    + intros H xs Hx. inversion Hx as [|? ? ? ? (k & Hk & _) Hr]; subst. cbn [snd] in Hk. assert (E : s_count d = 0) by nia. now apply IH2 in Hr.
    + intros H. destruct (Z.eq_dec (sn p) 0) as [->|Hn]; [lia|]. destruct (Z.eq_dec (s_count d) 0) as [->|Hd]; [lia|].
      exfalso. apply Hd, IH2. intros xs Hx. apply (H (sb p :: xs)). constructor; auto. exists 0. cbn [snd]. lia.
Qed.
Lemma sdim_eqb_eq a b : sdim_eqb a b = true <-> a = b.
Proof. destruct a, b. unfold sdim_eqb. cbn. rewrite !andb_true_iff, !Z.eqb_eq. split; [intros [[-> ->] ->]; auto|]. intros E. injection E; auto. Qed.
Lemma s_eq_exact d o : sdom_wf d -> sdom_wf o -> sdims d = sdims o ->
  fold_right (fun p z => sn (snd p) * z) 1 d < 2 ^ 64 -> fold_right (fun p z => sn (snd p) * z) 1 o < 2 ^ 64 ->
  s_eq d o = true <-> d = o \/ ((forall xs, ~ in_progressions d xs) /\ (forall xs, ~ in_progressions o xs)).
Proof.
  intros [_ Hd] [_ Ho] Hs Bd Bo. fold (s_count d) in Bd. fold (s_count o) in Bo.
  destruct (s_count_zero d Hd) as [Nd Zd]. destruct (s_count_zero o Ho) as [No Zo].
  assert (Ed : s_empty d = true <-> s_count d = 0) by (unfold s_empty, s_size; rewrite s_size_mod, Z.mul_1_l, Z.mod_small by lia; apply Z.eqb_eq).
  assert (Eo : s_empty o = true <-> s_count o = 0) by (unfold s_empty, s_size; rewrite s_size_mod, Z.mul_1_l, Z.mod_small by lia; apply Z.eqb_eq).
  assert (G : all2b (fun p q => sdim_eqb (snd p) (snd q)) d o = true <-> d = o).
  { clear -Hs. revert o Hs. induction d as [|[q p] d IH]; intros [|[q' p'] o] Hs; cbn in *; try discriminate; [tauto|].
    injection Hs as -> Hs. rewrite andb_true_iff, sdim_eqb_eq, IH by exact Hs. split; [intros [-> ->]; auto|]. intros E. injection E; auto. }
  unfold s_eq. destruct (s_empty d && s_empty o) eqn:E.
  - apply andb_true_iff in E as [E1 E2]. split; auto. intros _. right. split; [apply Zd, Ed, E1 | apply Zo, Eo, E2].
  - rewrite G. split; auto. intros [H|[H1 H2]]; auto. apply Zd, Ed in H1. apply Zo, Eo in H2. rewrite H1, H2 in E. discriminate.
Qed.

Lemma restrict_outside d o q b f b' f' : dom_wf d -> dom_wf o -> incl (ddims o) (ddims d) ->
  In (q, (b, f)) d -> In (q, (b', f')) o -> b' < b \/ f < f' -> restrict_with d o = Undef.
Proof.
  intros Hd Ho Hi Hq Hq' Hlt. unfold restrict_with.
  assert (E : assert_le d o = Ok false).
  { unfold assert_le. rewrite (map_res_ok _ (fun p => match get (fst p) (dom_begin d), get (fst p) (dom_end d) with
      | Ok x, Ok y => (x <=? fst (snd p)) && (snd (snd p) <=? y) | _, _ => false end)).
    - cbn [rbind]. f_equal. destruct (forallb id _) eqn:F; auto. rewrite forallb_forall in F.
      specialize (F _ (in_map _ _ _ Hq')). cbn [fst snd id] in F.
      assert (E1 : get q (dom_begin d) = Ok b) by (apply get_spec; [rewrite dims_dom_begin; apply Hd | apply val_dom_begin; eauto]).
      assert (E2 : get q (dom_end d) = Ok f) by (apply get_spec; [rewrite dims_dom_end; apply Hd | apply val_dom_end; eauto]).
      unfold id in F. rewrite E1, E2 in F. lia.
    - intros [q0 [x y]] Hin. cbn [fst snd].
      assert (Hq0 : In q0 (ddims d)) by (apply Hi; apply (in_map fst) in Hin; exact Hin).
      destruct (get_in q0 (dom_begin d)) as [x1 ->]; [now rewrite dims_dom_begin|].
      destruct (get_in q0 (dom_end d)) as [x2 ->]; [now rewrite dims_dom_end|]. reflexivity. }
  rewrite E. reflexivity.
Qed.
