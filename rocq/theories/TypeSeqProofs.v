From Coq Require Import Permutation.
From Verif Require Import Machine MachineProofs TypeSeqModel.
Open Scope nat_scope.

Lemma ts_rank_some q s k : ts_rank q s = Some k ->
  nth_error s k = Some q /\ forall j, j < k -> nth_error s j <> Some q.
Proof.
  revert k. induction s as [|h t IH]; simpl; intros k H; [discriminate|].
  destruct (Nat.eqb_spec q h) as [->|Hn].
  - injection H as <-. split; [reflexivity | lia].
  - destruct (ts_rank q t) as [j|] eqn:E; [|discriminate]. injection H as <-.
    destruct (IH j eq_refl) as [H1 H2]. split; [exact H1|].
    intros [|i] Hi; simpl; [congruence | apply H2; lia].
Qed.
Lemma ts_rank_none q s : ts_rank q s = None <-> ~ In q s.
Proof.
  induction s as [|h t IH]; simpl; [tauto|].
  destruct (Nat.eqb_spec q h) as [->|Hn].
  - split; [discriminate | tauto].
  - destruct (ts_rank q t); split; intros H.
    + discriminate.
    + exfalso. apply H. right. destruct (in_dec Nat.eq_dec q t); [assumption|].
      apply IH in n0. discriminate.
    + intros [He|Hi]; [congruence|]. now apply (proj1 IH).
    + reflexivity.
Qed.
Lemma ts_rank_in q s : In q s <-> exists k, ts_rank q s = Some k.
Proof.
  destruct (ts_rank q s) as [k|] eqn:E.
  - split; [eauto | intros _]. apply ts_rank_some in E. eapply nth_error_In, E.
  - apply ts_rank_none in E. split; [tauto | intros [k H]; discriminate].
Qed.
Lemma ts_rank_first q s k : nth_error s k = Some q ->
  (forall j, j < k -> nth_error s j <> Some q) -> ts_rank q s = Some k.
Proof.
  revert k. induction s as [|h t IH]; intros [|k] H Hf; simpl in *; try discriminate.
  - injection H as ->. now rewrite Nat.eqb_refl.
  - destruct (Nat.eqb_spec q h) as [->|Hn].
    + exfalso. apply (Hf 0); [lia | reflexivity].
    + rewrite (IH k); [reflexivity | exact H |].
      intros j Hj. apply (Hf (S j)). lia.
Qed.
Lemma in_tags_v_spec q s : in_tags_v q s = true <-> In q s.
Proof.
  unfold in_tags_v. rewrite ts_rank_in. destruct (ts_rank q s); split; eauto; try discriminate.
  intros [? ?]; discriminate.
Qed.
Lemma in_tags_v_false q s : in_tags_v q s = false <-> ~ In q s.
Proof. rewrite <- in_tags_v_spec. destruct (in_tags_v q s); split; congruence. Qed.
Lemma contains_spec a b : type_seq_contains_v a b = true <-> incl a b.
Proof.
  unfold type_seq_contains_v. rewrite forallb_forall. unfold incl.
  split; intros H x Hx; apply in_tags_v_spec; auto.
Qed.

Lemma ts_remove_spec a b r : ts_remove a b r = r ++ filter (fun x => negb (in_tags_v x b)) a.
Proof.
  revert r. induction a as [|h t IH]; intros r; simpl; [now rewrite app_nil_r|].
  destruct (in_tags_v h b); simpl; rewrite IH; [reflexivity | now rewrite <- app_assoc].
Qed.
Lemma ts_merge_spec a b r : ts_merge a b r = r ++ filter (fun x => negb (in_tags_v x a)) b.
Proof.
  revert r. induction b as [|h t IH]; intros r; simpl; [now rewrite app_nil_r|].
  destruct (in_tags_v h a); simpl; rewrite IH; [reflexivity | now rewrite <- app_assoc].
Qed.
Lemma ts_replace_spec a b c r : length b = length c ->
  exists s, ts_replace a b c r = Some (r ++ s) /\ length s = length a /\
  forall i x, nth_error a i = Some x ->
     (forall k, ts_rank x b = Some k -> nth_error s i = nth_error c k) /\
     (ts_rank x b = None -> nth_error s i = Some x).
Proof.
  intros Hl.
  assert (Hs : forall x, exists y, ts_replace_single x b c = Some y /\
     (forall k, ts_rank x b = Some k -> Some y = nth_error c k) /\
     (ts_rank x b = None -> y = x)).
  { intros x. clear a r. revert c Hl. induction b as [|h t IH]; intros [|hc tc] Hl; simpl in *;
      try discriminate.
    - exists x. repeat split; auto. discriminate.
    - destruct (Nat.eqb_spec x h) as [->|Hn].
      + exists hc. repeat split; intros; try discriminate. now injection H as <-.
      + destruct (IH tc) as (y & H1 & H2 & H3); [lia|]. exists y. split; [exact H1|].
        destruct (ts_rank x t) as [j|] eqn:E.
        * split; [|discriminate]. intros k Hk. injection Hk as <-. simpl. apply H2; auto.
        * split; [discriminate | intros _; apply H3; auto]. }
  revert r. induction a as [|h t IH]; intros r; simpl.
  - exists []. rewrite app_nil_r. repeat split; auto; destruct i; discriminate.
  - destruct (Hs h) as (y & H1 & H2 & H3). rewrite H1.
    destruct (IH (r ++ [y])) as (s & E & Hlen & Hi). exists (y :: s).
    rewrite E, <- app_assoc. split; [reflexivity|]. split; [simpl; lia|].
    intros [|i] x Hx; simpl in *.
    + injection Hx as ->. split; [intros k Hk; apply H2; auto | intros Hn; f_equal; auto].
    + apply Hi; auto.
Qed.
Lemma ts_replace_nodup a b c s : NoDup a -> NoDup c -> length b = length c ->
  (forall x, In x a -> In x c -> In x b) ->
  type_seq_replace a b c = Some s -> NoDup s.
Proof.
  intros Ha Hc Hl Hd He. unfold type_seq_replace in He.
  destruct (ts_replace_spec a b c [] Hl) as (s' & E & Hlen & Hi). rewrite E in He.
  simpl in He. injection He as <-.
  apply NoDup_nth_error. intros i j Hi' Hj.
  assert (Hia : i < length a) by lia.
  destruct (nth_error a i) as [x|] eqn:Ex; [|apply nth_error_None in Ex; lia].
  destruct (nth_error s' i) as [v|] eqn:Ev; [|apply nth_error_None in Ev; lia].
  assert (Hja : j < length a).
  { rewrite <- Hlen. apply nth_error_Some. congruence. }
  destruct (nth_error a j) as [y|] eqn:Ey; [|apply nth_error_None in Ey; lia].
  destruct (Hi i x Ex) as [Hx1 Hx2]. destruct (Hi j y Ey) as [Hy1 Hy2].
  assert (Hxy : x = y).
  { destruct (ts_rank x b) as [k|] eqn:Rk; destruct (ts_rank y b) as [l|] eqn:Rl.
    - specialize (Hx1 k eq_refl). specialize (Hy1 l eq_refl).
      assert (Hk : nth_error c k = nth_error c l) by congruence.
      apply ts_rank_some in Rk. apply ts_rank_some in Rl.
      assert (k < length c). { rewrite <- Hl. apply nth_error_Some. destruct Rk; congruence. }
      assert (k = l). { eapply (proj1 (NoDup_nth_error c) Hc); auto. }
      subst l. destruct Rk, Rl. congruence.
    - specialize (Hx1 k eq_refl). specialize (Hy2 eq_refl). exfalso.
      apply ts_rank_none in Rl. apply Rl. apply Hd; [eapply nth_error_In; eauto|].
      eapply nth_error_In with (n := k). congruence.
    - specialize (Hx2 eq_refl). specialize (Hy1 l eq_refl). exfalso.
      apply ts_rank_none in Rk. apply Rk. apply Hd; [eapply nth_error_In; eauto|].
      eapply nth_error_In with (n := l). congruence.
    - specialize (Hx2 eq_refl). specialize (Hy2 eq_refl). congruence. }
  subst y. eapply (proj1 (NoDup_nth_error a) Ha); congruence.
Qed.

Lemma filter_length_lt {A} (f : A -> bool) l : length (filter f l) <= length l.
Proof. induction l; simpl; [lia|]. destruct (f a); simpl; lia. Qed.
Lemma remove_one_count q s :
  length (type_seq_remove s [q]) = length s - count_occ Nat.eq_dec s q.
Proof.
  unfold type_seq_remove. rewrite ts_remove_spec. simpl app.
  assert (H : length (filter (fun x => negb (in_tags_v x [q])) s) + count_occ Nat.eq_dec s q = length s).
  { induction s as [|h t IH]; simpl; [reflexivity|].
    unfold in_tags_v at 1. simpl. destruct (Nat.eqb_spec h q) as [->|Hn]; simpl.
    - destruct (Nat.eq_dec q q); [|congruence]. lia.
    - destruct (Nat.eq_dec h q); [congruence|]. lia. }
  lia.
Qed.
Lemma is_unique_spec s : type_seq_is_unique_v s = true <-> NoDup s.
Proof.
  unfold type_seq_is_unique_v. rewrite forallb_forall.
  rewrite (NoDup_count_occ Nat.eq_dec). unfold type_seq_size_v. split; intros H x.
  - destruct (in_dec Nat.eq_dec x s) as [Hi|Hn].
    + specialize (H x Hi). apply Nat.eqb_eq in H. rewrite remove_one_count in H.
      assert (length s > 0) by (destruct s; simpl in *; [tauto | lia]).
      assert (count_occ Nat.eq_dec s x <= length s) by apply count_occ_bound. lia.
    + apply (count_occ_not_In Nat.eq_dec) in Hn. lia.
  - intros Hx. apply Nat.eqb_eq. rewrite remove_one_count. specialize (H x).
    apply (count_occ_In Nat.eq_dec) in Hx. lia.
Qed.

(** Consolidated statements used by the property files. *)
Lemma rank_exact q s :
  (In q s -> exists k, type_seq_rank_v q s = Z.of_nat k /\ nth_error s k = Some q /\
     forall j, j < k -> nth_error s j <> Some q) /\
  (~ In q s -> type_seq_rank_v q s = (2 ^ 64 - 1)%Z).
Proof.
  unfold type_seq_rank_v. split; intros H.
  - apply ts_rank_in in H as [k Hk]. exists k. rewrite Hk.
    destruct (ts_rank_some _ _ _ Hk); auto.
  - apply ts_rank_none in H. now rewrite H.
Qed.
Lemma merge_exact a b :
  (forall x, In x (type_seq_merge a b) <-> In x a \/ In x b) /\
  (exists rest, type_seq_merge a b = a ++ rest /\
     rest = filter (fun x => if in_dec Nat.eq_dec x a then false else true) b) /\
  (NoDup a -> NoDup b -> NoDup (type_seq_merge a b)).
Proof.
  unfold type_seq_merge. rewrite ts_merge_spec.
  assert (E : filter (fun x => negb (in_tags_v x a)) b =
              filter (fun x => if in_dec Nat.eq_dec x a then false else true) b).
  { apply filter_ext. intros x. destruct (in_dec Nat.eq_dec x a) as [Hi|Hn].
    - apply in_tags_v_spec in Hi. now rewrite Hi.
    - apply in_tags_v_false in Hn. now rewrite Hn. }
  split; [|split].
  - intros x. rewrite in_app_iff, filter_In. destruct (in_dec Nat.eq_dec x a) as [Hi|Hn]; [tauto|].
    apply in_tags_v_false in Hn as Hn'. rewrite Hn'. simpl. tauto.
  - eauto.
  - intros Ha Hb. clear E. induction a as [|h t IH].
    + simpl. now apply NoDup_filter.
    + set (f := fun x => negb (in_tags_v x (h :: t))).
      assert (forall x, In x (filter f b) -> ~ In x (h :: t)).
      { intros x Hx. apply filter_In in Hx as [_ Hx]. apply in_tags_v_false.
        unfold f in Hx. destruct (in_tags_v x (h :: t)); [discriminate | reflexivity]. }
      assert (Hf : NoDup (filter f b)) by now apply NoDup_filter.
      clearbody f. clear IH Hb. revert H. generalize (h :: t) Ha. clear Ha.
      intros l Hl H. induction l as [|y l IHl]; simpl; [exact Hf|].
      inversion Hl; subst. constructor.
      * rewrite in_app_iff. intros [Hy|Hy]; [tauto|]. apply (H y Hy). now left.
      * apply IHl; auto. intros x Hx Hxl. apply (H x Hx). now right.
Qed.
Lemma remove_exact a b :
  type_seq_remove a b = filter (fun x => if in_dec Nat.eq_dec x b then false else true) a /\
  (NoDup a -> NoDup (type_seq_remove a b)).
Proof.
  unfold type_seq_remove. rewrite ts_remove_spec. simpl app. split.
  - apply filter_ext. intros x. destruct (in_dec Nat.eq_dec x b) as [Hi|Hn].
    + apply in_tags_v_spec in Hi. now rewrite Hi.
    + apply in_tags_v_false in Hn. now rewrite Hn.
  - intros Ha. now apply NoDup_filter.
Qed.
Lemma replace_exact a b c : length b = length c ->
  exists s, type_seq_replace a b c = Some s /\ length s = length a /\
  (forall i x, nth_error a i = Some x -> ~ In x b -> nth_error s i = Some x) /\
  (forall i k x, nth_error a i = Some x -> nth_error b k = Some x ->
     (forall j, j < k -> nth_error b j <> Some x) -> nth_error s i = nth_error c k) /\
  (NoDup a -> NoDup c -> (forall x, In x a -> In x c -> In x b) -> NoDup s).
Proof.
  intros Hl. destruct (ts_replace_spec a b c [] Hl) as (s & E & Hlen & Hi).
  exists s. unfold type_seq_replace. rewrite E. simpl.
  split; [reflexivity|]. split; [exact Hlen|]. split; [|split].
  - intros i x Hx Hn. apply Hi; auto. now apply ts_rank_none.
  - intros i k x Hx Hk Hf. apply (Hi i x Hx). now apply ts_rank_first.
  - intros Ha Hc Hd. eapply (ts_replace_nodup a b c); eauto.
Qed.
Lemma same_exact a b : type_seq_same_v a b = true <-> (forall x, In x a <-> In x b).
Proof.
  unfold type_seq_same_v. rewrite andb_true_iff, !contains_spec. unfold incl.
  firstorder.
Qed.
