From Coq Require Import Sorting.Sorted.
From Verif Require Import ListAux Machine MachineProofs TypeSeqModel TypeSeqProofs TaggedModel TaggedSpec TaggedProofs
  DomainModel DomainSpec DomainProofs DomainProofs2 StridedModel StridedSpec StridedProofs SparseModel SparseSpec.

Lemma sorted_nth (R : Z -> Z -> Prop) l i j x y : StronglySorted R l -> (i < j)%nat ->
  nth_error l i = Some x -> nth_error l j = Some y -> R x y.
Proof.
  intros H. revert i j. induction H as [|a l Hs IH Hf]; intros [|i] [|j] Hij Hi Hj; simpl in *; try discriminate; try lia.
  - injection Hi as ->. rewrite Forall_forall in Hf. apply Hf. eapply nth_error_In; eauto.
  - apply (IH i j); auto. lia.
Qed.

(** The loop invariant: everything left of [first] is smaller, everything from [first + count] is not. *)
Lemma lower_bound_loop_spec fuel l v : StronglySorted Z.le l -> forall first count,
  (count <= fuel)%nat -> (first + count <= length l)%nat ->
  (forall j x, (j < first)%nat -> nth_error l j = Some x -> x < v) ->
  (forall j x, (first + count <= j)%nat -> nth_error l j = Some x -> v <= x) ->
  exists k, lower_bound_loop fuel l v first count = Some (Ok k) /\ (k <= length l)%nat /\
    (forall j x, (j < k)%nat -> nth_error l j = Some x -> x < v) /\
    (forall j x, (k <= j)%nat -> nth_error l j = Some x -> v <= x).
Proof.
  intros Hs. induction fuel as [|fuel IH]; intros first count Hf Hb H1 H2; cbn [lower_bound_loop].
  - replace count with O in * by lia. simpl. exists first. rewrite Nat.add_0_r in *. repeat split; auto.
  - destruct (Nat.ltb_spec 0 count) as [Hc|Hc].
    + assert (Hstep : (Nat.div2 count < count)%nat) by (apply Nat.lt_div2; auto).
      destruct (nth_error l (first + Nat.div2 count)) as [x|] eqn:E.
      2: { apply nth_error_None in E. lia. }
      destruct (Z.ltb_spec x v) as [Hlt|Hge].
      * apply IH; try lia.
        -- intros j y Hj Hy. destruct (Nat.eq_dec j (first + Nat.div2 count)) as [->|]; [congruence|].
           assert (y <= x); [|lia]. eapply (sorted_nth Z.le l j (first + Nat.div2 count)); eauto. lia.
        -- intros j y Hj Hy. apply (H2 j); auto. lia.
      * apply IH; auto; try lia. intros j y Hj Hy.
        destruct (Nat.eq_dec j (first + Nat.div2 count)) as [->|]; [congruence|].
        assert (x <= y); [|lia]. eapply (sorted_nth Z.le l (first + Nat.div2 count) j); eauto. lia.
    + replace count with O in * by lia. rewrite Nat.add_0_r in *. exists first. repeat split; auto.
Qed.
Lemma lower_bound_exact l v : StronglySorted Z.le l ->
  exists k, lower_bound l v = Some (Ok k) /\ (k <= length l)%nat /\
    (forall j x, (j < k)%nat -> nth_error l j = Some x -> x < v) /\
    (forall j x, (k <= j)%nat -> nth_error l j = Some x -> v <= x).
Proof.
  intros Hs. apply lower_bound_loop_spec; auto; try lia. intros j x Hj Hx. 
  assert (nth_error l j <> None) by congruence. apply nth_error_Some in H. lia.
Qed.
Lemma binary_search_exact l v : StronglySorted Z.le l ->
  exists r, binary_search l v = Some (Ok r) /\ (r = true <-> In v l).
Proof.
  intros Hs. destruct (lower_bound_exact l v Hs) as (k & E & Hk & H1 & H2). unfold binary_search. rewrite E.
  assert (Hin : In v l <-> nth_error l k = Some v).
  { split.
    - intros Hi. apply In_nth_error in Hi as [j Hj].
      destruct (lt_dec j k); [specialize (H1 j v ltac:(lia) Hj); lia|].
      destruct (Nat.eq_dec j k) as [->|]; auto.
      assert (Hkl : (k < length l)%nat) by (assert (nth_error l j <> None) by congruence; apply nth_error_Some in H; lia).
      destruct (nth_error l k) as [x|] eqn:Ex; [|apply nth_error_None in Ex; lia].
      assert (x <= v) by (eapply (sorted_nth Z.le l k j); eauto; lia).
      specialize (H2 k x ltac:(lia) Ex). f_equal. lia.
    - apply nth_error_In. }
  destruct (Nat.eqb_spec k (length l)) as [->|Hne].
  - exists false. split; auto. split; [discriminate|]. rewrite Hin. intros Hn.
    assert (nth_error l (length l) <> None) by congruence. apply nth_error_Some in H. lia.
  - destruct (nth_error l k) as [x|] eqn:Ex; [|apply nth_error_None in Ex; lia].
    eexists. split; [reflexivity|]. rewrite Hin. specialize (H2 k x ltac:(lia) Ex).
    destruct (Z.ltb_spec v x); simpl; split; intros; try discriminate; try (f_equal; lia); auto.
    injection H0 as ->. lia.
Qed.
Lemma lt_le_sorted l : StronglySorted Z.lt l -> StronglySorted Z.le l.
Proof.
  induction 1 as [|a l Hs IH Hf]; constructor; auto. eapply Forall_impl; [|exact Hf]. intros; lia.
Qed.
Lemma lower_bound_index l k v : StronglySorted Z.lt l -> nth_error l k = Some v -> lower_bound l v = Some (Ok k).
Proof.
  intros Hs Hk. destruct (lower_bound_exact l v (lt_le_sorted l Hs)) as (j & E & Hj & H1 & H2). rewrite E. do 2 f_equal.
  destruct (lt_eq_lt_dec j k) as [[H|H]|H]; auto.
  - assert (Hjl : (j < length l)%nat) by (assert (nth_error l k <> None) by congruence; apply nth_error_Some in H0; lia).
    destruct (nth_error l j) as [x|] eqn:Ex; [|apply nth_error_None in Ex; lia].
    assert (x < v) by (eapply (sorted_nth Z.lt l j k); eauto). specialize (H2 j x ltac:(lia) Ex). lia.
  - specialize (H1 k v H Hk). lia.
Qed.

Lemma sp_contains_loop_exact d e : Forall (fun p => StronglySorted Z.le (snd p)) d -> length e = length d ->
  exists r, sp_contains_loop d e = Ok r /\ (r = true <-> in_lists d e).
Proof.
  revert e. induction d as [|[t l] d IH]; intros [|i e] Hw Hl; simpl in *; try discriminate.
  - exists true. split; auto. split; auto. intros _. constructor.
  - inversion Hw; subst. destruct (binary_search_exact l i) as (r & E & Hr); auto. rewrite E. cbn [run rbind].
    destruct r.
    + destruct (IH e) as (r & E' & Hr'); auto. exists r. split; auto. rewrite Hr'. split.
      * intros H. constructor; auto. now apply Hr.
      * intros H. inversion H; subst. auto.
    + exists false. split; auto. split; [discriminate|]. intros H. inversion H; subst. now apply Hr.
Qed.
Lemma sp_contains_exact d es : NoDup (spdims d) -> Forall (fun p => StronglySorted Z.le (snd p)) d ->
  NoDup (dims (concat es)) -> (forall q, In q (dims (concat es)) <-> In q (spdims d)) ->
  exists r e, sp_contains d es = Ok r /\ dims e = spdims d /\ same_values e (concat es) /\
     (r = true <-> in_lists d (values e)).
Proof.
  intros Hnd Hwf He Hs. unfold sp_contains.
  assert (Hlen : length d = length (concat es)).
  { rewrite <- (map_length fst d), <- (map_length fst (concat es)).
    apply Nat.le_antisymm; apply NoDup_incl_length; auto; intros q Hq; now apply Hs. }
  rewrite sum_sizes_spec, <- Hlen, Nat.eqb_refl.
  destruct (construct_spec (spdims d) es He) as (e & E & Hde & Hv).
  { intros q Hq. now apply Hs. }
  rewrite E. cbn [rbind]. destruct (sp_contains_loop_exact d (values e)) as (r & Er & Hr); auto.
  - unfold values. rewrite map_length, <- (map_length fst e), <- (map_length fst d). f_equal. exact Hde.
  - exists r, e. repeat split; auto; try apply Hr; try (intros Hx; apply Hv in Hx; tauto).
    intros Hx. apply Hv. split; auto. apply Hs. eapply val_of_dims; eauto.
Qed.

Definition sp_elem_rel (d : spdomain) (v : list Z) (e : tagged) : Prop :=
  dims e = spdims d /\ Forall2 (fun pk x => 0 <= snd pk /\ nth_error (snd (fst pk)) (Z.to_nat (snd pk)) = Some x) (combine d v) (values e).
Definition sp_elem (d : spdomain) (v : list Z) : tagged :=
  map (fun pk => (fst (fst pk), nth (Z.to_nat (snd pk)) (snd (fst pk)) 0)) (combine d v).
Lemma sp_at_ok d v : sp_in_range d v -> sp_at d v = Ok (sp_elem d v).
Proof.
  intros H. unfold sp_at, sp_elem. induction H as [|[t l] k d v Hk H IH]; simpl; auto.
  unfold sp_at1 at 1. simpl in *. replace (k <? 0) with false by lia.
  rewrite (nth_error_nth' l 0) by lia. cbn [rbind]. rewrite IH. reflexivity.
Qed.
Lemma sp_elem_dims d v : length v = length d -> dims (sp_elem d v) = spdims d.
Proof.
  unfold sp_elem, dims, spdims. rewrite map_map. simpl. revert v.
  induction d as [|p d IH]; intros [|i v] H; simpl in *; try discriminate; auto. f_equal. apply IH. lia.
Qed.
Lemma sp_elem_in d v : sp_in_range d v -> in_lists d (values (sp_elem d v)).
Proof.
  intros H. induction H as [|[t l] k d v Hk H IH]; simpl; constructor; auto. simpl in *. apply nth_In. lia.
Qed.
Lemma sp_in_elem d xs : in_lists d xs -> exists v, sp_in_range d v /\ values (sp_elem d v) = xs.
Proof.
  intros H. induction H as [|[t l] x d xs Hx H (v & Hv & E)].
  - exists []. split; [constructor | reflexivity].
  - simpl in Hx. apply In_nth_error in Hx as [k Hk]. exists (Z.of_nat k :: v). split.
    + constructor; auto. simpl. assert (nth_error l k <> None) by congruence. apply nth_error_Some in H0. lia.
    + simpl. rewrite Nat2Z.id. f_equal; [now apply nth_error_nth|]. exact E.
Qed.
Lemma sp_distance_roundtrip d v : spdom_wf d -> sp_in_range d v ->
  exists e, sp_at d v = Ok e /\ in_lists d (values e) /\ sp_distance d [e] = Ok (combine (spdims d) v).
Proof.
  intros [Hn Hw] Hv. exists (sp_elem d v). split; [now apply sp_at_ok|]. split; [now apply sp_elem_in|].
  unfold sp_distance. rewrite sum_sizes_spec. simpl concat. rewrite app_nil_r.
  assert (Hl : length v = length d) by (symmetry; eapply Forall2_len; eauto).
  replace (length (sp_elem d v)) with (length d) by (unfold sp_elem; rewrite map_length, combine_length; lia).
  rewrite Nat.eqb_refl. rewrite construct_self; [|now apply sp_elem_dims | auto]. cbn [rbind].
  clear Hl Hn. induction Hv as [|[t l] k d v Hk H IH]; simpl; auto.
  inversion Hw; subst. simpl in *. unfold sp_distance1 at 1. simpl.
  rewrite (lower_bound_index l (Z.to_nat k)); [|auto | apply nth_error_nth'; lia]. cbn [run rbind].
  unfold sp_elem in IH. rewrite IH by auto. cbn [rbind]. rewrite Z2Nat.id by lia. reflexivity.
Qed.
Lemma sp_at_surjective d e : spdom_wf d -> dims e = spdims d -> in_lists d (values e) ->
  exists v, sp_distance d [e] = Ok (combine (spdims d) v) /\ sp_in_range d v /\ sp_at d v = Ok e.
Proof.
  intros Hd Hde Hp. destruct (sp_in_elem d (values e) Hp) as (v & Hv & E).
  assert (Ee : sp_elem d v = e).
  { assert (Hl : length v = length d) by (symmetry; eapply Forall2_len; eauto). assert (Hdd := sp_elem_dims d v Hl). rewrite <- Hde in Hdd.
    revert E Hdd. generalize (sp_elem d v). clear. intros a. revert e.
    induction a as [|[t x] a IH]; intros [|[t' y] e] E Hdd; simpl in *; try discriminate; auto.
    injection E as -> E. injection Hdd as -> Hdd. f_equal. auto. }
  exists v. destruct (sp_distance_roundtrip d v Hd Hv) as (e' & E1 & _ & E2).
  rewrite (sp_at_ok d v Hv) in E1. injection E1 as <-. rewrite Ee in E2. split; auto. split; auto.
  rewrite sp_at_ok by auto. now rewrite Ee.
Qed.
Lemma sp_for_each_exact d : spdom_wf d ->
  exists l : list tagged,
    (forall (S : Type) (f : tagged -> S -> S) (s : S), sp_host_for_each d f s = Ok (fold_left (fun s e => f e s) l s)) /\
    (forall e, In e l <-> dims e = spdims d /\ in_lists d (values e)) /\
    NoDup l /\ StronglySorted (fun a b => lex_lt (values a) (values b)) l.
Proof.
  intros Hd. set (sz := map (fun p : tag * list Z => Z.of_nat (length (snd p))) d).
  exists (map (sp_elem d) (box sz)).
  assert (Hr : forall is, Forall2 (fun i n => 0 <= i < n) is sz <-> sp_in_range d is).
  { intros is. unfold sp_in_range, sz. split.
    - revert is. clear. induction d as [|p d IH]; intros is H; inversion H; subst; constructor; auto.
    - intros H. clear Hd sz. induction H; simpl; constructor; auto. }
  split.
  { intros S f s. unfold sp_host_for_each. apply for_each_serial_trace. intros is His. apply Hr in His.
    assert (Hl : length is = length d) by (symmetry; eapply Forall2_len; eauto).
    replace (values (combine (spdims d) is)) with is; [now apply sp_at_ok|].
    unfold values, spdims. revert Hl. clear. revert is. induction d as [|p d IH]; intros [|i is] H; simpl in *; try discriminate; auto. f_equal. apply IH. lia. }
  assert (Hsort : StronglySorted (fun a b => lex_lt (values a) (values b)) (map (sp_elem d) (box sz))).
  { eapply StronglySorted_map; [|apply box_sorted]. intros x y Hx Hy.
    apply in_box_list, Hr in Hx. apply in_box_list, Hr in Hy. destruct Hd as [_ Hw]. clear Hr sz. revert y Hy.
    induction Hx as [|[t l] i d x Hi Hx IH]; intros y Hy; inversion Hy as [|? j ? y' Hj Hy']; subst; simpl in *; try tauto.
    inversion Hw as [|? ? Hp Hw']; subst. simpl in Hp.
    intros [H|[-> H]]; [left | right; split; [reflexivity | apply (IH Hw' y'); auto]].
    apply (sorted_nth Z.lt l (Z.to_nat i) (Z.to_nat j)); auto; try lia; apply nth_error_nth'; lia. }
  split; [|split; [|exact Hsort]].
  - intros e. rewrite in_map_iff. split.
    + intros (is & <- & Hi). apply in_box_list, Hr in Hi. split; [apply sp_elem_dims; symmetry; eapply Forall2_len; eauto | now apply sp_elem_in].
    + intros [Hde Hp]. destruct (sp_at_surjective d e Hd Hde Hp) as (v & _ & Hv & E).
      exists v. split; [|now apply in_box_list, Hr]. rewrite sp_at_ok in E by auto. now injection E.
  - eapply sorted_nodup; [|exact Hsort]. intros x. apply lex_irrefl.
Qed.

(** Equality. *)
Lemma sp_equal_exact l m : length l = length m -> (sp_equal l m = true <-> l = m).
Proof.
  revert m. induction l as [|x l IH]; intros [|y m] H; simpl in *; try discriminate; [tauto|].
  destruct (Z.eqb_spec x y) as [->|Hne]; simpl.
  - rewrite IH by lia. split; [congruence | intros E; now injection E].
  - split; [discriminate | congruence].
Qed.
Lemma sp_eq_loop_exact d o : spdims d = spdims o -> (sp_eq_loop d o = true <-> d = o).
Proof.
  revert o. induction d as [|[t l] d IH]; intros [|[t' m] o] H; simpl in *; try discriminate; [tauto|].
  injection H as -> H. destruct (Nat.eqb_spec (length l) (length m)) as [El|Nl]; simpl.
  - destruct (sp_equal l m) eqn:E; simpl.
    + apply sp_equal_exact in E; auto. subst m. rewrite IH by auto. split; [congruence | intros E; now injection E].
    + split; [discriminate|]. intros E'. injection E' as -> _. rewrite (proj2 (sp_equal_exact m m eq_refl)) in E by auto. discriminate.
  - split; [discriminate|]. intros E. injection E as -> _. lia.
Qed.
Lemma sorted_lists_eq l m : StronglySorted Z.lt l -> StronglySorted Z.lt m -> (forall x, In x l <-> In x m) -> l = m.
Proof.
  intros Hl. revert m. induction Hl as [|a l Hs IH Hf]; intros [|b m] Hm H.
  - auto. - exfalso. apply (H b). now left. - exfalso. apply (H a). now left.
  - inversion Hm as [|? ? Hsm Hfm]; subst. rewrite Forall_forall in Hf, Hfm.
    assert (a = b).
    { assert (In a (b :: m)) as [->|Ha] by (apply H; now left); auto.
      assert (In b (a :: l)) as [->|Hb] by (apply H; now left); auto.
      specialize (Hf b Hb). specialize (Hfm a Ha). lia. }
    subst b. f_equal. apply IH; auto. intros x. split; intros Hx.
    + assert (In x (a :: m)) as [<-|]; auto. { apply H. now right. } specialize (Hf a Hx). lia.
    + assert (In x (a :: l)) as [<-|]; auto. { apply H. now right. } specialize (Hfm a Hx). lia.
Qed.
Lemma sp_size_exact d : sp_count d < 2 ^ 64 -> sp_size d = sp_count d.
Proof.
  intros H. unfold sp_size.
  assert (Hnn : forall d, 0 <= sp_count d) by (induction d0; simpl; nia).
  assert (Hm : forall d acc, fold_left (fun acc p => u64_mul acc (Z.of_nat (length (snd p)))) d (acc mod 2 ^ 64)
      = (acc * sp_count d) mod 2 ^ 64).
  { clear. induction d as [|p d IH]; intros acc; cbn [fold_left].
    - unfold sp_count. cbn [fold_right]. now rewrite Z.mul_1_r.
    - replace (u64_mul (acc mod 2 ^ 64) (Z.of_nat (length (snd p)))) with ((acc * Z.of_nat (length (snd p))) mod 2 ^ 64)
        by (unfold u64_mul, u64, two64; rewrite Z.mul_mod_idemp_l by lia; reflexivity).
      rewrite IH. f_equal. unfold sp_count. cbn [fold_right]. lia. }
  specialize (Hm d 1). rewrite Z.mod_small in Hm at 1 by lia. rewrite Hm, Z.mod_small; [lia|].
  specialize (Hnn d). lia.
Qed.
Lemma sp_count_zero d : sp_count d = 0 <-> exists t, In (t, []) d.
Proof.
  induction d as [|[t l] d IH]; simpl.
  - split; [lia | intros (? & [])].
  - rewrite Z.mul_eq_0, IH. split.
    + intros [E|[t' H]]; [exists t; left; f_equal; destruct l; simpl in *; auto; lia | exists t'; auto].
    + intros (t' & [E|H]); [injection E as -> ->; now left | right; eauto].
Qed.
Lemma sp_nonempty_pick d : sp_count d <> 0 -> exists xs, in_lists d xs.
Proof.
  induction d as [|[t l] d IH]; intros H.
  - exists []. constructor.
  - simpl in H. destruct l as [|x l]; [simpl in H; lia|].
    destruct IH as [xs Hxs]; [nia|]. exists (x :: xs). constructor; auto. now left.
Qed.
Lemma sp_eq_exact d o : spdom_wf d -> spdom_wf o -> spdims d = spdims o -> sp_count d < 2 ^ 64 -> sp_count o < 2 ^ 64 ->
  (sp_eq d o = true <-> forall xs, in_lists d xs <-> in_lists o xs).
Proof.
  intros [_ Hd] [_ Ho] Hs Hcd Hco. unfold sp_eq, sp_empty. rewrite !sp_size_exact by auto.
  assert (Hem : forall d, sp_count d = 0 -> forall xs, ~ in_lists d xs).
  { clear. intros d Hz xs Hx. apply sp_count_zero in Hz as [t Ht]. induction Hx as [|p x d xs Hp Hx IH]; [contradiction|].
    destruct Ht as [->|Ht]; auto. }
  assert (Hdir : d = o -> forall xs, in_lists d xs <-> in_lists o xs) by (intros ->; tauto).
  destruct (Z.eqb_spec (sp_count d) 0) as [Zd|Nd]; destruct (Z.eqb_spec (sp_count o) 0) as [Zo|No]; cbn [andb].
  - split; auto. intros _ xs. split; intros H; exfalso; [apply (Hem d Zd xs H) | apply (Hem o Zo xs H)].
  - rewrite sp_eq_loop_exact by auto. split; auto. intros H. exfalso.
    destruct (sp_nonempty_pick o No) as [xs Hx]. apply H in Hx. apply (Hem d Zd xs Hx).
  - rewrite sp_eq_loop_exact by auto. split; auto. intros H. exfalso.
    destruct (sp_nonempty_pick d Nd) as [xs Hx]. apply H in Hx. apply (Hem o Zo xs Hx).
  - rewrite sp_eq_loop_exact by auto. split; auto. clear Hdir Hcd Hco Hem.
    revert o Ho Hs No. induction d as [|[t l] d IH]; intros [|[t' m] o] Ho Hs No H; simpl in *; try discriminate; auto.
    injection Hs as -> Hs. inversion Hd as [|? ? Hl Hd']; inversion Ho as [|? ? Hm Ho']; subst. simpl in *.
    assert (Nd' : sp_count d <> 0) by (intros E; apply Nd; rewrite E; lia).
    assert (No' : sp_count o <> 0) by (intros E; apply No; rewrite E; lia).
    destruct (sp_nonempty_pick d Nd') as [xs Hxs]. destruct (sp_nonempty_pick o No') as [ys Hys].
    assert (Elm : l = m).
    { apply sorted_lists_eq; auto. intros x. split; intros Hx.
      - assert (H1 : in_lists ((t', m) :: o) (x :: xs)) by (apply H; constructor; auto). inversion H1; auto.
      - assert (H1 : in_lists ((t', l) :: d) (x :: ys)) by (apply H; constructor; auto). inversion H1; auto. }
    subst m. f_equal. destruct l as [|x l]; [simpl in Nd; lia|]. apply (IH Hd' Nd' o Ho' Hs No').
    intros zs. split; intros Hz.
    + assert (H1 : in_lists ((t', x :: l) :: o) (x :: zs)) by (apply H; constructor; auto; now left). now inversion H1.
    + assert (H1 : in_lists ((t', x :: l) :: d) (x :: zs)) by (apply H; constructor; auto; now left). now inversion H1.
Qed.
Lemma sp_unsorted : exists d e, NoDup (spdims d) /\ Forall (fun p => NoDup (snd p)) d /\ dims e = spdims d /\ in_lists d (values e) /\ sp_contains d [e] = Ok false /\
  sp_host_for_each d (fun x s => orb s (Z.eqb (hd 0 (values x)) (hd 0 (values e)))) false = Ok true.
Proof.
  exists [(1%nat, [5; 2; 9])], [(1%nat, 5)]. split; [repeat constructor; cbn; tauto|]. split; [|split; [reflexivity|split; [|split; vm_compute; reflexivity]]].
  - constructor; [|constructor]. cbn [snd]. repeat constructor; cbn; lia.
  - constructor; [now left | constructor].
Qed.
