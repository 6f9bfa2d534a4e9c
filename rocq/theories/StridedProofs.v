From Coq Require Import Sorting.Sorted.
From Verif Require Import ListAux Machine MachineProofs TypeSeqModel TypeSeqProofs TaggedModel TaggedSpec TaggedProofs
  DomainModel DomainSpec DomainProofs DomainProofs2 StridedModel StridedSpec.

Lemma smul_ok a b : - 2 ^ 63 <= a * b < 2 ^ 63 -> smul a b = Ok (a * b).
Proof. intros H. unfold smul, i64_mul, i64_ret. replace (is_i64b (a * b)) with true; auto. symmetry. now apply is_i64b_spec. Qed.
Lemma ssub_ok' a b : - 2 ^ 63 <= a - b < 2 ^ 63 -> ssub a b = Ok (a - b).
Proof. intros. now apply ssub_ok. Qed.

Lemma contains_1d_exact p i : sdim_wf p -> 0 < sn p -> 0 <= i < 2 ^ 64 ->
  exists r, contains_1d i (sb p) (sn p) (ss p) = Ok r /\ (r = true <-> progression p i).
Proof.
  intros (Hb & Hn & Hs & Hns & He) Hpos Hi. unfold contains_1d. destruct p as [b n s]; cbn [sb sn ss] in *.
  destruct (Z.ltb_spec i b) as [Hlt|Hge].
  - exists false. split; auto. split; [discriminate|]. intros (k & Hk & ->). cbn [sb sn ss] in *. nia.
  - rewrite ssub_ok' by lia. cbn [rbind]. rewrite smul_ok by nia. cbn [rbind].
    replace (u64 (b + (n - 1) * s + 1)) with (b + (n - 1) * s + 1) by (unfold u64, two64; rewrite Z.mod_small; nia).
    replace (u64 s) with s by mlia. replace (s =? 0) with false by lia.
    replace (u64_sub i b) with (i - b) by mlia.
    destruct (Z.ltb_spec i (b + (n - 1) * s + 1)) as [Hin|Hout].
    + eexists. split; [reflexivity|]. rewrite Z.eqb_eq. split.
      * intros Hm. apply Z.mod_divide in Hm; [|lia]. destruct Hm as [k Hk]. exists k. cbn [sb sn ss]. nia.
      * intros (k & Hk & ->). cbn [sb sn ss] in *. replace (b + k * s - b) with (k * s) by lia. apply Z.mod_mul. lia.
    + exists false. split; auto. split; [discriminate|]. intros (k & Hk & ->). cbn [sb sn ss] in *. nia.
Qed.
Lemma s_contains_loop_exact d e : Forall (fun p => sdim_wf (snd p)) d -> Forall (fun p => 0 < sn (snd p)) d ->
  length e = length d -> Forall (fun x => 0 <= x < 2 ^ 64) e ->
  exists r, s_contains_loop d e = Ok r /\ (r = true <-> in_progressions d e).
Proof.
  revert e. induction d as [|[t p] d IH]; intros [|i e] Hw Hp Hl Hr; simpl in *; try discriminate.
  - exists true. split; auto. split; auto. intros _. constructor.
  - inversion Hw; inversion Hp; inversion Hr; subst. simpl in *.
    destruct (contains_1d_exact p i) as (r & E & Hr'); auto. rewrite E. cbn [rbind].
    destruct r.
    + destruct (IH e) as (r & E' & Hr''); auto. exists r. split; auto. rewrite Hr''. split.
      * intros H. constructor; auto. now apply Hr'.
      * intros H. inversion H; subst. auto.
    + exists false. split; auto. split; [discriminate|]. intros H. inversion H; subst. now apply Hr'.
Qed.
Lemma values_construct d es : NoDup (dims (concat es)) -> (forall q, In q (dims (concat es)) <-> In q (sdims d)) ->
  NoDup (sdims d) ->
  exists e, construct (sdims d) es = Ok e /\ dims e = sdims d /\ same_values e (concat es).
Proof.
  intros Hn Hs Hd. destruct (construct_spec (sdims d) es Hn) as (e & E & Hde & Hv).
  { intros q Hq. now apply Hs. }
  exists e. split; [auto|]. split; [auto|]. intros q x. rewrite Hv. split; [tauto|]. intros H. split; auto.
  apply Hs. eapply val_of_dims; eauto.
Qed.
Lemma s_contains_exact d es : sdom_wf d -> Forall (fun p => 0 < sn (snd p)) d ->
  elem_wf (concat es) -> (forall q, In q (dims (concat es)) <-> In q (sdims d)) ->
  exists r e, s_contains d es = Ok r /\ dims e = sdims d /\ same_values e (concat es) /\
     (r = true <-> in_progressions d (values e)).
Proof.
  intros [Hnd Hwf] Hpos He Hs. unfold s_contains.
  assert (Hlen : length d = length (concat es)).
  { rewrite <- (map_length fst d), <- (map_length fst (concat es)).
    apply Nat.le_antisymm; apply NoDup_incl_length; auto; try apply He; intros q Hq; now apply Hs. }
  rewrite sum_sizes_spec, <- Hlen, Nat.eqb_refl.
  destruct (values_construct d es) as (e & E & Hde & Hsv); auto; [apply He|]. rewrite E. cbn [rbind].
  destruct (s_contains_loop_exact d (values e)) as (r & Er & Hr); auto.
  - unfold values. rewrite map_length, <- (map_length fst e), <- (map_length fst d). f_equal. exact Hde.
  - apply forall_values. intros q x Hx. apply Hsv in Hx. eapply elem_val_u64 in Hx; [|exact He]. exact Hx.
  - exists r, e. auto.
Qed.

Lemma s_at1_ok p k : sdim_wf p -> 0 <= k <= sn p -> s_at1 p k = Ok (sb p + k * ss p).
Proof.
  intros (Hb & Hn & Hs & Hns & He) Hk. unfold s_at1, prod1. rewrite smul_ok by nia. cbn [rbind]. f_equal.
  rewrite u64_add_id; auto. unfold is_u64, two64. nia.
Qed.
Lemma s_distance1_ok p k : sdim_wf p -> 0 <= k < sn p -> s_distance1 p (sb p + k * ss p) = Ok k.
Proof.
  intros (Hb & Hn & Hs & Hns & He) Hk. unfold s_distance1, sdiv. replace (ss p =? 0) with false by lia.
  assert (0 <= k * ss p < 2 ^ 63) by nia.
  replace (i64 (u64_sub (sb p + k * ss p) (sb p))) with (k * ss p) by (generalize dependent (k * ss p); intros; mlia).
  rewrite Z.quot_mul by lia. unfold i64_ret. replace (is_i64b k) with true; [reflexivity|].
  symmetry. apply is_i64b_spec. mlia.
Qed.

Lemma lift1_ok {B C} (f : sdim -> B -> res C) (g : sdim -> B -> C) (P : sdim -> B -> Prop) d v :
  (forall p k, P p k -> f p k = Ok (g p k)) -> Forall2 (fun p k => P (snd p) k) d v ->
  lift1 f d v = Ok (map (fun pk => (fst (fst pk), g (snd (fst pk)) (snd pk))) (combine d v)).
Proof.
  intros Hf H. unfold lift1. induction H as [|[t p] k d v Hp H IH]; simpl; auto.
  simpl in Hp. rewrite (Hf _ _ Hp). cbn [rbind]. rewrite IH. reflexivity.
Qed.

Definition s_elem (d : sdomain) (v : list Z) : tagged :=
  map (fun pk => (fst (fst pk), sb (snd (fst pk)) + snd pk * ss (snd (fst pk)))) (combine d v).

Lemma s_at_ok d v : sdom_wf d -> s_in_range d v -> s_at d v = Ok (s_elem d v).
Proof.
  intros [_ Hw] Hv. unfold s_at, s_elem.
  rewrite (lift1_ok s_at1 (fun p k => sb p + k * ss p) (fun p k => sdim_wf p /\ 0 <= k < sn p)); auto.
  - intros p k [H1 H2]. apply s_at1_ok; auto. lia.
  - revert Hw. induction Hv; intros Hw; constructor; inversion Hw; subst; auto.
Qed.
Lemma s_elem_dims d v : length v = length d -> dims (s_elem d v) = sdims d.
Proof.
  unfold s_elem, dims, sdims. rewrite map_map. simpl. revert v.
  induction d as [|p d IH]; intros [|i v] H; simpl in *; try discriminate; auto. f_equal. apply IH. lia.
Qed.
Lemma s_elem_progressions d v : s_in_range d v -> in_progressions d (values (s_elem d v)).
Proof.
  intros H. induction H as [|[t p] k d v Hk H IH]; simpl; constructor; auto. exists k. auto.
Qed.
Lemma s_progressions_elem d xs : in_progressions d xs -> exists v, s_in_range d v /\ values (s_elem d v) = xs.
Proof.
  intros H. induction H as [|[t p] x d xs (k & Hk & ->) H (v & Hv & E)].
  - exists []. split; [constructor | reflexivity].
  - exists (k :: v). split; [constructor; auto|]. simpl. f_equal. exact E.
Qed.
Lemma in_range_length d v : s_in_range d v -> length v = length d.
Proof. intros H. symmetry. eapply Forall2_len; eauto. Qed.
Lemma construct_self ts e : dims e = ts -> NoDup ts -> construct ts [e] = Ok e.
Proof.
  intros Hd Hn. destruct (construct_spec ts [e]) as (r & E & Hdr & Hv).
  - simpl. rewrite app_nil_r. now rewrite Hd. - simpl. rewrite app_nil_r. intros q. now rewrite Hd.
  - rewrite E. f_equal. apply tagged_eq_list; [congruence | now rewrite Hdr|].
    intros q x Hx. apply Hv in Hx as [_ Hx]. simpl in Hx. now rewrite app_nil_r in Hx.
Qed.

Lemma s_distance_roundtrip d v : sdom_wf d -> s_in_range d v ->
  exists e, s_at d v = Ok e /\ in_progressions d (values e) /\ s_distance d [e] = Ok (combine (sdims d) v).
Proof.
  intros Hd Hv. exists (s_elem d v). split; [now apply s_at_ok|]. split; [now apply s_elem_progressions|].
  unfold s_distance. rewrite sum_sizes_spec. simpl concat. rewrite app_nil_r.
  assert (Hl := in_range_length d v Hv).
  replace (length (s_elem d v)) with (length d) by (unfold s_elem; rewrite map_length, combine_length; lia).
  rewrite Nat.eqb_refl. rewrite construct_self; [|now apply s_elem_dims | apply Hd]. cbn [rbind].
  destruct Hd as [_ Hw]. unfold lift1. clear Hl. induction Hv as [|[t p] k d v Hk H IH]; simpl; auto.
  inversion Hw; subst. simpl in *. rewrite s_distance1_ok by auto. cbn [rbind]. unfold s_elem in IH. rewrite IH by auto.
  reflexivity.
Qed.
Lemma s_at_surjective d e : sdom_wf d -> dims e = sdims d -> in_progressions d (values e) ->
  exists v, s_distance d [e] = Ok (combine (sdims d) v) /\ s_in_range d v /\ s_at d v = Ok e.
Proof.
  intros Hd Hde Hp. destruct (s_progressions_elem d (values e) Hp) as (v & Hv & E).
  assert (Ee : s_elem d v = e).
  { assert (Hl := in_range_length d v Hv). assert (Hdd := s_elem_dims d v Hl). rewrite <- Hde in Hdd.
    revert E Hdd. generalize (s_elem d v). clear. intros a. revert e.
    induction a as [|[t x] a IH]; intros [|[t' y] e] E Hdd; simpl in *; try discriminate; auto.
    injection E as -> E. injection Hdd as -> Hdd. f_equal. auto. }
  exists v. destruct (s_distance_roundtrip d v Hd Hv) as (e' & E1 & _ & E2).
  rewrite (s_at_ok d v Hd Hv) in E1. injection E1 as <-. rewrite Ee in E2. split; auto. split; auto.
  rewrite s_at_ok by auto. now rewrite Ee.
Qed.

(** Cutting operations, in one dimension. *)
Lemma s_take_first1_exact p k : cut1 p k -> exists r, s_take_first1 p k = Ok r /\ sdim_wf r /\
  forall x, progression r x <-> progression p x /\ x < sb p + k * ss p.
Proof.
  intros [(Hb & Hn & Hs & Hns & He) Hk]. eexists. split; [reflexivity|]. split.
  - unfold sdim_wf. cbn [sb sn ss]. nia.
  - intros x. unfold progression. cbn [sb sn ss]. split.
    + intros (j & Hj & ->). split; [exists j; lia | nia].
    + intros [(j & Hj & ->) Hx]. exists j. nia.
Qed.
Lemma s_remove_first1_exact p k : cut1 p k -> exists r, s_remove_first1 p k = Ok r /\ sdim_wf r /\
  forall x, progression r x <-> progression p x /\ sb p + k * ss p <= x.
Proof.
  intros [(Hb & Hn & Hs & Hns & He) Hk]. unfold s_remove_first1, prod1. rewrite smul_ok by nia. cbn [rbind].
  rewrite ssub_ok' by lia. cbn [rbind]. rewrite u64_add_id by (unfold is_u64, two64; nia).
  eexists. split; [reflexivity|]. split.
  - unfold sdim_wf. cbn [sb sn ss]. nia.
  - intros x. unfold progression. cbn [sb sn ss]. split.
    + intros (j & Hj & ->). split; [exists (k + j); lia | nia].
    + intros [(j & Hj & ->) Hx]. exists (j - k). nia.
Qed.
Lemma s_take_last1_exact p k : cut1 p k -> exists r, s_take_last1 p k = Ok r /\ sdim_wf r /\
  forall x, progression r x <-> progression p x /\ sb p + (sn p - k) * ss p <= x.
Proof.
  intros [(Hb & Hn & Hs & Hns & He) Hk]. unfold s_take_last1, prod1. rewrite ssub_ok' by lia. cbn [rbind].
  rewrite smul_ok by nia. cbn [rbind]. rewrite u64_add_id by (unfold is_u64, two64; nia).
  eexists. split; [reflexivity|]. split.
  - unfold sdim_wf. cbn [sb sn ss]. nia.
  - intros x. unfold progression. cbn [sb sn ss]. split.
    + intros (j & Hj & ->). split; [exists (sn p - k + j); lia | nia].
    + intros [(j & Hj & ->) Hx]. exists (j - (sn p - k)). nia.
Qed.
Lemma s_remove_last1_exact p k : cut1 p k -> exists r, s_remove_last1 p k = Ok r /\ sdim_wf r /\
  forall x, progression r x <-> progression p x /\ x < sb p + (sn p - k) * ss p.
Proof.
  intros [(Hb & Hn & Hs & Hns & He) Hk]. unfold s_remove_last1. rewrite ssub_ok' by lia. cbn [rbind].
  eexists. split; [reflexivity|]. split.
  - unfold sdim_wf. cbn [sb sn ss]. nia.
  - intros x. unfold progression. cbn [sb sn ss]. split.
    + intros (j & Hj & ->). split; [exists j; lia | nia].
    + intros [(j & Hj & ->) Hx]. exists j. nia.
Qed.
Lemma s_remove1_exact p k : sdim_wf p -> 0 <= fst k -> 0 <= snd k -> fst k + snd k <= sn p ->
  exists r, s_remove1 p k = Ok r /\ sdim_wf r /\
  forall x, progression r x <-> progression p x /\ sb p + fst k * ss p <= x < sb p + (sn p - snd k) * ss p.
Proof.
  intros (Hb & Hn & Hs & Hns & He) H1 H2 H3. unfold s_remove1, prod1. rewrite smul_ok by nia. cbn [rbind].
  rewrite ssub_ok' by lia. cbn [rbind]. rewrite ssub_ok' by lia. cbn [rbind].
  rewrite u64_add_id by (unfold is_u64, two64; nia).
  eexists. split; [reflexivity|]. split.
  - unfold sdim_wf. cbn [sb sn ss]. nia.
  - intros x. unfold progression. cbn [sb sn ss]. split.
    + intros (j & Hj & ->). split; [exists (fst k + j); lia | nia].
    + intros [(j & Hj & ->) Hx]. exists (j - fst k). nia.
Qed.
(** Lifting a one-dimensional cut to all dimensions. *)
Lemma lift_cut {B} (f : sdim -> B -> res sdim) (ok : sdim -> B -> Prop) (C : sdim -> B -> Z -> Prop) :
  (forall p k, ok p k -> exists r, f p k = Ok r /\ sdim_wf r /\ forall x, progression r x <-> progression p x /\ C p k x) ->
  forall d v, sdom_wf d -> Forall2 (fun p k => ok (snd p) k) d v ->
  exists r, lift1 f d v = Ok r /\ sdims r = sdims d /\ sdom_wf r /\
    forall xs, in_progressions r xs <-> in_progressions d xs /\
       Forall2 (fun pk x => C (snd (fst pk)) (snd pk) x) (combine d v) xs.
Proof.
  intros Hf d v Hd Hv.
  assert (H : exists r, lift1 f d v = Ok r /\ sdims r = sdims d /\ Forall (fun p => sdim_wf (snd p)) r /\
    forall xs, in_progressions r xs <-> in_progressions d xs /\
       Forall2 (fun pk x => C (snd (fst pk)) (snd pk) x) (combine d v) xs).
  { clear Hd. induction Hv as [|[t p] k d v Hk H IH].
    - exists []. split; [reflexivity|]. split; [reflexivity|]. split; [constructor|]. intros xs. split.
      + intros H. inversion H; subst. split; constructor.
      + intros [H _]. exact H.
    - destruct IH as (r & E & Hds & Hw & Hx). simpl in Hk. destruct (Hf p k Hk) as (r1 & E1 & Hw1 & Hx1).
      exists ((t, r1) :: r). unfold lift1 in *. simpl. rewrite E1. cbn [rbind]. rewrite E. cbn [rbind].
      split; [reflexivity|]. split; [simpl; f_equal; auto|]. split; [constructor; auto|].
      intros xs. split.
      + intros HF. inversion HF as [|? x ? xs' Hp HF']; subst. simpl in Hp. apply Hx1 in Hp as [Hp1 Hp2].
        apply Hx in HF' as [HF1 HF2]. split; constructor; auto.
      + intros [HF1 HF2]. inversion HF1 as [|? x ? xs' Hp HF']; subst. inversion HF2; subst. constructor.
        * simpl. apply Hx1. auto. * apply Hx. auto. }
  destruct H as (r & E & Hds & Hw & Hx). exists r. repeat split; auto; try apply Hx; auto.
  rewrite Hds. apply Hd.
Qed.

Lemma s_for_each_trace {S} d (f : tagged -> S -> S) s : sdom_wf d ->
  s_host_for_each d f s = Ok (fold_left (fun s e => f e s) (map (s_elem d) (box (map (fun p => sn (snd p)) d))) s).
Proof.
  intros Hd. unfold s_host_for_each. apply for_each_serial_trace. intros is His.
  assert (Hl : length is = length d) by (apply Forall2_len in His; now rewrite map_length in His).
  replace (values (combine (sdims d) is)) with is.
  - apply s_at_ok; auto. unfold s_in_range. clear Hd Hl. revert is His. induction d as [|p d IH]; intros is H; inversion H; subst; constructor; auto.
  - unfold values, sdims. revert Hl. clear. revert is. induction d as [|p d IH]; intros [|i is] H; simpl in *; try discriminate; auto. f_equal. apply IH. lia.
Qed.
Lemma s_for_each_exact d : sdom_wf d ->
  exists l : list tagged,
    (forall (S : Type) (f : tagged -> S -> S) (s : S), s_host_for_each d f s = Ok (fold_left (fun s e => f e s) l s)) /\
    (forall e, In e l <-> dims e = sdims d /\ in_progressions d (values e)) /\
    NoDup l /\ StronglySorted (fun a b => lex_lt (values a) (values b)) l.
Proof.
  intros Hd. exists (map (s_elem d) (box (map (fun p => sn (snd p)) d))).
  split; [intros; now apply s_for_each_trace|].
  assert (Hr : forall is, In is (box (map (fun p => sn (snd p)) d)) <-> s_in_range d is).
  { intros is. rewrite in_box_list. unfold s_in_range. split.
    - revert is. clear. induction d as [|p d IH]; intros is H; inversion H; subst; constructor; auto.
    - intros H. clear Hd. induction H; simpl; constructor; auto. }
  assert (Hsort : StronglySorted (fun a b => lex_lt (values a) (values b)) (map (s_elem d) (box (map (fun p => sn (snd p)) d)))).
  { eapply StronglySorted_map; [|apply box_sorted]. intros x y Hx Hy.
    apply Hr, in_range_length in Hx. apply Hr, in_range_length in Hy. destruct Hd as [_ Hw]. clear Hr.
    revert x y Hx Hy. induction d as [|[t p] d IH]; intros [|i x] [|j y] Hx Hy; simpl in *; try discriminate; try tauto.
    inversion Hw as [|? ? Hp Hw']; subst. simpl in Hp. destruct Hp as (_ & _ & Hs & _).
    intros [H|[-> H]]; [left; nia | right; split; [reflexivity | apply (IH Hw' x y); auto; lia]]. }
  split; [|split; [|exact Hsort]].
  - intros e. rewrite in_map_iff. split.
    + intros (is & <- & Hi). apply Hr in Hi. split; [apply s_elem_dims; now apply in_range_length | now apply s_elem_progressions].
    + intros [Hde Hp]. destruct (s_at_surjective d e Hd Hde Hp) as (v & _ & Hv & E).
      exists v. split; [|now apply Hr]. rewrite s_at_ok in E by auto. now injection E.
  - eapply sorted_nodup; [|exact Hsort]. intros x. apply lex_irrefl.
Qed.
