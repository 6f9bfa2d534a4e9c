From Verif Require Import Machine MachineProofs TypeSeqModel TaggedModel TaggedSpec TaggedProofs
  DomainModel DomainSpec DomainProofs ListAux DomainProofs2 SpanModel SpanSpec SpanProofs StorageProofs KokkosModel KokkosSpec KokkosProofs
  ReduceModel ReduceSpec ReduceProofs ParModel ParSpec ParProofs ParProofs2.

Lemma elem_at_in d : forall is q x, In (q, x) (combine (ddims d) is) -> exists b f, In (q, (b, f)) d /\ In (q, b + x) (elem_at d is).
Proof.
  induction d as [|(q0, (b0, f0)) d IH]; intros [|i is] q x H; cbn in H; try tauto.
  destruct H as [H|H].
  - injection H as <- <-. exists b0, f0. split; [now left|]. left. reflexivity.
  - destruct (IH is q x H) as (b & f & H1 & H2). exists b, f. split; [now right|]. right. exact H2.
Qed.
Lemma vf_elem_at d is q x b f : dom_wf d -> length is = length d -> In (q, x) (combine (ddims d) is) -> In (q, (b, f)) d -> vf (elem_at d is) q = b + x.
Proof.
  intros Hd Hl Hx Hq. destruct (elem_at_in d is q x Hx) as (b' & f' & H1 & H2).
  destruct (dom_fun d q b f b' f') as [<- <-]; auto; [apply Hd|]. apply vf_val; auto.
  rewrite elem_at_dims by auto. apply Hd.
Qed.
Lemma combine_self (v : tagged) : combine (dims v) (values v) = v.
Proof. unfold dims, values. induction v as [|(q, x) v IH]; cbn; congruence. Qed.
Lemma combine_in_range d is : dom_wf d -> In is (box (map ext1 d)) -> offset_in_range d (combine (ddims d) is).
Proof.
  intros Hd Hin. pose proof (box_len _ _ Hin) as L. rewrite map_length in L.
  split; [split|].
  - rewrite dims_combine; [apply Hd|]. unfold ddims. now rewrite map_length.
  - rewrite dims_combine; [tauto|]. unfold ddims. now rewrite map_length.
  - intros q b f Hq. apply in_box_list in Hin. clear Hd L. revert is Hin Hq. induction d as [|(q0, (b0, f0)) d IH]; intros is Hin Hq; [destruct Hq|].
    inversion Hin as [|i n is' l' Hi Hr]; subst. cbn [map] in *. destruct Hq as [Hq|Hq].
    + injection Hq as <- <- <-. exists i. split; [now left|]. unfold ext1 in Hi; cbn [fst snd] in Hi. exact Hi.
    + destruct (IH is' Hr Hq) as (x & H1 & H2). exists x. split; auto. right. exact H1.
Qed.
Lemma access_vec_combine s is : span_wf s -> In is (box (map ext1 (s_dom s))) ->
  span_access_vec s [combine (ddims (s_dom s)) is] = Ok (at_cell s (elem_at (s_dom s) is)).
Proof.
  intros Hw Hin. assert (Hd := proj1 Hw).
  destruct (access_by_vector s (combine (ddims (s_dom s)) is) Hw) as (e & a & E1 & Hb & E2 & E3); [now apply combine_in_range|].
  rewrite dom_at_ok in E1; auto; [|now apply in_box_list]. injection E1 as <-.
  rewrite at_cell_ok in E2 by auto. exact (eq_trans E3 (eq_sym E2)).
Qed.
(** What one call of the copy kernel does. *)
Lemma copy_call_ok {V} dst src is : span_wf dst -> span_wf src -> sub_domain (s_dom src) (s_dom dst) -> s_dom dst <> [] ->
  In is (box (map ext1 (s_dom dst))) ->
  @copy_call V dst src is = Ok (PRead (at_cell src (elem_at (s_dom dst) is)) (fun v => PWrite (at_cell dst (elem_at (s_dom dst) is)) v PRet)) /\
  cell_of src (at_cell src (elem_at (s_dom dst) is)) /\
  (forall e, in_box (s_dom src) e -> agree_on (s_dom src) e (elem_at (s_dom dst) is) -> span_access src [e] = Ok (at_cell src (elem_at (s_dom dst) is))).
Proof.
  intros Hw1 Hw2 Hsub Hne Hin. assert (Hd1 := proj1 Hw1). assert (Hd2 := proj1 Hw2).
  pose proof (box_len _ _ Hin) as L. rewrite map_length in L.
  set (d := s_dom dst) in *. set (ds := s_dom src) in *. set (ddst := combine (ddims d) is).
  assert (Ldd : length is = length (ddims d)) by (unfold ddims; rewrite map_length; auto).
  destruct (construct_spec (ddims ds) [ddst]) as (r & Er & Dr & Vr).
  - cbn. rewrite app_nil_r. unfold ddst. rewrite dims_combine by auto. apply Hd1.
  - cbn. rewrite app_nil_r. unfold ddst. rewrite dims_combine by auto. intros q Hq. apply ddims_in in Hq as (b & f & Hq). apply ddims_in. eauto.
  - assert (Hrng : offset_in_range ds r).
    { split; [split; [rewrite Dr; apply Hd2|intros; now rewrite Dr]|]. intros q b f Hq.
      destruct (combine_in_range d is Hd1 Hin) as [_ Hc]. destruct (Hc q b f (Hsub _ _ _ Hq)) as (x & H1 & H2).
      exists x. split; auto. apply Vr. split; [apply ddims_in; eauto|]. cbn. now rewrite app_nil_r. }
    set (js := values r). assert (Hjs : In js (box (map ext1 ds))).
    { apply in_box_list. clear - Dr Hrng Hd2. destruct Hrng as [_ Hr]. assert (Hn : NoDup (dims r)) by (rewrite Dr; apply Hd2).
      unfold js. clear js Hd2. revert r Dr Hr Hn. induction ds as [|(q, (b, f)) ds IH]; intros [|(q', x) r] Dr Hr Hn; try discriminate Dr; [constructor|].
      injection Dr as -> Dr. apply NoDup_cons_iff in Hn as [Hn1 Hn2]. cbn. constructor.
      - destruct (Hr q b f) as (y & Hy & Hyy); [now left|]. destruct Hy as [Hy|Hy]; [injection Hy as <-; unfold ext1; cbn [fst snd]; exact Hyy|].
        exfalso. apply Hn1. apply (in_map fst) in Hy. exact Hy.
      - apply IH; auto. intros q0 b0 f0 H0. destruct (Hr q0 b0 f0) as (y & Hy & Hyy); [now right|]. exists y. split; auto.
        destruct Hy as [Hy|Hy]; auto. injection Hy as <- <-. exfalso. apply Hn1. fold (dims r). change (In q (dims r)). rewrite Dr. apply (in_map fst) in H0. exact H0. }
    assert (Er2 : r = combine (ddims ds) js) by (unfold js; rewrite <- Dr; symmetry; apply combine_self).
    assert (Ljs : length js = length ds) by (pose proof (box_len _ _ Hjs) as Hl; now rewrite map_length in Hl).
    assert (Hloc : at_cell src (elem_at ds js) = at_cell src (elem_at d is)).
    { unfold at_cell. apply loc_ext. intros q Hq. fold ds in Hq. apply ddims_in in Hq as (b & f & Hq).
      assert (Hx : exists x, val_of r q x) by (destruct Hrng as [_ Hr]; destruct (Hr q b f Hq) as (x & Hx & _); eauto).
      destruct Hx as [x Hx]. pose proof Hx as Hx'. apply Vr in Hx' as [_ Hx']. cbn in Hx'. rewrite app_nil_r in Hx'.
      rewrite (vf_elem_at ds js q x b f) by (auto; rewrite <- Er2; exact Hx).
      rewrite (vf_elem_at d is q x b f) by (auto). reflexivity. }
    assert (Hbs : in_box ds (elem_at ds js)) by (apply elem_at_box; auto; apply in_rng_flip; now apply in_box_list).
    split; [|split].
    + assert (Ecopy : @copy_call V dst src is =
          rbind (construct (ddims ds) [ddst]) (fun dsrc => rbind (span_access_vec src [dsrc]) (fun a => rbind (span_access_vec dst [ddst]) (fun b =>
          Ok (PRead a (fun v => PWrite b v PRet)))))).
      { unfold copy_call. fold d. fold ds. unfold ddst. destruct d as [|p d'] eqn:Ed; [congruence|]. reflexivity. }
      rewrite Ecopy, Er. cbn [rbind].
      assert (A1 : span_access_vec src [r] = Ok (at_cell src (elem_at ds js))) by (rewrite Er2; exact (access_vec_combine src js Hw2 Hjs)).
      assert (A2 : span_access_vec dst [ddst] = Ok (at_cell dst (elem_at d is))) by exact (access_vec_combine dst is Hw1 Hin).
      etransitivity; [apply (f_equal (fun z => rbind z _)); exact A1|]. cbn [rbind].
      etransitivity; [apply (f_equal (fun z => rbind z _)); exact A2|]. cbn [rbind]. now rewrite Hloc.
    + exists (elem_at ds js). split; auto. rewrite <- Hloc. now apply at_cell_ok.
    + intros e Hbe Hag. rewrite at_cell_ok by auto. f_equal. unfold at_cell. apply loc_ext. intros q Hq. fold ds in Hq.
      apply ddims_in in Hq as (b & f & Hq). destruct (proj2 Hbe q b f Hq) as (x & Hx & _).
      rewrite (vf_val e q x) by (auto; apply Hbe). symmetry. apply vf_val.
      * rewrite elem_at_dims by auto. apply Hd1.
      * apply (Hag q x); auto. apply ddims_in; eauto.
Qed.
Lemma tags_eqb_spec a b : tags_eqb a b = true <-> a = b.
Proof.
  revert b. induction a as [|x a IH]; destruct b; cbn; try (split; congruence). rewrite andb_true_iff, Nat.eqb_eq, IH. split; [intros [-> ->]; auto|intros E; injection E as -> ->; auto].
Qed.
Lemma sub_same (a b : domain) : NoDup (ddims a) -> sub_domain a b -> ddims a = ddims b -> a = b.
Proof. intros Hn Hs Hd. apply dom_eq_list; auto. Qed.
Lemma select_sub dd ds : dom_wf dd -> dom_wf ds -> sub_domain ds dd -> dom_select (ddims ds) dd = Ok ds.
Proof.
  intros Hd Hs Hsub. unfold dom_select. destruct (dom_merge_spec (ddims ds) [dd]) as (r & E & Hr & Hrw & Hm).
  - constructor; auto.
  - cbn. rewrite app_nil_r. apply Hd.
  - apply Hs.
  - cbn. rewrite app_nil_r. intros q Hq. apply ddims_in in Hq as (b & f & Hq). apply ddims_in. eauto.
  - rewrite E. f_equal. symmetry. apply dom_eq_list; [congruence|apply Hs|]. intros q b f Hq. apply Hm. split; [apply ddims_in; eauto|]. exists dd. split; [now left|auto].
Qed.
Lemma copy_ok {V} dst src g1 g2 (m : memory V) : span_wf dst -> span_wf src -> no_aliasing dst -> sub_domain (s_dom src) (s_dom dst) ->
  box_count (s_dom src) < 2 ^ 64 -> room dst g1 -> room src g2 -> disjoint_spans dst src ->
  (exists sched m', parallel_copy dst src g1 g2 sched m = Ok m') /\
  forall sched m', parallel_copy dst src g1 g2 sched m = Ok m' ->
    (forall e e', in_box (s_dom dst) e -> in_box (s_dom src) e' -> agree_on (s_dom src) e' e -> span_read m' dst [e] = span_read m src [e']) /\
    (forall a, ~ cell_of dst a -> m' a = m a).
Proof.
  intros Hw1 Hw2 Hna Hsub Hc Hr1 Hr2 Hdis. assert (Hd1 := proj1 Hw1). assert (Hd2 := proj1 Hw2).
  unfold parallel_copy. rewrite select_sub by auto. cbn [rbind]. rewrite dom_eq_self by auto. cbn [rbind].
  destruct (tags_eqb (ddims (s_dom dst)) (ddims (s_dom src))) eqn:Et.
  - apply tags_eqb_spec in Et. assert (Ed : s_dom dst = s_dom src) by (symmetry; apply sub_same; auto; apply Hd2).
    destruct (view_copy_ok dst src g1 g2 m) as [K1 K2]; auto; [now left|]. split; auto. intros sched m' E. destruct (K2 sched m' E) as [K3 K4]. split; auto.
    intros e e' Hb Hb' Hag. rewrite K3 by auto. assert (Hb2 : in_box (s_dom src) e) by now rewrite <- Ed.
    unfold span_read. f_equal. rewrite !at_cell_ok by auto. f_equal. apply loc_ext. intros q Hq.
    pose proof Hq as Hq'. apply ddims_in in Hq' as (b & f & Hq'). destruct (proj2 Hb' q b f Hq') as (x & Hx & _).
    rewrite (vf_val e' q x) by (auto; apply Hb'). apply vf_val; [apply Hb2|]. now apply (Hag q x).
  - destruct (extents_values (s_dom dst) Hd1) as (ex & Ee & Ev). rewrite Ee. cbn [rbind]. rewrite Ev. change (map _ (s_dom dst)) with (map ext1 (s_dom dst)).
    assert (Hne : s_dom dst <> []).
    { intros En. destruct (s_dom src) as [|(q, (b, f)) l] eqn:Es.
      - rewrite En in Et. discriminate.
      - specialize (Hsub q b f (or_introl eq_refl)). rewrite En in Hsub. destruct Hsub. }
    assert (Ep : policy_indices (map ext1 (s_dom dst)) = box (map ext1 (s_dom dst))) by (destruct (s_dom dst); [congruence|reflexivity]).
    rewrite Ep. rewrite (map_res_ok _ (fun is => PRead (at_cell src (elem_at (s_dom dst) is)) (fun v => PWrite (at_cell dst (elem_at (s_dom dst) is)) v PRet))).
    2:{ intros is His. now apply copy_call_ok. }
    cbn [rbind]. split; [apply kernel_ends|]. intros sched m' E.
    assert (Hcd : forall is, In is (box (map ext1 (s_dom dst))) -> cell_of dst (at_cell dst (elem_at (s_dom dst) is))).
    { intros is Hi. eexists. split; [|apply at_cell_ok; auto]; apply trace_box; auto; now apply box_trace. }
    destruct (copies (box (map ext1 (s_dom dst))) (fun ids => at_cell src (elem_at (s_dom dst) ids)) (fun ids => at_cell dst (elem_at (s_dom dst) ids)) (fun v : V => v) m sched m') as [K1 K2]; auto using box_nodup.
    + intros. now apply (box_cell_inj dst).
    + intros x y Hx Hy Exy. exfalso. apply (Hdis (at_cell dst (elem_at (s_dom dst) x))); auto. rewrite Exy. now apply (@copy_call_ok V dst src y).
    + split.
      * intros e e' Hb Hb' Hag. destruct (in_trace_of dst e Hw1 Hb) as (e2 & He2 & Hs & Ea).
        unfold trace in He2. apply in_map_iff in He2 as (is & <- & His).
        destruct (@copy_call_ok V dst src is) as (_ & _ & Hs2); auto.
        unfold span_read. rewrite Ea, (Hs2 e'); auto.
        -- cbn [rbind]. f_equal. now apply K1.
        -- intros q x Hq. rewrite (Hag q x Hq). apply Hs.
      * intros a Hca. apply K2. intros is His ->. apply Hca. auto.
Qed.

(** * Mirrors *)
Lemma fresh_disjoint src fresh : span_wf src -> box_count (s_dom src) < 2 ^ 64 -> fresh_for src fresh ->
  exists c, span_of_ptr LRight fresh (s_dom src) = Ok c /\ s_dom c = s_dom src /\ span_wf c /\ no_aliasing c /\ disjoint_spans c src /\
    (forall a, cell_of c a -> fresh <= a < fresh + box_count (s_dom src)).
Proof.
  intros Hw Hc Hf. assert (Hd := proj1 Hw).
  destruct (alloc_bijection LRight fresh (s_dom src)) as (s & E & H1 & H2 & H3); auto; [now left|].
  pose proof E as E'. rewrite span_of_ptr_ok in E' by auto. injection E' as <-. eexists. split; [exact E|]. split; [reflexivity|].
  split; [apply alloc_wf; auto; now left|]. split; [apply alloc_no_alias; auto; now left|].
  assert (Hr : forall a, cell_of (mk_span (mk_mdspan fresh LRight (map ext1 (s_dom src))) (s_dom src)) a -> fresh <= a < fresh + box_count (s_dom src)).
  { intros a (e & Hb & Ea). cbn [s_dom] in Hb. destruct (H1 [e]) as (a' & Ea' & Hr); [cbn; now rewrite app_nil_r|].
    rewrite Ea in Ea'. injection Ea' as <-. rewrite dom_size_exact in Hr; auto. }
  split; auto. intros a Ha Hs. apply (Hf a Hs). auto.
Qed.
Lemma mirror_ok {V} src fresh g1 g2 (m : memory V) : span_wf src -> m_lay (s_md src) = LRight -> box_count (s_dom src) < 2 ^ 64 -> fresh_for src fresh ->
  room src g1 -> room src g2 ->
  exists c, create_mirror src fresh = Ok c /\ create_mirror_view false src fresh = Ok c /\ create_mirror_view true src fresh = Ok src /\
    s_dom c = s_dom src /\ m_lay (s_md c) = LRight /\ span_wf c /\ no_aliasing c /\ disjoint_spans c src /\
    (exists sched m', create_mirror_and_copy src fresh g1 g2 sched m = Ok (c, m')) /\
    (forall sched, create_mirror_view_and_copy true src fresh g1 g2 sched m = Ok (src, m)) /\
    (forall sched, create_mirror_view_and_copy false src fresh g1 g2 sched m = create_mirror_and_copy src fresh g1 g2 sched m) /\
    forall sched c' m', create_mirror_and_copy src fresh g1 g2 sched m = Ok (c', m') ->
      c' = c /\ (forall e, in_box (s_dom src) e -> span_read m' c [e] = span_read m src [e]) /\
      (forall a, ~ (fresh <= a < fresh + box_count (s_dom src)) -> m' a = m a).
Proof.
  intros Hw Hl Hc Hf Hg1 Hg2. destruct (fresh_disjoint src fresh Hw Hc Hf) as (c & E & Ed & Hwc & Hnc & Hdis & Hcell). exists c.
  unfold create_mirror_view, create_mirror_view_and_copy, create_mirror_and_copy, create_mirror. rewrite Hl, E. cbn [rbind].
  assert (Hlc : m_lay (s_md c) = LRight) by (rewrite span_of_ptr_ok in E by apply Hw; injection E as <-; reflexivity).
  destruct (deepcopy_ok c src g1 g2 m) as [K1 K2]; auto; [now rewrite Ed| |now left|].
  { destruct Hg1. split; rewrite Ed; auto. }
  repeat match goal with |- _ /\ _ => split; [now auto|] end. split; [|split; [|split]]; auto.
  - destruct K1 as (sched & m' & K). exists sched, m'. now rewrite K.
  - intros sched c' m' K. destruct (parallel_deepcopy c src g1 g2 sched m) as [m1| |] eqn:Ek; try discriminate. injection K as <- <-.
    split; [reflexivity|]. destruct (K2 sched m1 Ek) as [K3 K4]. split; [intros e Hb; apply K3; now rewrite Ed|].
    intros a Ha. apply K4. intros Hca. apply Ha. auto.
Qed.
Lemma layout_right_ok {V} src fresh g1 g2 (m : memory V) : span_wf src -> box_count (s_dom src) < 2 ^ 64 -> fresh_for src fresh ->
  room src g1 -> room src g2 ->
  (exists sched c m', create_layout_right_view_and_copy src fresh g1 g2 sched m = Ok (c, m')) /\
  forall sched c m', create_layout_right_view_and_copy src fresh g1 g2 sched m = Ok (c, m') ->
    s_dom c = s_dom src /\ m_lay (s_md c) = LRight /\ span_wf c /\ (m_lay (s_md src) = LRight -> c = src) /\
    (m_lay (s_md src) <> LRight -> disjoint_spans c src /\ forall a, cell_of c a -> fresh <= a < fresh + box_count (s_dom src)) /\
    (forall e, in_box (s_dom src) e -> span_read m' c [e] = span_read m src [e] /\ span_read m' src [e] = span_read m src [e]).
Proof.
  intros Hw Hc Hf Hg1 Hg2. destruct (fresh_disjoint src fresh Hw Hc Hf) as (c & E & Ed & Hwc & Hnc & Hdis & Hcell).
  assert (Hlc : m_lay (s_md c) = LRight) by (pose proof E as E'; rewrite span_of_ptr_ok in E' by apply Hw; injection E' as <-; reflexivity).
  destruct (deepcopy_ok c src g1 g2 m) as [K1 K2]; auto; [now rewrite Ed| |now left|].
  { destruct Hg1. split; rewrite Ed; auto. }
  assert (Hsrc : forall sched m', parallel_deepcopy c src g1 g2 sched m = Ok m' ->
    forall e, in_box (s_dom src) e -> span_read m' c [e] = span_read m src [e] /\ span_read m' src [e] = span_read m src [e]).
  { intros sched m' K e Hb. destruct (K2 sched m' K) as [K3 K4]. split; [apply K3; now rewrite Ed|]. unfold span_read.
    rewrite at_cell_ok by auto. cbn [rbind]. f_equal. apply K4. intros Hca. apply (Hdis _ Hca). exists e. split; auto. now apply at_cell_ok. }
  assert (HH : (exists sched c0 m', rbind (span_of_ptr LRight fresh (s_dom src)) (fun c => rbind (parallel_deepcopy c src g1 g2 sched m) (fun m' => Ok (c, m'))) = Ok (c0, m')) /\
    forall sched c0 m', rbind (span_of_ptr LRight fresh (s_dom src)) (fun c => rbind (parallel_deepcopy c src g1 g2 sched m) (fun m' => Ok (c, m'))) = Ok (c0, m') ->
     c0 = c /\ parallel_deepcopy c src g1 g2 sched m = Ok m').
  { rewrite E. cbn [rbind]. split.
    - destruct K1 as (sched & m' & K). exists sched, c, m'. now rewrite K.
    - intros sched c0 m' K. destruct (parallel_deepcopy c src g1 g2 sched m); try discriminate. injection K as <- <-. auto. }
  destruct HH as [HH1 HH2].
  unfold create_layout_right_view_and_copy. destruct (m_lay (s_md src)) eqn:El.
  - split; [exists [], src, m; reflexivity|]. intros sched c0 m' K. injection K as <- <-. split; [auto|]. split; [auto|]. split; [exact Hw|]. split; [auto|]. split; [congruence|]. auto.
  - split; [exact HH1|]. intros sched c0 m' K. apply HH2 in K as [-> K]. split; [auto|]. split; [auto|]. split; [auto|]. split; [discriminate|]. split; auto. now apply Hsrc with sched.
  - split; [exact HH1|]. intros sched c0 m' K. apply HH2 in K as [-> K]. split; [auto|]. split; [auto|]. split; [auto|]. split; [discriminate|]. split; auto. now apply Hsrc with sched.
Qed.
