From Verif Require Import Machine MachineProofs TypeSeqModel TaggedModel TaggedSpec TaggedProofs
  DomainModel DomainSpec DomainProofs ListAux DomainProofs2 SpanModel SpanSpec SpanProofs StorageProofs KokkosModel KokkosSpec KokkosProofs
  ReduceModel ReduceSpec ReduceProofs ParModel ParSpec ParProofs.

Lemma map_res_policy {B} d (f : tagged -> res B) (g : tagged -> B) : dom_wf d ->
  (forall e, In e (trace d) -> f e = Ok (g e)) ->
  map_res (fun ids => rbind (policy_elem d ids) f) (policy_indices (sizes_of d)) = Ok (map g (trace d)).
Proof.
  intros Hw Hf. rewrite (map_res_ok _ (fun ids => g (elem_of d ids))).
  - rewrite <- policy_elems, map_map. reflexivity.
  - intros ids Hin. rewrite policy_trace by auto. cbn [rbind]. apply Hf. rewrite <- policy_elems. apply (in_map (elem_of d)), Hin.
Qed.
Lemma for_each_calls_ok {V} d (f : tagged -> res (prog V)) g : dom_wf d -> (forall e, In e (trace d) -> f e = Ok (g e)) ->
  for_each_calls d f = Ok (map g (trace d)).
Proof.
  intros Hw Hf. unfold for_each_calls. destruct (extents_values d Hw) as (ex & E & Ev). rewrite E. cbn [rbind]. rewrite Ev.
  now apply (map_res_policy d f g).
Qed.
(** The elements a parallel loop calls the functor on. *)
Lemma called_once d : dom_wf d -> exists l, rbind (extents d) (fun ex => map_res (policy_elem d) (policy_indices (values ex))) = Ok l /\ enumerates d l.
Proof.
  intros Hw. destruct (extents_values d Hw) as (ex & E & Ev). rewrite E. cbn [rbind]. rewrite Ev.
  exists (trace d). split; [|now apply trace_enum].
  rewrite (map_res_ok _ (elem_of d)); [now rewrite <- policy_elems|]. intros ids Hin. now apply policy_trace.
Qed.
Lemma for_each_any_schedule {V} d (f : tagged -> prog V) R W m : dom_wf d -> race_free d f R W ->
  exists mh, host_for_each d (fun e m => run_alone (f e) m) m = Ok mh /\
    (exists sched m', parallel_for_each d (fun e => Ok (f e)) sched m = Ok m') /\
    (forall sched m', parallel_for_each d (fun e => Ok (f e)) sched m = Ok m' -> forall a, m' a = mh a).
Proof.
  intros Hw (H1 & H2 & H3). rewrite host_for_each_trace by auto. eexists. split; [reflexivity|].
  unfold parallel_for_each. rewrite (for_each_calls_ok d _ f) by auto. cbn [rbind]. split; [apply kernel_ends|].
  intros sched m' E a. apply (items_sequential (trace d) f R W m) with (sched := sched); auto using trace_nodup.
  - intros e He. apply H1. now apply trace_in in He.
  - intros x y b Hx Hy Hne Hb. apply trace_in in Hx as [? ?]; auto. apply trace_in in Hy as [? ?]; auto. now apply (H3 x y).
  - intros b. generalize (trace d). intros l. induction l as [|x l [IH|(y & Hy & IH)]].
    + left. intros x [].
    + destruct (H2 x b) as [Hx|Hx]; [right; exists x; split; auto; now left|left]. intros y [<-|Hy]; auto.
    + right. exists y. split; auto. now right.
Qed.

Definition at_cell (s : span) (e : tagged) : Z := loc s (vf e).
Lemma at_cell_ok s e : span_wf s -> in_box (s_dom s) e -> span_access s [e] = Ok (at_cell s e).
Proof. intros Hw Hb. rewrite access_loc; auto; cbn [concat]; rewrite app_nil_r; auto. Qed.
Lemma trace_box s e : span_wf s -> In e (trace (s_dom s)) -> in_box (s_dom s) e.
Proof. intros Hw H. now apply trace_in in H; [|apply Hw]. Qed.
Lemma at_cell_inj s x y : span_wf s -> no_aliasing s -> In x (trace (s_dom s)) -> In y (trace (s_dom s)) -> at_cell s x = at_cell s y -> x = y.
Proof.
  intros Hw Hna Hx Hy E. assert (Bx := trace_box s x Hw Hx). assert (By := trace_box s y Hw Hy).
  apply trace_in in Hx as [Dx _]; [|apply Hw]. apply trace_in in Hy as [Dy _]; [|apply Hw].
  apply tagged_eq_list; [congruence|apply Bx|]. intros q v. apply (Hna x y (at_cell s x)); auto; [|rewrite E]; now apply at_cell_ok.
Qed.
(** Every element has a representative in the trace. *)
Lemma in_trace_of s e : span_wf s -> in_box (s_dom s) e -> exists e', In e' (trace (s_dom s)) /\ same_values e e' /\ span_access s [e] = Ok (at_cell s e').
Proof.
  intros Hw Hb. set (e' := map (fun p => (fst p, vf e (fst p))) (s_dom s) : tagged).
  assert (Dd : dims e' = ddims (s_dom s)) by (unfold dims, e'; rewrite map_map; reflexivity).
  assert (Hv : forall q x, In q (ddims (s_dom s)) -> (val_of e' q x <-> x = vf e q)).
  { intros q x Hq. unfold val_of, e'. split.
    - intros Hi. apply in_map_iff in Hi as ((q0, (b, f)) & Ei & Hi). injection Ei as <- <-. reflexivity.
    - intros ->. apply ddims_in in Hq as (b & f & Hq). apply in_map_iff. exists (q, (b, f)). auto. }
  assert (Hb' : in_box (s_dom s) e').
  { split; [split; [rewrite Dd; apply Hw|intros q; now rewrite Dd]|]. intros q b f Hq. exists (vf e q). split.
    - apply Hv; auto. apply ddims_in; eauto.
    - now apply (in_box_vf (s_dom s)). }
  assert (Hs : same_values e e').
  { apply (vf_same (s_dom s)); auto. intros q Hq. symmetry. apply vf_val; [apply Hb'|]. now apply Hv. }
  exists e'. split; [apply trace_in; auto; apply Hw|]. split; auto.
  rewrite (access_same s [e] [e']); cbn [concat]; rewrite ?app_nil_r; auto. now apply at_cell_ok.
Qed.

(** * transform *)
Lemma transform_ok {V} dst (f : V -> V) m : span_wf dst -> no_aliasing dst ->
  (exists sched m', parallel_transform dst f sched m = Ok m') /\
  forall sched m', parallel_transform dst f sched m = Ok m' ->
    (forall e v, in_box (s_dom dst) e -> span_read m dst [e] = Ok v -> span_read m' dst [e] = Ok (f v)) /\
    (forall a, ~ cell_of dst a -> m' a = m a).
Proof.
  intros Hw Hna. unfold parallel_transform, parallel_for_each.
  rewrite (for_each_calls_ok _ _ (fun e => PRead (at_cell dst e) (fun v => PWrite (at_cell dst e) (f v) PRet))); [|apply Hw|].
  2:{ intros e He. rewrite at_cell_ok; auto. now apply trace_box. }
  cbn [rbind]. split; [apply kernel_ends|]. intros sched m' E.
  destruct (copies (trace (s_dom dst)) (at_cell dst) (at_cell dst) f m sched m') as [K1 K2]; auto.
  - apply trace_nodup, Hw.
  - intros. now apply (at_cell_inj dst).
  - intros. now apply (at_cell_inj dst).
  - split.
    + intros e v Hb. destruct (in_trace_of dst e Hw Hb) as (e' & He' & _ & Ea). unfold span_read. rewrite Ea. cbn [rbind].
      intros Ev. injection Ev as <-. f_equal. now apply K1.
    + intros a Ha. apply K2. intros x Hx ->. apply Ha. exists x. split; [now apply trace_box|]. apply at_cell_ok; auto. now apply trace_box.
Qed.

(** * Views *)
Lemma span_mdspan_wf s : span_wf s -> mdspan_wf (s_md s).
Proof.
  intros (Hd & He & Hl). split.
  - rewrite He. apply (ext_nonneg _ Hd).
  - destruct (m_lay (s_md s)) as [| |st].
    + rewrite He. change (prod (map ext1 (s_dom s)) < 2 ^ 64). now rewrite prod_box.
    + rewrite He. change (prod (map ext1 (s_dom s)) < 2 ^ 64). now rewrite prod_box.
    + destruct Hl as (H1 & H2 & H3). split; [|auto]. rewrite H1, He, map_length. reflexivity.
Qed.
Lemma view_ok s g : span_wf s -> room s g ->
  v_ext (allocation_kokkos_view (s_md s) g) = map ext1 (s_dom s) /\
  forall is, kview_access (allocation_kokkos_view (s_md s) g) is = md_access (s_md s) is.
Proof.
  intros Hw [Hg Hr]. assert (He : m_ext (s_md s) = map ext1 (s_dom s)) by apply Hw.
  destruct (view_of_span (s_md s) g) as [H1 H2].
  - now apply span_mdspan_wf.
  - rewrite He, map_length. auto.
  - rewrite He, map_length. auto.
  - split; auto. unfold build_mdspan in H2. destruct (is_kokkos_layout_compatible _); [|discriminate]. rewrite <- He. remember (allocation_kokkos_view (s_md s) g) as vv. injection H2 as H2. rewrite <- H2. reflexivity.
Qed.
Lemma md_at s is : span_wf s -> In is (box (map ext1 (s_dom s))) -> md_access (s_md s) is = Ok (at_cell s (elem_at (s_dom s) is)).
Proof.
  intros Hw Hin. assert (Hd := proj1 Hw). apply in_box_list in Hin. apply in_rng_flip in Hin.
  assert (Hb := elem_at_box _ _ Hd Hin). rewrite <- at_cell_ok by auto.
  unfold span_access. assert (L : length is = length (s_dom s)) by (apply in_rng_len in Hin; rewrite map_length in Hin; auto).
  assert (Hc : contains (s_dom s) [elem_at (s_dom s) is] = Ok true).
  { destruct (contains (s_dom s) [elem_at (s_dom s) is]) as [[|]| |] eqn:Ec; auto; exfalso;
      pose proof (at_cell_ok s _ Hw Hb) as Ha; unfold span_access in Ha; rewrite Ec in Ha; discriminate. }
  rewrite Hc. cbn [rbind]. rewrite distance_values; cbn [concat]; rewrite ?app_nil_r; auto. cbn [rbind]. f_equal.
  unfold values. rewrite map_map. cbn [snd]. symmetry. apply elem_at_offsets; auto. apply Hd.
Qed.
Lemma md_box sizes : md_indices sizes = box sizes.
Proof. reflexivity. Qed.
Lemma box_nodup sizes : NoDup (box sizes).
Proof. eapply sorted_nodup; [apply lex_irrefl|]. apply box_sorted. Qed.
Lemma box_trace s is : In is (box (map ext1 (s_dom s))) -> In (elem_at (s_dom s) is) (trace (s_dom s)).
Proof. intros H. unfold trace. apply in_map. exact H. Qed.
Lemma elem_at_inj d is js : dom_wf d -> length is = length d -> length js = length d -> elem_at d is = elem_at d js -> is = js.
Proof. intros Hd Hi Hj E. rewrite <- (elem_at_offsets d is), <- (elem_at_offsets d js); auto; try apply Hd. now rewrite E. Qed.
Lemma box_len sizes is : In is (box sizes) -> length is = length sizes.
Proof. intros H. apply in_box_list in H. apply Forall2_len in H. auto. Qed.
Lemma box_cell_inj s is js : span_wf s -> no_aliasing s -> In is (box (map ext1 (s_dom s))) -> In js (box (map ext1 (s_dom s))) ->
  at_cell s (elem_at (s_dom s) is) = at_cell s (elem_at (s_dom s) js) -> is = js.
Proof.
  intros Hw Hna Hi Hj E. apply (elem_at_inj (s_dom s)); [apply Hw| | |].
  - apply box_len in Hi. now rewrite map_length in Hi.
  - apply box_len in Hj. now rewrite map_length in Hj.
  - apply (at_cell_inj s); auto using box_trace.
Qed.

Lemma fill_ok {V} dst (x : V) g m : span_wf dst -> no_aliasing dst -> room dst g ->
  (exists sched m', parallel_fill dst x g sched m = Ok m') /\
  forall sched m', parallel_fill dst x g sched m = Ok m' ->
    (forall e, in_box (s_dom dst) e -> span_read m' dst [e] = Ok x) /\
    (forall a, ~ cell_of dst a -> m' a = m a).
Proof.
  intros Hw Hna Hr. unfold parallel_fill, view_fill. destruct (view_ok dst g Hw Hr) as [Ev Ha]. rewrite Ev, md_box.
  rewrite (map_res_ok _ (fun ids => PWrite (at_cell dst (elem_at (s_dom dst) ids)) x PRet)).
  2:{ intros ids Hin. rewrite Ha, md_at; auto. }
  cbn [rbind]. split; [apply kernel_ends|]. intros sched m' E.
  destruct (fills (box (map ext1 (s_dom dst))) (fun ids => at_cell dst (elem_at (s_dom dst) ids)) x m sched m') as [K1 K2]; auto using box_nodup.
  - intros. now apply (box_cell_inj dst).
  - split.
    + intros e Hb. destruct (in_trace_of dst e Hw Hb) as (e' & He' & _ & Ea). unfold span_read. rewrite Ea. cbn [rbind]. f_equal.
      unfold trace in He'. apply in_map_iff in He' as (is & <- & His). now apply K1.
    + intros a Hc. apply K2. intros is His ->. apply Hc. eexists. split; [|apply at_cell_ok; auto].
      * apply trace_box; auto. apply box_trace. exact His.
      * apply trace_box; auto. apply box_trace. exact His.
Qed.

(** * Copies between chunks on the same domain *)
Lemma list_eqb_refl' l : list_eqb l l = true. Proof. apply list_eqb_refl. Qed.
Lemma view_copy_ok {V} dst src g1 g2 (m : memory V) : span_wf dst -> span_wf src -> no_aliasing dst -> s_dom dst = s_dom src ->
  room dst g1 -> room src g2 -> may_copy dst src ->
  (exists sched m', view_copy (allocation_kokkos_view (s_md dst) g1) (allocation_kokkos_view (s_md src) g2) sched m = Ok m') /\
  forall sched m', view_copy (allocation_kokkos_view (s_md dst) g1) (allocation_kokkos_view (s_md src) g2) sched m = Ok m' ->
    (forall e, in_box (s_dom dst) e -> span_read m' dst [e] = span_read m src [e]) /\
    (forall a, ~ cell_of dst a -> m' a = m a).
Proof.
  intros Hw1 Hw2 Hna Hd Hr1 Hr2 Hdis. unfold view_copy.
  destruct (view_ok dst g1 Hw1 Hr1) as [Ev1 Ha1]. destruct (view_ok src g2 Hw2 Hr2) as [Ev2 Ha2]. rewrite Ev1, Ev2, <- Hd, list_eqb_refl', md_box.
  rewrite (map_res_ok _ (fun ids => PRead (at_cell src (elem_at (s_dom dst) ids)) (fun v => PWrite (at_cell dst (elem_at (s_dom dst) ids)) v PRet))).
  2:{ intros ids Hin. rewrite Ha1, Ha2. rewrite (md_at dst) by auto. rewrite (md_at src ids Hw2) by (rewrite <- Hd; auto). cbn [rbind]. now rewrite <- Hd. }
  cbn [rbind]. split; [apply kernel_ends|]. intros sched m' E.
  assert (Hcell : forall s is, span_wf s -> In is (box (map ext1 (s_dom s))) -> cell_of s (at_cell s (elem_at (s_dom s) is))).
  { intros s is Hs Hi. eexists. split; [|apply at_cell_ok; auto]; apply trace_box; auto; now apply box_trace. }
  destruct (copies (box (map ext1 (s_dom dst))) (fun ids => at_cell src (elem_at (s_dom dst) ids)) (fun ids => at_cell dst (elem_at (s_dom dst) ids)) (fun v : V => v) m sched m') as [K1 K2]; auto using box_nodup.
  - intros. now apply (box_cell_inj dst).
  - intros x y Hx Hy Exy. destruct Hdis as [Hdis| ->].
    + exfalso. apply (Hdis (at_cell dst (elem_at (s_dom dst) x))); [apply Hcell; auto|]. rewrite Exy, Hd. apply Hcell; auto. now rewrite <- Hd.
    + now apply (box_cell_inj src).
  - split.
    + intros e Hb. destruct (in_trace_of dst e Hw1 Hb) as (e' & He' & Hs & Ea).
      assert (Hb2 : in_box (s_dom src) e) by now rewrite <- Hd.
      assert (Es : span_access src [e] = Ok (at_cell src e')).
      { rewrite at_cell_ok by auto. f_equal. apply loc_ext. intros q Hq. apply (same_vf (s_dom src)); auto. rewrite <- Hd. now apply trace_box. }
      unfold span_read. rewrite Ea, Es. cbn [rbind]. f_equal.
      unfold trace in He'. apply in_map_iff in He' as (is & <- & His). now apply K1.
    + intros a Hc. apply K2. intros is His ->. apply Hc. now apply Hcell.
Qed.
Lemma dom_eq_self d : dom_wf d -> box_count d < 2 ^ 64 -> dom_eq d d = Ok true.
Proof.
  intros Hd Hc. destruct (dom_eq_exact d d Hd Hd) as (r & E & Hr); auto; [tauto|]. rewrite E. f_equal. apply Hr. tauto.
Qed.
Lemma deepcopy_ok {V} dst src g1 g2 (m : memory V) : span_wf dst -> span_wf src -> no_aliasing dst -> s_dom dst = s_dom src ->
  box_count (s_dom dst) < 2 ^ 64 -> room dst g1 -> room src g2 -> may_copy dst src ->
  (exists sched m', parallel_deepcopy dst src g1 g2 sched m = Ok m') /\
  forall sched m', parallel_deepcopy dst src g1 g2 sched m = Ok m' ->
    (forall e, in_box (s_dom dst) e -> span_read m' dst [e] = span_read m src [e]) /\
    (forall a, ~ cell_of dst a -> m' a = m a).
Proof.
  intros Hw1 Hw2 Hna Hd Hc Hr1 Hr2 Hdis. unfold parallel_deepcopy. rewrite <- Hd, dom_eq_self; [|apply Hw1|auto]. cbn [rbind].
  now apply view_copy_ok.
Qed.
