From Coq Require Import Permutation.
From Verif Require Import Machine MachineProofs TypeSeqModel TaggedModel TaggedSpec TaggedProofs
  DomainModel DomainSpec DomainProofs ListAux DomainProofs2 SpanModel SpanSpec SpanProofs StorageProofs ReduceModel ReduceSpec ReduceProofs ReduceProofs2 ScanProofs.

Lemma without_left d ts : forall e, dims e = ts -> without d ts = left_dims d e.
Proof. intros e <-. reflexivity. Qed.
Lemma remove_without d ts : dom_wf d -> remove_dims_of d ts = Ok (without d ts).
Proof.
  intros Hw. unfold remove_dims_of. pose (e := map (fun q => (q, 0)) ts : tagged).
  assert (He : dims e = ts) by (unfold dims, e; rewrite map_map; apply map_id).
  rewrite (without_left d ts e He). rewrite <- He at 1. now apply select_left.
Qed.
Lemma without_wf d ts : dom_wf d -> dom_wf (without d ts).
Proof.
  intros Hw. pose (e := map (fun q => (q, 0)) ts : tagged).
  assert (He : dims e = ts) by (unfold dims, e; rewrite map_map; apply map_id).
  rewrite (without_left d ts e He). now apply left_dims_wf.
Qed.
Lemma without_in d ts q b f : In (q, (b, f)) (without d ts) <-> In (q, (b, f)) d /\ ~ In q ts.
Proof.
  unfold without. rewrite filter_In. cbn [fst]. rewrite negb_true_iff, <- not_true_iff_false, has_dim_spec. tauto.
Qed.
Lemma select_one_dim d q b f : dom_wf d -> In (q, (b, f)) d -> dom_select [q] d = Ok [(q, (b, f))].
Proof.
  intros Hw Hi. unfold dom_select. destruct (dom_merge_spec [q] [d]) as (r & E & Hd & Hr & Hm).
  - constructor; auto.
  - simpl. rewrite app_nil_r. apply Hw.
  - repeat constructor; simpl; tauto.
  - intros q' [<-|[]]. simpl. rewrite app_nil_r. apply ddims_in. eauto.
  - rewrite E. f_equal. apply dom_eq_list; [exact Hd|apply Hr|].
    intros q0 x0 f0 H. apply Hm in H as ([<-|[]] & d0 & [<-|[]] & H).
    destruct (dom_fun d q b f x0 f0) as [-> ->]; auto; [apply Hw | now left].
Qed.
Lemma one_elem d q b f id : dom_wf d -> In (q, (b, f)) d -> 0 <= id < f - b ->
  dom_at [(q, (b, f))] (combine (ddims [(q, (b, f))]) [id]) = Ok [(q, b + id)].
Proof.
  intros Hw Hin Hid. pose proof (dom_wf_at d q b f Hw Hin).
  rewrite dom_at_ok; [reflexivity| |].
  - split; [repeat constructor; simpl; tauto|]. repeat constructor; simpl; lia.
  - repeat constructor; simpl; lia.
Qed.

Section Batch.
Variables (ty : scan_type) (r : reducer) (q : tag) (out : span) (b fe : Z)
  (f : memory Z -> tagged -> tagged -> Z) (g : tagged -> tagged -> Z) (x : tagged -> scan_exec) (mi : memory Z) (init : Z).
Hypothesis Hw : span_wf out.
Hypothesis Hna : no_aliasing out.
Hypothesis Hq : In (q, (b, fe)) (s_dom out).
Hypothesis Hr : r <> RBxor.
Hypothesis Hinit : kokkos_init r = Some init.
Hypothesis Hg : forall ib es, 0 <= g ib es < 2 ^ 64.
Hypothesis Hf : forall ib y m, dims ib = ddims (without (s_dom out) [q]) -> in_box (without (s_dom out) [q]) ib -> b <= y < fe ->
  same_inputs ty out mi m ib [(q, y)] -> f m ib [(q, y)] = g ib [(q, y)].
Let batch := without (s_dom out) [q].
Hypothesis Hx : forall ib, dims ib = ddims batch -> in_box batch ib -> scan_contract (x ib) (fe - b).
Definition good (ib : tagged) : Prop := dims ib = ddims batch /\ in_box batch ib.
Definition full (ib : tagged) (y : Z) : tagged := ib ++ [(q, y)].
Definition cell (ib : tagged) (y : Z) : Z := loc out (vf (full ib y)).

Lemma Hdw : dom_wf (s_dom out). Proof. apply Hw. Qed.
Lemma bounds : 0 <= b /\ b <= fe < 2 ^ 64 /\ fe - b < 2 ^ 63.
Proof. apply (dom_wf_at (s_dom out) q); auto using Hdw. Qed.
Lemma batch_dims ib : good ib -> ~ In q (dims ib).
Proof.
  intros [Hd _]. rewrite Hd. intros Hin. apply ddims_in in Hin as (b0 & f0 & Hin). apply without_in in Hin as [_ Hn]. apply Hn. now left.
Qed.
Lemma full_box ib y : good ib -> b <= y < fe -> in_box (s_dom out) (full ib y).
Proof.
  intros Hgd Hy. pose proof (batch_dims ib Hgd) as Hnq. destruct Hgd as [Hd [[Hn1 Hn2] Hv]]. unfold full. split; [split|].
  - unfold dims. rewrite map_app. apply NoDup_app_intro; auto; [repeat constructor; simpl; tauto|]. intros z Hz [<-|[]]. auto.
  - intros z. unfold dims. rewrite map_app, in_app_iff. fold (dims ib). rewrite Hn2. cbn. split.
    + intros [Hz|[<-|[]]]; apply ddims_in; [|eauto]. apply ddims_in in Hz as (b0 & f0 & Hz). apply without_in in Hz as [Hz _]. eauto.
    + intros Hz. destruct (Nat.eq_dec q z); [auto|]. left. apply ddims_in in Hz as (b0 & f0 & Hz). apply ddims_in. exists b0, f0. apply without_in. split; auto. intros [?|[]]; auto.
  - intros z b0 f0 Hz. destruct (Nat.eq_dec z q) as [->|Hne].
    + destruct (dom_fun (s_dom out) q b fe b0 f0) as [<- <-]; auto; [apply Hdw|]. exists y. split; auto. apply in_or_app. right. now left.
    + destruct (Hv z b0 f0) as (v & H1 & H2); [apply without_in; split; auto; intros [?|[]]; auto|]. exists v. split; auto. apply in_or_app. now left.
Qed.
Lemma concat_full ib y : concat [ib; [(q, y)]] = full ib y.
Proof. unfold full. cbn. reflexivity. Qed.
Lemma cell_access ib y : good ib -> b <= y < fe -> span_access out [ib; [(q, y)]] = Ok (cell ib y) /\ span_access out [full ib y] = Ok (cell ib y).
Proof.
  intros Hgd Hy. pose proof (full_box ib y Hgd Hy) as Hb. split.
  - rewrite access_loc; auto.
  - rewrite access_loc; cbn [concat]; rewrite ?app_nil_r; auto.
Qed.
Lemma cell_inj ib y ib' y' : good ib -> good ib' -> b <= y < fe -> b <= y' < fe -> cell ib y = cell ib' y' -> ib = ib' /\ y = y'.
Proof.
  intros G1 G2 H1 H2 E. pose proof (full_box ib y G1 H1) as B1. pose proof (full_box ib' y' G2 H2) as B2.
  pose proof (cell_access ib y G1 H1) as [_ A1]. pose proof (cell_access ib' y' G2 H2) as [_ A2]. rewrite <- E in A2.
  pose proof (Hna _ _ _ B1 B2 A1 A2) as Hs. split.
  - apply tagged_eq_list; [destruct G1, G2; congruence| |].
    + destruct G1 as [_ [[? _] _]]. auto.
    + intros z v Hv. assert (H : val_of (full ib' y') z v) by (apply Hs; apply in_or_app; now left).
      apply in_app_or in H as [H|[H|[]]]; auto. injection H as <- <-. exfalso. apply (batch_dims ib G1). apply (in_map fst) in Hv. exact Hv.
  - assert (H : val_of (full ib' y') q y) by (apply Hs; apply in_or_app; right; now left).
    apply in_app_or in H as [H|[H|[]]]; [|now injection H as ->]. exfalso. apply (batch_dims ib' G2). apply (in_map fst) in H. exact H.
Qed.
Lemma cell_not_outside ib y : good ib -> b <= y < fe -> ~ outside out (cell ib y).
Proof. intros G1 H1 Ho. apply (Ho (full ib y)); [now apply full_box|]. now apply cell_access. Qed.

Definition result (ib : tagged) (y : Z) : Z :=
  reduction r (map (fun z => g ib [(q, z)]) (upto (match ty with Inclusive => true | Exclusive => false end) b y)).

Lemma one_batch ib m : good ib -> (forall a, outside out a -> m a = mi a) -> (forall y, b <= y < fe -> m (cell ib y) = mi (cell ib y)) ->
  exists m', run_scan (scan_call ty r f out [(q, (b, fe))] ib) (kokkos_join r) init (x ib) m = Ok m' /\
    (forall y, b <= y < fe -> m' (cell ib y) = result ib y) /\ (forall a, (forall y, b <= y < fe -> a <> cell ib y) -> m' a = m a).
Proof.
  intros Hgd Hout Hown. pose proof bounds as Hb.
  destruct (scan_ok ty r (fe - b) (fun i => cell ib (b + i)) (fun m i => f m ib [(q, b + i)]) (fun i => g ib [(q, b + i)]) m
              (scan_call ty r f out [(q, (b, fe))] ib)) with (init := init) (x := x ib) as (m' & E & H1 & H2); auto; try lia.
  - intros i j Hi Hj Hc. apply cell_inj in Hc; auto; lia.
  - intros i. apply Hg.
  - intros id p m1 Hid. unfold scan_call. rewrite (one_elem (s_dom out) q b fe id) by (auto using Hdw). destruct ty; reflexivity.
  - intros id p m1 Hid. unfold scan_call. rewrite (one_elem (s_dom out) q b fe id) by (auto using Hdw).
    destruct (cell_access ib (b + id) Hgd ltac:(lia)) as [Ea _]. unfold span_write. destruct ty; cbn [rbind]; lazymatch goal with |- context [span_access out ?l] => assert (E : span_access out l = Ok (cell ib (b + id))) by exact Ea; rewrite E end; reflexivity.
  - intros id m1 Hid Hm. apply Hf; try lia; try apply Hgd. intros a [Ho|[Ht Ha]].
    + rewrite Hm; auto; intros; intros ->; eapply cell_not_outside; eauto; lia.
    + destruct (cell_access ib (b + id) Hgd ltac:(lia)) as [Ea _]. pose proof (eq_trans (eq_sym Ea) Ha) as Hz. injection Hz as <-.
      rewrite Hm; [apply Hown; lia|congruence|]. intros j Hj Hne Hc. apply cell_inj in Hc; auto; lia.
  - apply Hx; apply Hgd.
  - exists m'. split; [exact E|]. split.
    + intros y Hy. specialize (H1 (y - b)). replace (b + (y - b)) with y in H1 by lia. rewrite H1 by lia.
      unfold val, pre, result, upto. rewrite !map_map. destruct ty; [reflexivity|]. now rewrite Z.add_0_r.
    + intros a Ha. apply H2. intros i Hi. apply Ha. lia.
Qed.

Lemma batches L : forall m, NoDup L -> (forall ib, In ib L -> good ib) -> (forall a, outside out a -> m a = mi a) ->
  (forall ib y, In ib L -> b <= y < fe -> m (cell ib y) = mi (cell ib y)) ->
  exists m', fold_left (fun rm ib => rbind rm (fun m => run_scan (scan_call ty r f out [(q, (b, fe))] ib) (kokkos_join r) init (x ib) m)) L (Ok m) = Ok m' /\
    (forall ib y, In ib L -> b <= y < fe -> m' (cell ib y) = result ib y) /\
    (forall a, (forall ib y, In ib L -> b <= y < fe -> a <> cell ib y) -> m' a = m a).
Proof.
  induction L as [|ib L IH]; intros m Hnd Hgd Ho Hc.
  - exists m. split; [reflexivity|]. split; [intros ? ? []|auto].
  - apply NoDup_cons_iff in Hnd as [Hni Hnd].
    destruct (one_batch ib m) as (m1 & E1 & V1 & F1); [apply Hgd; now left|auto|intros; apply Hc; auto; now left|].
    destruct (IH m1) as (m2 & E2 & V2 & F2); auto.
    + intros; apply Hgd; now right.
    + intros a Ha. rewrite F1; auto. intros y Hy ->. eapply cell_not_outside; [| |exact Ha]; auto. apply Hgd; now left.
    + intros ib' y Hin Hy. rewrite F1; [apply Hc; auto; now right|]. intros y' Hy' E. apply cell_inj in E as [<- _]; auto; apply Hgd; [now right|now left].
    + cbn [fold_left rbind]. rewrite E1. exists m2. split; [exact E2|]. split.
      * intros ib' y [<-|Hin] Hy; auto. rewrite F2; [auto|]. intros ib' y' Hin Hy' E. apply cell_inj in E as [<- _]; auto; apply Hgd; [now left|now right].
      * intros a Ha. rewrite F2, F1; auto; intros; apply Ha; auto; [now left|now right].
Qed.

Lemma scan_exact : exists m', parallel_transform_scan ty r q out f x mi = Ok m' /\
  (forall ib y, good ib -> b <= y < fe -> span_read m' out [ib; [(q, y)]] = Ok (result ib y)) /\
  (forall a, outside out a -> m' a = mi a).
Proof.
  unfold parallel_transform_scan. rewrite Hinit. rewrite (select_one_dim (s_dom out) q b fe) by auto using Hdw. cbn [rbind].
  rewrite remove_without by apply Hdw. cbn [rbind]. fold batch.
  assert (Hbw : dom_wf batch) by (apply without_wf, Hdw).
  rewrite host_for_each_trace by auto. cbn [rbind].
  destruct (batches (trace batch) mi) as (m' & E & V & F); auto.
  - now apply trace_nodup.
  - intros ib Hin. apply trace_in in Hin; auto.
  - exists m'. split; [exact E|]. split.
    + intros ib y Hgd Hy. unfold span_read. destruct (cell_access ib y Hgd Hy) as [-> _]. cbn [rbind]. f_equal. apply V; auto. apply trace_in; auto.
    + intros a Ha. apply F. intros ib y Hin Hy ->. eapply cell_not_outside; eauto. now apply trace_in in Hin.
Qed.
End Batch.

Lemma scan_full ty r q out b fe f g x m : span_wf out -> no_aliasing out -> In (q, (b, fe)) (s_dom out) -> r <> RBxor ->
  (forall ib es, 0 <= g ib es < 2 ^ 64) ->
  (forall ib y m', in_box (without (s_dom out) [q]) ib -> b <= y < fe -> same_inputs ty out m m' ib [(q, y)] -> f m' ib [(q, y)] = g ib [(q, y)]) ->
  (forall ib, in_box (without (s_dom out) [q]) ib -> scan_contract (x ib) (fe - b)) ->
  exists m', parallel_transform_scan ty r q out f x m = Ok m' /\
  (forall ib y, dims ib = ddims (without (s_dom out) [q]) -> in_box (without (s_dom out) [q]) ib -> b <= y < fe ->
     span_read m' out [ib; [(q, y)]] = Ok (reduction r (map (fun z => g ib [(q, z)]) (upto (match ty with Inclusive => true | Exclusive => false end) b y)))) /\
  (forall a, outside out a -> m' a = m a).
Proof.
  intros Hw Hna Hq Hr Hg Hf Hx. destruct (kokkos_init r) as [i|] eqn:Ei; [|destruct r; discriminate || congruence].
  destruct (scan_exact ty r q out b fe f g x m i) as (m' & E & V & F); auto.
  exists m'. split; [exact E|]. split; [|exact F]. intros ib y Hd Hb Hy. apply V; auto. now split.
Qed.

(** * Reductions into a chunk *)
Lemma host_writes {V} out (v : tagged -> V) (step : tagged -> memory V -> res (memory V)) :
  span_wf out -> no_aliasing out ->
  (forall e m, dims e = ddims (s_dom out) -> in_box (s_dom out) e -> step e m = span_write m out [e] (v e)) ->
  forall m, exists m', rbind (host_for_each (s_dom out) (fun e rm => rbind rm (step e)) (Ok m)) (fun rm => rm) = Ok m' /\
    (forall e, dims e = ddims (s_dom out) -> in_box (s_dom out) e -> span_read m' out [e] = Ok (v e)) /\
    (forall a, outside out a -> m' a = m a).
Proof.
  intros Hw Hna Hstep m. pose proof (proj1 Hw) as Hd. rewrite host_for_each_trace by auto. cbn [rbind].
  assert (G : forall L m, NoDup L -> (forall e, In e L -> dims e = ddims (s_dom out) /\ in_box (s_dom out) e) ->
    exists m', fold_left (fun rm e => rbind rm (step e)) L (Ok m) = Ok m' /\
      (forall e, In e L -> span_read m' out [e] = Ok (v e)) /\
      (forall a, (forall e, In e L -> span_access out [e] <> Ok a) -> m' a = m a)).
  { clear m. induction L as [|e L IH]; intros m Hnd Hin.
    - exists m. split; [reflexivity|]. split; [intros ? []|auto].
    - apply NoDup_cons_iff in Hnd as [Hni Hnd]. destruct (Hin e) as [He1 He2]; [now left|].
      cbn [fold_left rbind]. rewrite Hstep by auto. unfold span_write.
      assert (Ea : span_access out [e] = Ok (loc out (vf e))). { rewrite access_loc; cbn [concat]; rewrite ?app_nil_r; auto. }
      rewrite Ea. cbn [rbind].
      destruct (IH (mem_write m (loc out (vf e)) (v e))) as (m' & E & HV & HF); auto; [intros; apply Hin; now right|].
      exists m'. split; [exact E|]. split.
      + intros e' [<-|Hin']; auto. unfold span_read. rewrite Ea. cbn [rbind]. f_equal. rewrite HF.
        * unfold mem_write. now rewrite Z.eqb_refl.
        * intros e' Hin' Ea'. destruct (Hin e') as [He1' He2']; [now right|].
          pose proof (Hna e e' _ He2 He2' Ea Ea') as Hs. assert (e = e'); [|subst; auto].
          apply tagged_eq_list; [congruence|apply He2|]. intros. now apply Hs.
      + intros a Ha. rewrite HF by (intros; apply Ha; now right). unfold mem_write. destruct (Z.eqb_spec a (loc out (vf e))) as [->|]; auto.
        exfalso. apply (Ha e); [now left|auto]. }
  destruct (G (trace (s_dom out)) m) as (m' & E & HV & HF).
  - now apply trace_nodup.
  - intros e Hin. now apply trace_in in Hin.
  - exists m'. split; [exact E|]. split.
    + intros e He1 He2. apply HV. apply trace_in; auto.
    + intros a Ha. apply HF. intros e Hin. apply Ha. now apply trace_in in Hin.
Qed.

Lemma slice_write {V} out e (m : memory V) v : span_wf out -> dims e = ddims (s_dom out) -> in_box (s_dom out) e ->
  rbind (span_slice_elem out e) (fun s => span_write m s [] v) = span_write m out [e] v.
Proof.
  intros Hw Hd Hb.
  assert (Hok : slices_ok (s_dom out) [SElem e]).
  { split; [|exact I]. split; [apply Hb|]. intros q x Hv. destruct Hb as [[Hn Hi] Hb].
    assert (Hq : In q (ddims (s_dom out))) by (apply Hi; apply (in_map fst) in Hv; exact Hv).
    apply ddims_in in Hq as (b0 & f0 & Hq). destruct (Hb q b0 f0 Hq) as (y & Hy & Hyy). replace x with y by (eapply val_of_fun; eauto). eauto. }
  destruct (slices_compose [SElem e] out Hw Hok) as (s' & E & Hs & Ed & Hacc).
  cbn [run_slices apply_slice] in E. destruct (span_slice_elem out e) as [s0| |]; cbn [rbind] in E; try discriminate. injection E as ->.
  cbn [rbind]. destruct (Hacc []) as (_ & a & E1 & E2).
  - cbn [concat]. rewrite Ed. cbn [left_domain].
    assert (El : left_dims (s_dom out) e = []).
    { destruct (left_dims (s_dom out) e) as [|(q, (b0, f0)) l] eqn:El; auto. exfalso.
      assert (H : In (q, (b0, f0)) (left_dims (s_dom out) e)) by (rewrite El; now left). apply left_dims_in in H as [H1 H2].
      apply H2. rewrite Hd. apply ddims_in. eauto. }
    rewrite El. split; [split; [constructor|intros; reflexivity]|intros ? ? ? []].
  - unfold span_write. cbn [fixed_elems app] in E2. etransitivity; [apply (f_equal (fun z => rbind z _)); exact E1|]. symmetry. etransitivity; [apply (f_equal (fun z => rbind z _)); exact E2|]. reflexivity.
Qed.

Lemma reduce_to_exact r d out f sch m l : dom_wf d -> span_wf out -> no_aliasing out -> r <> RBxor ->
  box_count (s_dom out) < 2 ^ 64 ->
  (forall q b fe, In (q, (b, fe)) (s_dom out) -> In (q, (b, fe)) d) ->
  enumerates (without d (ddims (s_dom out))) l ->
  (forall e1 e2, 0 <= f e1 e2 < 2 ^ 64) ->
  (forall e, in_box (s_dom out) e -> covers (sch e) (sizes_of (without d (ddims (s_dom out))))) ->
  exists m', parallel_transform_reduce_to r d out f sch m = Ok m' /\
    (forall e, dims e = ddims (s_dom out) -> in_box (s_dom out) e -> span_read m' out [e] = Ok (reduction r (map (f e) l))) /\
    (forall a, outside out a -> m' a = m a).
Proof.
  intros Hw Hs Hna Hr Hbc Hsub He Hf Hc. unfold parallel_transform_reduce_to. pose proof (proj1 Hs) as Hod.
  destruct (dom_merge_spec (ddims (s_dom out)) [d]) as (dd & E & Hd & Hdw & Hdm).
  - constructor; auto.
  - cbn. rewrite app_nil_r. apply Hw.
  - apply Hod.
  - cbn. rewrite app_nil_r. intros q Hq. apply ddims_in in Hq as (b & fe & Hq). apply ddims_in. eauto.
  - assert (Edd : dd = s_dom out).
    { apply dom_eq_list; [auto|rewrite Hd; apply Hod|]. intros q x0 f0 Hin. apply Hdm in Hin as (Hq & d0 & [<-|[]] & Hin).
      apply ddims_in in Hq as (b & fe & Hq). destruct (dom_fun d q b fe x0 f0) as [<- <-]; auto. apply Hw. }
    subst dd. unfold dom_select. rewrite E. cbn [rbind].
    destruct (dom_eq_exact (s_dom out) (s_dom out)) as (rb & Erb & Hrb); auto; [tauto|]. rewrite Erb. cbn [rbind].
    replace rb with true by (symmetry; apply Hrb; tauto). rewrite remove_without by auto. cbn [rbind].
    apply (host_writes out (fun e => reduction r (map (f e) l))); auto.
    intros e m1 He1 He2. rewrite parallel_reduce_exact with (l := l); auto using without_wf. cbn [rbind].
    now apply slice_write.
Qed.
