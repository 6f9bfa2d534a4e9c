From Coq Require Import Ascii String.
From Verif Require Import ListAux Machine MachineProofs TypeSeqModel TaggedModel TaggedSpec TaggedProofs DomainModel DomainSpec DomainProofs DomainProofs2
  SpanModel SpanSpec SpanProofs StorageProofs ParModel ParSpec ParProofs2 ParProofs3 NpyModel NpySpec NpyProofs2 PrintModel PrintSpec.
Open Scope list_scope.
Open Scope Z_scope.

(** * Options *)
Lemma accepted_valid o : is_options o -> accepted o = true -> valid o.
Proof. unfold is_options, accepted, valid. intros. lia. Qed.
Lemma set_returns o cur : snd (set_print_options o cur) = cur.
Proof. reflexivity. Qed.

(** * Arrays *)
Definition strides (md : mdspan) : list Z := map_strides (m_lay md) (m_ext md).
Definition all_pos (l : list Z) : Prop := Forall (fun n => 0 < n) l.
Definition md_ok (md : mdspan) : Prop :=
  length (strides md) = length (m_ext md) /\ Forall (fun x => 0 <= x) (strides md) /\ Forall (fun n => 0 <= n < 2 ^ 64) (m_ext md) /\
  (all_pos (m_ext md) -> max_offset (m_ext md) (strides md) < 2 ^ 64 /\
     forall is, in_rng (m_ext md) is -> map_offset (m_lay md) (m_ext md) is = dot is (strides md)).
Definition val_at {V} (m : memory V) (md : mdspan) (is : list Z) : V := m (m_ptr md + dot is (strides md)).
Lemma span_md_ok s : span_wf s -> md_ok (s_md s).
Proof.
  intros Hs. split; [|split; [|split]].
  - change (strides (s_md s)) with (str s). rewrite str_length by auto. destruct Hs as (_ & -> & _). now rewrite map_length.
  - now apply str_nonneg.
  - destruct Hs as (Hd & -> & _). now apply exts_u64.
  - intros Hp. now apply span_offsets.
Qed.
Lemma dot_zeros n st : dot (repeat 0 n) st = 0.
Proof. revert st. induction n as [|n IH]; intros [|s st]; auto. cbn [repeat dot]. rewrite IH. lia. Qed.
Lemma sub_full_ext ext : sub_ext ext (repeat Full (length ext)) = ext.
Proof. induction ext; cbn; congruence. Qed.
Lemma sub_full_str (st ext : list Z) : length st = length ext -> sub_strides st (repeat Full (length ext)) = st.
Proof. revert ext. induction st as [|s st IH]; intros [|n ext] H; cbn in *; try congruence. f_equal. apply IH. lia. Qed.
Lemma slicers_full ext : slicers_ok ext (repeat Full (length ext)) = true.
Proof. induction ext; auto. Qed.
Lemma sub_md md n ext i : md_ok md -> m_ext md = n :: ext -> 0 <= i < n ->
  exists sub, submdspan md (Fixed i :: repeat Full (length ext)) = Ok sub /\ m_ext sub = ext /\ md_ok sub /\
    (all_pos ext -> forall V (m : memory V) is, val_at m sub is = val_at m md (i :: is)).
Proof.
  intros (H1 & H2 & H3 & H4) He Hi. unfold submdspan. rewrite He. cbn [slicers_ok]. rewrite slicers_full.
  replace (0 <=? i) with true by lia. replace (i <? n) with true by lia. cbn [andb]. rewrite He in *.
  destruct (strides md) as [|s st] eqn:Es; [discriminate|]. cbn [length] in H1.
  assert (Es' : map_strides (m_lay md) (n :: ext) = s :: st) by (rewrite <- Es; unfold strides; now rewrite He).
  rewrite Es'. eexists. split; [reflexivity|]. cbn [m_ext sub_ext sub_strides]. rewrite sub_full_ext, sub_full_str by lia.
  split; [reflexivity|]. inversion H2; inversion H3; subst. split.
  - unfold md_ok, strides. cbn [m_lay m_ext map_strides]. split; [lia|]. split; [auto|]. split; [auto|]. intros Hp.
    destruct H4 as [Hm _]; [constructor; auto; lia|]. cbn [max_offset] in Hm.
    assert (Hm' : max_offset ext st < 2 ^ 64) by nia. split; [exact Hm'|]. intros is His. cbn [map_offset]. apply off_stride_exact; auto.
    + eapply in_rng_nonneg; eauto.
    + assert (K := dot_le_max _ _ st His ltac:(auto)). lia.
  - intros Hp V m is. unfold val_at. destruct H4 as [_ Ho]; [constructor; auto; lia|].
    cbn [m_ptr map]. rewrite Ho.
    + rewrite Es. unfold strides. cbn [m_lay map_strides dot first_of]. replace (map first_of (repeat Full (length ext))) with (repeat 0 (length ext)).
      * rewrite dot_zeros. f_equal. lia.
      * clear. induction ext; cbn; congruence.
    + constructor; [cbn; lia|]. clear -Hp. induction Hp; cbn; constructor; auto; lia.
Qed.
Lemma access_1 md n i : md_ok md -> m_ext md = [n] -> 0 <= i < n ->
  md_access md [i] = Ok (m_ptr md + dot [i] (strides md)).
Proof.
  intros (_ & _ & _ & H4) He Hi. unfold md_access.
  assert (Hr : in_rng (m_ext md) [i]) by (rewrite He; repeat constructor; lia).
  rewrite (proj2 (all_in_range_spec _ _) Hr). destruct H4 as [_ Ho]; [rewrite He; repeat constructor; lia|]. now rewrite Ho.
Qed.

(** * Pictures *)
Lemma picture_ext {V} o ext : forall f g : list Z -> V, (forall is, in_rng ext is -> f is = g is) -> picture o ext f = picture o ext g.
Proof.
  induction ext as [|n ext IH]; intros f g H; cbn [picture]; [do 2 f_equal; apply H; constructor|].
  assert (E : forall p, flat_map (fun i => picture o ext (fun is => f (i :: is))) (filter p (upto n)) =
                        flat_map (fun i => picture o ext (fun is => g (i :: is))) (filter p (upto n))).
  { intros p. rewrite !flat_map_concat_map. f_equal. apply map_ext_in. intros i Hi. apply filter_In in Hi as [Hi _]. apply in_zrange in Hi.
    apply IH. intros is His. apply H. now constructor. }
  f_equal. f_equal. destruct (n <? threshold o); [|now rewrite !E].
  specialize (E (fun _ => true)). assert (F : forall l : list Z, filter (fun _ => true) l = l) by (induction l; cbn; congruence).
  now rewrite F in E.
Qed.
Lemma values_app {V} (a b : list (mark V)) : values_of (a ++ b) = values_of a ++ values_of b.
Proof. apply flat_map_app. Qed.
Lemma values_flat {V A} (f : A -> list (mark V)) l : values_of (flat_map f l) = flat_map (fun x => values_of (f x)) l.
Proof. induction l; cbn [flat_map]; auto. now rewrite values_app, IHl. Qed.
Lemma marks_app {V} (a b : list (piece V)) : marks (a ++ b) = marks a ++ marks b.
Proof. apply flat_map_app. Qed.
Lemma marks_concat {V} (l : list (list (piece V))) : marks (concat l) = flat_map marks l.
Proof. induction l; cbn [concat flat_map]; auto. now rewrite marks_app, IHl. Qed.
Lemma elements_app {V} (a b : list (piece V)) : elements (a ++ b) = elements a ++ elements b.
Proof. apply flat_map_app. Qed.
Lemma elements_concat {V} (l : list (list (piece V))) : elements (concat l) = flat_map elements l.
Proof. induction l; cbn [concat flat_map]; auto. now rewrite elements_app, IHl. Qed.
Lemma see_blanks {V} n : see (V := V) (repeat " "%char n) = [].
Proof. induction n; auto. Qed.
Lemma see_newlines {V} n : see (V := V) (repeat newline n) = [].
Proof. induction n; auto. Qed.

Lemma loop_range b e i : In i (loop b e) <-> b <= i < e.
Proof.
  unfold loop. rewrite in_map_iff. split.
  - intros (k & <- & H). apply in_seq in H. lia.
  - intros H. exists (Z.to_nat (i - b)). split; [lia|]. apply in_seq. lia.
Qed.
Lemma loop_all n : loop 0 n = upto n.
Proof. unfold loop, upto. rewrite Z.sub_0_r. apply map_ext. intros; lia. Qed.
Lemma filter_none {A} (p : A -> bool) l : (forall x, In x l -> p x = false) -> filter p l = [].
Proof. induction l as [|x l IH]; intros H; auto. cbn. rewrite (H x) by now left. apply IH. intros; apply H; now right. Qed.
Lemma filter_all {A} (p : A -> bool) l : (forall x, In x l -> p x = true) -> filter p l = l.
Proof. induction l as [|x l IH]; intros H; auto. cbn. rewrite (H x) by now left. f_equal. apply IH. intros; apply H; now right. Qed.
Lemma upto_split a n : 0 <= a <= n -> upto n = upto a ++ loop a n.
Proof.
  intros H. unfold upto, loop. replace (Z.to_nat n) with (Z.to_nat a + Z.to_nat (n - a))%nat by lia. rewrite seq_app, map_app. f_equal.
  cbn [Nat.add]. rewrite <- (Nat.add_0_r (Z.to_nat a)) at 1. generalize O. induction (Z.to_nat (n - a)) as [|k IH]; intros s; cbn; auto. f_equal; [lia|].
  rewrite <- IH. f_equal. f_equal. lia.
Qed.
Lemma in_upto n i : In i (upto n) <-> 0 <= i < n.
Proof. apply in_zrange. Qed.
Lemma head_loop e n : 0 <= e <= n -> loop 0 e = filter (fun i => i <? e) (upto n).
Proof.
  intros H. rewrite (upto_split e n H), filter_app, filter_all, filter_none, app_nil_r, loop_all; auto.
  - intros x Hx. apply loop_range in Hx. lia.
  - intros x Hx. apply in_upto in Hx. lia.
Qed.
Lemma tail_loop e n : 0 <= e <= n -> loop (n - e) n = filter (fun i => n - e <=? i) (upto n).
Proof.
  intros H. rewrite (upto_split (n - e) n) by lia. rewrite filter_app, filter_none, filter_all; auto.
  - intros x Hx. apply loop_range in Hx. lia.
  - intros x Hx. apply in_upto in Hx. lia.
Qed.

Lemma concat_res_ok {A B} (f : A -> res (list B)) (P : A -> list B -> Prop) l :
  (forall x, In x l -> exists y, f x = Ok y /\ P x y) -> exists ys, concat_res f l = Ok (concat ys) /\ Forall2 P l ys.
Proof.
  intros H. unfold concat_res. assert (G : exists ys, map_res f l = Ok ys /\ Forall2 P l ys).
  { induction l as [|x l IH]; [exists []; split; constructor|]. destruct (H x) as (y & E & Hy); [now left|].
    destruct IH as (ys & E' & Hys); [intros; apply H; now right|]. exists (y :: ys). cbn [map_res]. rewrite E. cbn [rbind]. rewrite E'. cbn [rbind].
    split; auto. }
  destruct G as (ys & E & Hys). exists ys. rewrite E. auto.
Qed.
Lemma forall2_flat {A B C} (g : A -> list C) (h : B -> list C) l ys : Forall2 (fun x y => h y = g x) l ys -> flat_map h ys = flat_map g l.
Proof. induction 1; cbn; congruence. Qed.

(** * The traversal *)
Section T.
Context {V : Type} (show : V -> bytes) (o : options) (m : memory V).
Hypothesis Hval : valid o.
Definition width (v : V) : Z := get_element_width show v.
Definition padded (largest : Z) (v : V) : Z * V := (u64_sub largest (width v), v).
(** Every element is followed by some text. *)
Fixpoint sealed (l : list (piece V)) : Prop :=
  match l with
  | [] => True
  | Txt _ :: r => sealed r
  | Elt _ _ :: r => (exists s q, r = Txt s :: q /\ s <> []) /\ sealed r
  end.
Lemma sealed_app a b : sealed a -> sealed b -> sealed (a ++ b).
Proof.
  intros Ha Hb. induction a as [|[t|pad v] a IH]; cbn [app sealed] in *; auto.
  destruct Ha as [(s & q & -> & Hs) Ha]. split; [exists s, (q ++ b); auto|]. auto.
Qed.
Lemma sealed_concat l : Forall sealed l -> sealed (concat l).
Proof. induction 1; cbn [concat]; [exact I|]. now apply sealed_app. Qed.
Lemma sealed_separated l : sealed l -> separated l.
Proof.
  induction l as [|[t|pad v] l IH]; cbn [sealed]; auto. intros [(s & q & -> & Hs) H]. split; [exact Hs|]. exact (IH H).
Qed.
(** Sealed once some text comes after it. *)
Definition almost (l : list (piece V)) : Prop := forall s r, s <> [] -> sealed r -> sealed (l ++ Txt s :: r).
Lemma almost_of_sealed l : sealed l -> almost l.
Proof. intros H s r Hs Hr. now apply sealed_app. Qed.
Lemma almost_app a b : sealed a -> almost b -> almost (a ++ b).
Proof. intros Ha Hb s r Hs Hr. rewrite <- app_assoc. apply sealed_app; auto. Qed.
Lemma u64_edge n : n < 2 ^ 64 -> threshold o <= n -> u64_sub n (edgeitems o) = n - edgeitems o.
Proof. intros. unfold u64_sub, u64. change two64 with (2 ^ 64). destruct Hval. apply Z.mod_small. lia. Qed.
Lemma u64_pred n : 0 < n < 2 ^ 64 -> u64_sub n 1 = n - 1.
Proof. intros. unfold u64_sub, u64. change two64 with (2 ^ 64). apply Z.mod_small. lia. Qed.
Lemma loop_snoc b e : b < e -> loop b e = loop b (e - 1) ++ [e - 1].
Proof.
  intros H. unfold loop. replace (Z.to_nat (e - b)) with (Z.to_nat (e - 1 - b) + 1)%nat by lia. rewrite seq_app, map_app. cbn [seq map].
  f_equal. f_equal. lia.
Qed.
Lemma loop_empty b e : e <= b -> loop b e = [].
Proof. intros H. unfold loop. now replace (Z.to_nat (e - b)) with O by lia. Qed.

(** A block: loop values, the marks and elements it produces. *)
Lemma base_block md n largest b e : md_ok md -> m_ext md = [n] -> 0 <= b -> e <= n ->
  exists out, base_case_display show m md largest b e n = Ok out /\
    marks out = flat_map (fun i => [Val (val_at m md [i])]) (loop b e) /\
    elements out = map (padded largest) (values_of (marks out)) /\ almost out /\ (e < n -> sealed out).
Proof.
  intros Hok He Hb Hen. assert (Hn : forall i, b <= i < e -> 0 < n < 2 ^ 64).
  { intros i Hi. destruct Hok as (_ & _ & H3 & _). rewrite He in H3. inversion H3; subst. lia. }
  assert (U : forall i, In i (loop b e) -> exists y, (rbind (md_access md [i]) (fun a =>
      Ok (display_aligned_element show (m a) largest ++ (if i <? u64_sub n 1 then [Txt (text " ")] else [])))) = Ok y /\
      y = Elt (u64_sub largest (width (val_at m md [i]))) (val_at m md [i]) :: (if i <? n - 1 then [Txt (text " ")] else [])).
  { intros i Hi. apply loop_range in Hi. rewrite (access_1 md n i) by (auto; lia). cbn [rbind]. rewrite (u64_pred n) by eauto.
    eexists. split; reflexivity. }
  destruct (concat_res_ok _ _ _ U) as (ys & E & Hys). exists (concat ys). split; [exact E|].
  assert (Hm : marks (concat ys) = flat_map (fun i => [Val (val_at m md [i])]) (loop b e)).
  { rewrite marks_concat. apply forall2_flat. clear -Hys. induction Hys as [|i y l ys -> _ IH]; constructor; auto.
    destruct (i <? n - 1); reflexivity. }
  split; [exact Hm|]. split; [|split].
  - rewrite Hm, elements_concat, values_flat. clear -Hys. induction Hys as [|i y l ys -> _ IH]; [reflexivity|]. cbn [flat_map map].
    rewrite map_app, <- IH. f_equal. destruct (i <? n - 1); reflexivity.
  - destruct (Z_lt_le_dec b e) as [Hbe|Hbe].
    + rewrite loop_snoc in Hys by lia. apply Forall2_app_inv_l in Hys as (y1 & y2 & H1 & H2 & ->). rewrite concat_app. apply almost_app.
      * apply sealed_concat. assert (G : forall i, In i (loop b (e - 1)) -> i < n - 1) by (intros i Hi; apply loop_range in Hi; lia). clear -H1 G.
        induction H1 as [|i y l ys -> _ IH]; constructor; [|apply IH; intros; apply G; now right].
        specialize (G i (or_introl eq_refl)). replace (i <? n - 1) with true by lia. repeat split. exists (text " "), []. split; [reflexivity|discriminate].
      * inversion H2 as [|? ? ? ? -> H2']; subst. inversion H2'; subst. cbn [concat]. rewrite app_nil_r. intros s r Hs Hr.
        destruct (_ <? n - 1); cbn [app sealed]; repeat split; auto; eauto.
        exists (text " "), (Txt s :: r). split; [reflexivity|discriminate].
    + rewrite loop_empty in Hys by lia. inversion Hys; subst. apply almost_of_sealed. exact I.
  - intros Hlt. apply sealed_concat. assert (G : forall i, In i (loop b e) -> i < n - 1) by (intros i Hi; apply loop_range in Hi; lia). clear -Hys G.
    induction Hys as [|i y l ys -> _ IH]; constructor; [|apply IH; intros; apply G; now right].
    specialize (G i (or_introl eq_refl)). replace (i <? n - 1) with true by lia. repeat split. exists (text " "), []. split; [reflexivity|discriminate].
Qed.
Definition good_sub (print_sub : mdspan -> nat -> res (list (piece V))) largest (ext : list Z) : Prop :=
  forall md level, md_ok md -> m_ext md = ext -> exists out, print_sub md level = Ok out /\
    marks out = picture o ext (val_at m md) /\ elements out = map (padded largest) (values_of (marks out)) /\ sealed out.
Lemma picture_empty (f g : list Z -> V) ext : ~ all_pos ext -> picture o ext f = picture o ext g.
Proof. intros H. apply picture_ext. intros is His. exfalso. apply H. exact (in_rng_pos _ _ His). Qed.
Lemma rec_block print_sub largest md n ext level b e : good_sub print_sub largest ext -> md_ok md -> m_ext md = n :: ext -> 0 <= b -> e <= n ->
  exists out, recursive_display print_sub md (length ext) level b e = Ok out /\
    marks out = flat_map (fun i => picture o ext (fun is => val_at m md (i :: is))) (loop b e) /\
    elements out = map (padded largest) (values_of (marks out)) /\ sealed out.
Proof.
  intros Hsub Hok He Hb Hen.
  assert (U : forall i, In i (loop b e) -> exists y,
    (rbind (submdspan md (Fixed i :: repeat Full (length ext))) (fun sub => rbind (print_sub sub (S level)) (fun out =>
      Ok (out ++ if i <? u64_sub e 1 then [newlines (length ext); align level] else [])))) = Ok y /\
    (marks y = picture o ext (fun is => val_at m md (i :: is)) /\ elements y = map (padded largest) (values_of (marks y)) /\ sealed y)).
  { intros i Hi. apply loop_range in Hi. destruct (sub_md md n ext i Hok He ltac:(lia)) as (sub & E & Ee & Hs & Hv). rewrite E. cbn [rbind].
    destruct (Hsub sub (S level) Hs Ee) as (out & E2 & M & X & S1). rewrite E2. cbn [rbind]. eexists. split; [reflexivity|].
    assert (M' : picture o ext (val_at m sub) = picture o ext (fun is => val_at m md (i :: is))).
    { apply picture_ext. intros is His. apply Hv. exact (in_rng_pos _ _ His). }
    assert (Hz : forall z : list (piece V), marks (if i <? u64_sub e 1 then [newlines (length ext); align level] else z) = if i <? u64_sub e 1 then [] else marks z).
    { intros z. destruct (_ <? _); [|reflexivity]. cbn [marks flat_map newlines align]. now rewrite see_newlines, see_blanks. }
    rewrite marks_app, Hz, elements_app.
    replace (if i <? u64_sub e 1 then [] else marks []) with (@nil (mark V)) by (destruct (_ <? _); reflexivity). rewrite app_nil_r.
    replace (elements (if i <? u64_sub e 1 then [newlines (length ext); align level] else [])) with (@nil (Z * V)) by (destruct (_ <? _); reflexivity).
    rewrite app_nil_r. split; [congruence|]. split; [exact X|]. apply sealed_app; [exact S1|]. destruct (_ <? _); exact I. }
  destruct (concat_res_ok _ _ _ U) as (ys & E & Hys). exists (concat ys). split; [exact E|].
  assert (Hm : marks (concat ys) = flat_map (fun i => picture o ext (fun is => val_at m md (i :: is))) (loop b e)).
  { rewrite marks_concat. apply forall2_flat. clear -Hys. induction Hys as [|i y l ys H _ IH]; constructor; auto. apply H. }
  split; [exact Hm|]. split.
  - rewrite elements_concat. replace (marks (concat ys)) with (flat_map marks ys) by (symmetry; apply marks_concat). clear -Hys.
    induction Hys as [|i y l ys H _ IH]; [reflexivity|]. cbn [flat_map]. rewrite values_app, map_app, <- IH. f_equal. apply H.
  - apply sealed_concat. clear -Hys. induction Hys as [|i y l ys H _ IH]; constructor; auto. apply H.
Qed.
Lemma print_impl_ok ext : ext <> [] -> forall largest, good_sub (fun md level => print_impl show o m (length ext) md level largest) largest ext.
Proof.
  induction ext as [|n ext IH]; [congruence|]. intros _ largest md level Hok He.
  assert (Hn : 0 <= n < 2 ^ 64) by (destruct Hok as (_ & _ & H3 & _); rewrite He in H3; now inversion H3).
  destruct Hval as [Hv1 Hv2].
  assert (Q : forall l : list (piece V), sealed l -> sealed ([Txt (text "[")] ++ l ++ [Txt (text "]")])) by (intros l Hl; apply (sealed_app [_]); [exact I | apply sealed_app; [exact Hl | exact I]]).
  assert (A : forall l : list (piece V), almost l -> sealed ([Txt (text "[")] ++ l ++ [Txt (text "]")])) by (intros l Hl; apply (sealed_app [_]); [exact I | apply Hl; [discriminate | exact I]]).
  cbn [length print_impl picture]. rewrite He. cbn [nth]. destruct ext as [|n2 ext].
  - cbn [length]. destruct (Z.ltb_spec n (threshold o)) as [Ht|Ht].
    + destruct (base_block md n largest 0 n Hok He ltac:(lia) ltac:(lia)) as (out & E & M & X & S1 & _). rewrite E. cbn [rbind]. eexists. split; [reflexivity|].
      rewrite !marks_app, !elements_app, !values_app, X, M, loop_all. split; [reflexivity|]. split; [cbn; now rewrite !app_nil_r|]. now apply A.
    + destruct (base_block md n largest 0 (edgeitems o) Hok He ltac:(lia) ltac:(lia)) as (out & E & M & X & _ & S1). rewrite E. cbn [rbind].
      rewrite u64_edge by lia.
      destruct (base_block md n largest (n - edgeitems o) n Hok He ltac:(lia) ltac:(lia)) as (out2 & E2 & M2 & X2 & S2 & _). rewrite E2. cbn [rbind].
      eexists. split; [reflexivity|]. rewrite !marks_app, !elements_app, !values_app, X, X2, M, M2, <- head_loop, <- tail_loop by lia.
      split; [now rewrite <- !app_assoc|]. split; [cbn; rewrite !map_app; now rewrite !app_nil_r|].
      apply (sealed_app [_]); [exact I|]. apply sealed_app; [apply S1; lia|]. apply (sealed_app [_]); [exact I|]. apply S2; [discriminate|exact I].
  - change (length (n2 :: ext)) with (S (length ext)) at 1. cbn iota. specialize (IH ltac:(discriminate) largest).
    destruct (Z.ltb_spec n (threshold o)) as [Ht|Ht].
    + destruct (rec_block _ largest md n (n2 :: ext) level 0 n IH Hok He ltac:(lia) ltac:(lia)) as (out & E & M & X & S1).
      cbn [length] in E |- *. rewrite E. cbn [rbind]. eexists. split; [reflexivity|].
      rewrite !marks_app, !elements_app, !values_app, X, M, loop_all. split; [reflexivity|]. split; [cbn; now rewrite !app_nil_r|]. now apply Q.
    + destruct (rec_block _ largest md n (n2 :: ext) level 0 (edgeitems o) IH Hok He ltac:(lia) ltac:(lia)) as (out & E & M & X & S1).
      rewrite u64_edge by lia.
      destruct (rec_block _ largest md n (n2 :: ext) level (n - edgeitems o) n IH Hok He ltac:(lia) ltac:(lia)) as (out2 & E2 & M2 & X2 & S2).
      cbn [length] in E, E2 |- *. rewrite E. cbn [rbind]. rewrite E2. cbn [rbind]. eexists. split; [reflexivity|].
      rewrite !marks_app, !elements_app, !values_app, X, X2, M, M2, <- head_loop, <- tail_loop by lia.
      split; [unfold marks at 2; cbn [flat_map newlines align]; rewrite see_newlines, see_blanks; now rewrite <- !app_assoc|].
      split; [unfold marks at 2; cbn [flat_map newlines align]; rewrite see_newlines, see_blanks; cbn; rewrite !map_app; now rewrite !app_nil_r|].
      apply (sealed_app [_]); [exact I|]. apply sealed_app; [exact S1|]. apply sealed_app; [exact I|]. now apply sealed_app.
Qed.

(** * The width of columns *)
Definition maxw (l : list V) : Z := fold_right Z.max 0 (map width l).
Lemma maxw_app a b : maxw (a ++ b) = Z.max (maxw a) (maxw b).
Proof. unfold maxw. induction a as [|x a IH]; cbn [app map fold_right]; [|rewrite IH; lia]. assert (0 <= fold_right Z.max 0 (map width b)); [|lia]. induction (map width b); cbn; lia. Qed.
Lemma maxw_nonneg l : 0 <= maxw l.
Proof. unfold maxw. induction (map width l); cbn; lia. Qed.
Lemma maxw_ge l v : In v l -> width v <= maxw l.
Proof. unfold maxw. induction l as [|x l IH]; cbn; intros []; [subst; lia|]. specialize (IH H). lia. Qed.
Lemma maxw_attained l : l <> [] -> exists v, In v l /\ width v = maxw l.
Proof.
  unfold maxw. induction l as [|x l IH]; [congruence|]. intros _. cbn [map fold_right].
  destruct l as [|y l]; [exists x; cbn; split; auto; assert (0 <= width x) by (unfold width, get_element_width; lia); lia|].
  destruct IH as (v & Hv & E); [discriminate|]. destruct (Z_le_gt_dec (width x) (fold_right Z.max 0 (map width (y :: l)))).
  - exists v. split; [now right|]. lia.
  - exists x. split; [now left|]. lia.
Qed.
Lemma max_list_cons a l : 0 <= a -> fold_left Z.max l a = Z.max a (fold_right Z.max 0 l).
Proof. revert a. induction l as [|x l IH]; intros a Ha; cbn; [lia|]. rewrite IH by lia. lia. Qed.
Lemma max_list_fold l : max_list l = fold_right Z.max 0 l.
Proof. unfold max_list. rewrite max_list_cons by lia. assert (0 <= fold_right Z.max 0 l) by (induction l; cbn; lia). lia. Qed.
Lemma max_app (a b : list Z) : fold_right Z.max 0 (a ++ b) = Z.max (fold_right Z.max 0 a) (fold_right Z.max 0 b).
Proof. induction a; cbn; [assert (0 <= fold_right Z.max 0 b) by (induction b; cbn; lia); lia|]. lia. Qed.
Lemma max_flat (f : Z -> list V) l : fold_right Z.max 0 (map (fun i => maxw (f i)) l) = maxw (flat_map f l).
Proof. induction l; cbn [map fold_right flat_map]; [reflexivity|]. now rewrite maxw_app, IHl. Qed.
Lemma find_largest_ok ext : ext <> [] -> forall md, md_ok md -> m_ext md = ext ->
  find_largest show o m (length ext) md = Ok (maxw (values_of (picture o ext (val_at m md)))).
Proof.
  induction ext as [|n ext IH]; [congruence|]. intros _ md Hok He.
  assert (Hn : 0 <= n < 2 ^ 64) by (destruct Hok as (_ & _ & H3 & _); rewrite He in H3; now inversion H3).
  destruct Hval as [Hv1 Hv2].
  cbn [length find_largest picture]. rewrite He. cbn [nth]. destruct ext as [|n2 ext].
  - assert (U : forall b e, 0 <= b -> e <= n -> map_res (fun i0 => rbind (md_access md [i0]) (fun a => Ok (get_element_width show (m a)))) (loop b e) =
      Ok (map (fun i => maxw (values_of (picture o [] (fun is => val_at m md (i :: is))))) (loop b e))).
    { intros b e Hb Hen. apply map_res_in. intros i Hi. apply loop_range in Hi. rewrite (access_1 md n i) by (auto; lia). cbn [rbind]. f_equal.
      cbn [picture values_of flat_map app]. unfold maxw. cbn [map fold_right]. unfold width, get_element_width, val_at. lia. }
    cbn [length]. destruct (Z.ltb_spec n (threshold o)) as [Ht|Ht].
    + rewrite U by lia. cbn [rbind]. f_equal. rewrite max_list_fold, max_flat, loop_all, <- values_flat. rewrite !values_app. cbn [values_of flat_map app].
      now rewrite app_nil_r.
    + rewrite u64_edge by lia. rewrite !U by lia. cbn [rbind]. f_equal. rewrite max_list_fold, max_app, !max_flat, <- maxw_app, <- !values_flat, head_loop with (n := n), tail_loop by lia.
      rewrite !values_app. cbn [values_of flat_map app]. now rewrite app_nil_r.
  - change (length (n2 :: ext)) with (S (length ext)) at 1. cbn iota. specialize (IH ltac:(discriminate)).
    assert (U : forall b e, 0 <= b -> e <= n -> map_res (fun i0 => rbind (submdspan md (Fixed i0 :: repeat Full (length (n2 :: ext)))) (find_largest show o m (length (n2 :: ext)))) (loop b e) =
      Ok (map (fun i => maxw (values_of (picture o (n2 :: ext) (fun is => val_at m md (i :: is))))) (loop b e))).
    { intros b e Hb Hen. apply map_res_in. intros i Hi. apply loop_range in Hi. destruct (sub_md md n (n2 :: ext) i Hok He ltac:(lia)) as (sub & E & Ee & Hs & Hv2').
      rewrite E. cbn [rbind]. rewrite IH by auto. do 3 f_equal. apply picture_ext. intros is His. apply Hv2'. exact (in_rng_pos _ _ His). }
    cbn [length] in U |- *. destruct (Z.ltb_spec n (threshold o)) as [Ht|Ht].
    + rewrite U by lia. cbn [rbind]. f_equal. rewrite max_list_fold, max_flat, loop_all, <- values_flat. rewrite !values_app. cbn [values_of app].
      change (values_of [Open]) with (@nil V). change (values_of [Close]) with (@nil V). now rewrite app_nil_r.
    + rewrite u64_edge by lia. rewrite !U by lia. cbn [rbind]. f_equal. rewrite max_list_fold, max_app, !max_flat, <- maxw_app, <- !values_flat, head_loop with (n := n), tail_loop by lia.
      rewrite !values_app. change (values_of [Open]) with (@nil V). change (values_of [Close]) with (@nil V). change (values_of [Dots]) with (@nil V).
      cbn [app]. now rewrite app_nil_r.
Qed.

Lemma print_array_ok md : (forall v, Z.of_nat (length (show v)) < 2 ^ 64) -> md_ok md ->
  exists out, print_array show o m md = Ok out /\ marks out = picture o (m_ext md) (val_at m md) /\
    map snd (elements out) = values_of (marks out) /\ same_width show (elements out) /\ separated out.
Proof.
  intros Hsh Hok. unfold print_array. destruct (m_ext md) as [|n ext] eqn:He.
  - cbn [length find_largest print_impl rbind]. eexists. split; [reflexivity|]. cbn [marks flat_map app picture].
    split; [unfold val_at; cbn [dot]; now rewrite Z.add_0_r|].
    split; [reflexivity|]. split; [|exact I].
    exists (Z.of_nat (length (show (m (m_ptr md))))). split; [repeat constructor; cbn; lia|]. right. exists (m (m_ptr md)). now left.
  - rewrite find_largest_ok by (auto; discriminate). cbn [rbind]. set (L := maxw _).
    destruct (print_impl_ok (n :: ext) ltac:(discriminate) L md 0%nat Hok He) as (out & E & M & X & S1). exists out. split; [exact E|]. split; [exact M|].
    rewrite X, map_map. split; [cbn [padded snd]; apply map_id|]. split; [|now apply sealed_separated].
    exists L. rewrite M. split.
    + apply Forall_map, Forall_forall. intros v Hv. cbn [padded fst snd]. assert (K := maxw_ge _ _ Hv). fold L in K.
      assert (K2 : L < 2 ^ 64). { destruct (maxw_attained (values_of (picture o (n :: ext) (val_at m md)))) as (w & _ & Ew); [intros Z; rewrite Z in Hv; destruct Hv|].
        unfold L. rewrite <- Ew. apply Hsh. }
      unfold u64_sub, u64. change two64 with (2 ^ 64). unfold width, get_element_width in *. rewrite Z.mod_small; lia.
    + assert (D : values_of (picture o (n :: ext) (val_at m md)) = [] \/ values_of (picture o (n :: ext) (val_at m md)) <> []) by (destruct (values_of _); [now left | now right]).
      destruct D as [D|D]; [left; now rewrite D|]. right. destruct (maxw_attained _ D) as (w & Hw & Ew). exists w. apply in_map_iff. exists w. split; [|exact Hw].
      unfold padded. rewrite Ew. fold L. unfold u64_sub, u64. now rewrite Z.sub_diag.
Qed.
End T.
