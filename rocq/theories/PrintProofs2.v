From Coq Require Import Ascii String.
From Verif Require Import ListAux Machine MachineProofs TypeSeqModel TaggedModel TaggedSpec TaggedProofs DomainModel DomainSpec DomainProofs DomainProofs2
  SpanModel SpanSpec SpanProofs StorageProofs ParModel ParSpec ParProofs2 ParProofs3 NpyModel NpySpec NpyProofs2 PrintModel PrintSpec PrintProofs.
Open Scope list_scope.
Open Scope Z_scope.

(** * The values in a picture *)
Lemma flat_map_ext_in {A B} (f g : A -> list B) l : (forall x, In x l -> f x = g x) -> flat_map f l = flat_map g l.
Proof. intros H. rewrite !flat_map_concat_map. f_equal. now apply map_ext_in. Qed.
Lemma filter_flat {A B} (p : B -> bool) (f : A -> list B) l : filter p (flat_map f l) = flat_map (fun x => filter p (f x)) l.
Proof. induction l; cbn; auto. now rewrite filter_app, IHl. Qed.
Lemma filter_map {A B} (p : B -> bool) (f : A -> B) l : filter p (map f l) = map f (filter (fun x => p (f x)) l).
Proof. induction l; cbn; auto. destruct (p (f a)); cbn; congruence. Qed.
Lemma map_flat {A B C} (g : B -> C) (f : A -> list B) l : map g (flat_map f l) = flat_map (fun x => map g (f x)) l.
Proof. induction l; cbn; auto. now rewrite map_app, IHl. Qed.
Lemma flat_map_filter {A B} (p : A -> bool) (f : A -> list B) l : flat_map f (filter p l) = flat_map (fun x => if p x then f x else []) l.
Proof. induction l; cbn; auto. destruct (p a); cbn; congruence. Qed.
Lemma filter_disjoint n e : 2 * e < n -> 0 <= e -> filter (fun i => i <? e) (upto n) ++ filter (fun i => n - e <=? i) (upto n) =
  filter (fun i => (i <? e) || (n - e <=? i)) (upto n).
Proof.
  intros H He. rewrite (upto_split e n) by lia. rewrite !filter_app.
  rewrite (filter_all (fun i => i <? e) (upto e)), (filter_none (fun i => i <? e) (loop e n)), (filter_none (fun i => n - e <=? i) (upto e)),
    (filter_all _ (upto e)), app_nil_r.
  - f_equal. cbn [app]. apply filter_ext_in. intros i Hi. apply loop_range in Hi. lia.
  - intros i Hi. apply in_upto in Hi. lia.
  - intros i Hi. apply in_upto in Hi. lia.
  - intros i Hi. apply loop_range in Hi. lia.
  - intros i Hi. apply in_upto in Hi. lia.
Qed.
Lemma picture_values {V} o ext : valid o -> forall f : list Z -> V, values_of (picture o ext f) = map f (filter (visible o ext) (all_indices ext)).
Proof.
  intros [Hv _]. induction ext as [|n ext IH]; intros f; [reflexivity|].
  cbn [picture all_indices]. rewrite filter_flat, map_flat.
  assert (R : flat_map (fun i => map f (filter (visible o (n :: ext)) (map (cons i) (all_indices ext)))) (upto n) =
    flat_map (fun i => values_of (picture o ext (fun is => f (i :: is)))) (filter (visible1 o n) (upto n))).
  { rewrite flat_map_filter. apply flat_map_ext_in. intros i _. rewrite filter_map, map_map. cbn [visible]. destruct (visible1 o n i); cbn [andb].
    - rewrite IH. reflexivity.
    - now rewrite filter_none. }
  rewrite R, !values_app. change (values_of [Open]) with (@nil V). change (values_of [Close]) with (@nil V). rewrite app_nil_r. cbn [app].
  unfold visible1. destruct (Z.ltb_spec n (threshold o)).
  - cbn [orb]. rewrite filter_all by auto. apply values_flat.
  - cbn [orb]. rewrite values_app. change (values_of (Dots :: ?l)) with (values_of l). rewrite !values_flat. rewrite <- flat_map_app. f_equal.
    apply filter_disjoint; lia.
Qed.
Lemma picture_no_dots {V} o ext : Forall (fun n => n < threshold o) ext -> forall f : list Z -> V, ~ In Dots (picture o ext f).
Proof.
  induction 1 as [|n ext Hn _ IH]; intros f; cbn [picture].
  - intros [H|[]]. discriminate.
  - replace (n <? threshold o) with true by lia. cbn [app In]. intros [H|H]; [discriminate|]. apply in_app_or in H as [H|[H|[]]]; [|discriminate].
    apply in_flat_map in H as (i & _ & H). now apply IH in H.
Qed.

(** * Copies *)
Lemma host_right_copy {V} host src fresh1 fresh2 g1 g2 g3 g4 (m : memory V) : span_wf src -> box_count (s_dom src) < 2 ^ 64 ->
  fresh_for src fresh1 -> fresh_for src fresh2 -> (fresh1 + box_count (s_dom src) <= fresh2 \/ fresh2 + box_count (s_dom src) <= fresh1) ->
  room src g1 -> room src g2 -> room src g3 -> room src g4 ->
  (exists s1 s2 r1 r2, create_layout_right_view_and_copy src fresh1 g1 g2 s1 m = Ok r1 /\
     create_mirror_view_and_copy host (fst r1) fresh2 g3 g4 s2 (snd r1) = Ok r2) /\
  forall s1 s2 r1 r2, create_layout_right_view_and_copy src fresh1 g1 g2 s1 m = Ok r1 ->
     create_mirror_view_and_copy host (fst r1) fresh2 g3 g4 s2 (snd r1) = Ok r2 ->
     span_wf (fst r2) /\ s_dom (fst r2) = s_dom src /\ forall e, in_box (s_dom src) e -> span_read (snd r2) (fst r2) [e] = span_read m src [e].
Proof.
  intros Hw Hbox Hf1 Hf2 Hf12 Hg1 Hg2 Hg3 Hg4.
  destruct (layout_right_ok src fresh1 g1 g2 m Hw Hbox Hf1 Hg1 Hg2) as [(s1 & c & m1 & E1) H1].
  assert (H2 : forall s1 c m1, create_layout_right_view_and_copy src fresh1 g1 g2 s1 m = Ok (c, m1) ->
    (exists s2 r, create_mirror_view_and_copy host c fresh2 g3 g4 s2 m1 = Ok r) /\
    forall s2 r, create_mirror_view_and_copy host c fresh2 g3 g4 s2 m1 = Ok r ->
     span_wf (fst r) /\ s_dom (fst r) = s_dom src /\ forall e, in_box (s_dom src) e -> span_read (snd r) (fst r) [e] = span_read m src [e]).
  { intros t1 c1 n1 E. destruct (H1 t1 c1 n1 E) as (Ed & El & Wc & Esame & Edis & Er).
    assert (Hfr : fresh_for c1 fresh2).
    { intros a Ha. rewrite Ed. destruct (m_lay (s_md src)) eqn:Els.
      - rewrite (Esame eq_refl) in Ha. now apply Hf2.
      - destruct (Edis ltac:(discriminate)) as [_ K]. specialize (K a Ha). lia.
      - destruct (Edis ltac:(discriminate)) as [_ K]. specialize (K a Ha). lia. }
    assert (R3 : room c1 g3) by (destruct Hg3; split; rewrite Ed; auto). assert (R4 : room c1 g4) by (destruct Hg4; split; rewrite Ed; auto).
    destruct (mirror_ok c1 fresh2 g3 g4 n1 Wc El ltac:(now rewrite Ed) Hfr R3 R4) as (c2 & _ & _ & _ & D2 & L2 & W2 & _ & _ & (s2 & m2 & X) & T & F & Hc2).
    destruct host.
    - split; [exists [], (c1, n1); apply T|]. intros u r K. rewrite T in K. injection K as <-. cbn [fst snd]. split; [exact Wc|]. split; [exact Ed|].
      intros e He. apply Er, He.
    - split; [exists s2, (c2, m2); rewrite F; exact X|].
      intros u [c' m'] K. rewrite F in K. destruct (Hc2 u c' m' K) as (-> & K2 & _). cbn [fst snd]. split; [exact W2|]. split; [congruence|].
      intros e He. rewrite K2 by (now rewrite Ed). apply Er, He. }
  split.
  - destruct (H2 s1 c m1 E1) as [(s2 & r & E2) _]. exists s1, s2, (c, m1), r. auto.
  - intros t1 t2 [c1 n1] r2 A B. cbn [fst snd] in B. now apply (proj2 (H2 t1 c1 n1 A) t2).
Qed.
Lemma read_val {V} (m : memory V) s e idx : span_wf s -> in_box (s_dom s) e -> index_of (s_dom s) e idx ->
  span_read m s [e] = Ok (val_at m (s_md s) idx).
Proof.
  intros Hw Hb Hi. assert (Hb' : in_box (s_dom s) (concat [e])) by (cbn [concat]; now rewrite app_nil_r).
  assert (A := access_loc s [e] Hw Hb'). unfold span_read. etransitivity; [apply (f_equal (fun z => rbind z _)); exact A|]. cbn [rbind].
  f_equal. unfold val_at. f_equal. unfold loc. f_equal. f_equal. cbn [concat]. rewrite app_nil_r. assert (Hn : NoDup (dims e)) by apply Hb.
  clear -Hi Hn. unfold index_of in Hi. induction Hi as [|p i d idx Hp _ IH]; cbn [map]; auto. rewrite IH, (vf_val e _ _ Hn Hp). f_equal. lia.
Qed.

Definition sizes (d : domain) : list Z := map (fun p => snd (snd p) - fst (snd p)) d.
Lemma print_content_ok {V} (show : V -> bytes) o host src fresh1 fresh2 g1 g2 g3 g4 (m : memory V) : valid o -> (forall v, Z.of_nat (length (show v)) < 2 ^ 64) ->
  span_wf src -> box_count (s_dom src) < 2 ^ 64 ->
  fresh_for src fresh1 -> fresh_for src fresh2 -> (fresh1 + box_count (s_dom src) <= fresh2 \/ fresh2 + box_count (s_dom src) <= fresh1) ->
  room src g1 -> room src g2 -> room src g3 -> room src g4 ->
  (exists s1 s2 out, print_content show o host src fresh1 fresh2 g1 g2 g3 g4 s1 s2 m = Ok out) /\
  forall s1 s2 out, print_content show o host src fresh1 fresh2 g1 g2 g3 g4 s1 s2 m = Ok out ->
  exists f, (forall e idx, in_box (s_dom src) e -> index_of (s_dom src) e idx -> span_read m src [e] = Ok (f idx)) /\
    marks out = picture o (map (fun p => snd (snd p) - fst (snd p)) (s_dom src)) f /\
    map snd (elements out) = map f (filter (visible o (map (fun p => snd (snd p) - fst (snd p)) (s_dom src)))
                                           (all_indices (map (fun p => snd (snd p) - fst (snd p)) (s_dom src)))) /\
    same_width show (elements out) /\ separated out.
Proof.
  intros Hv Hsh Hw Hbox Hf1 Hf2 Hf12 Hg1 Hg2 Hg3 Hg4.
  destruct (host_right_copy host src fresh1 fresh2 g1 g2 g3 g4 m Hw Hbox Hf1 Hf2 Hf12 Hg1 Hg2 Hg3 Hg4) as [(s1 & s2 & r1 & r2 & E1 & E2) H].
  split.
  - destruct (H s1 s2 r1 r2 E1 E2) as (W2 & _). destruct (print_array_ok show o (snd r2) Hv (s_md (fst r2)) Hsh (span_md_ok _ W2)) as (out & E & _).
    exists s1, s2, out. unfold print_content. rewrite E1. cbn [rbind]. rewrite E2. exact E.
  - intros t1 t2 out Ho. unfold print_content in Ho. destruct (create_layout_right_view_and_copy src fresh1 g1 g2 t1 m) as [q1| |] eqn:F1; try discriminate.
    cbn [rbind] in Ho. destruct (create_mirror_view_and_copy host (fst q1) fresh2 g3 g4 t2 (snd q1)) as [q2| |] eqn:F2; try discriminate. cbn [rbind] in Ho.
    destruct (H t1 t2 q1 q2 F1 F2) as (W2 & D2 & Hr). destruct (print_array_ok show o (snd q2) Hv (s_md (fst q2)) Hsh (span_md_ok _ W2)) as (out' & E & M & X & S1 & S2).
    assert (Eo : Ok out' = Ok out) by (rewrite <- E; exact Ho). assert (out' = out) by (now injection Eo). subst out'.
    assert (Ex : m_ext (s_md (fst q2)) = map (fun p => snd (snd p) - fst (snd p)) (s_dom src)) by (rewrite <- D2; apply W2).
    exists (val_at (snd q2) (s_md (fst q2))). split; [|split; [|split; [|split]]]; auto.
    + intros e idx He Hi. rewrite <- Hr by exact He. apply read_val; rewrite ?D2; auto.
    + now rewrite <- Ex.
    + rewrite X, M, Ex. now apply picture_values.
Qed.

(** * Descriptions *)
Lemma print_dim_join name ds : print_dim_name name ds =
  match ds with [] => text "Scalar" | _ => join times_sign (map (fun p => name (fst p) ++ text "(" ++ to_string (snd p) ++ text ")") ds) end.
Proof.
  destruct ds as [|[q n] r]; auto. cbn [print_dim_name]. revert q n. induction r as [|[q' n'] r IH]; intros q n; cbn [print_more_dims map].
  - cbn [join fst snd]. now rewrite app_nil_r.
  - unfold print_single_dim_name in *. rewrite IH. cbn [join map fst snd]. reflexivity.
Qed.
Lemma extents_list d : dom_wf d -> extents d = Ok (map (fun p => (fst p, snd (snd p) - fst (snd p))) d).
Proof.
  intros Hd. destruct (extents_spec d Hd) as (ex & E & Hdx & Hwx & Hvx). rewrite E. f_equal. symmetry. apply tagged_eq_list.
  - unfold dims at 1. rewrite map_map. simpl. symmetry. exact Hdx.
  - unfold dims. rewrite map_map. simpl. apply Hd.
  - intros q x Hx. apply in_map_iff in Hx as ([q' [b f]] & E' & Hi). injection E' as <- <-. now apply Hvx.
Qed.
Lemma print_ok {V} (show : V -> bytes) o name tname host src fresh1 fresh2 g1 g2 g3 g4 s1 s2 (m : memory V) out : span_wf src ->
  print show o name tname host src fresh1 fresh2 g1 g2 g3 g4 s1 s2 m = Ok out <->
  exists content, print_content show o host src fresh1 fresh2 g1 g2 g3 g4 s1 s2 m = Ok content /\
    out = Txt ((match s_dom src with [] => text "Scalar" | d => join times_sign (map (fun p => name (fst p) ++ text "(" ++ to_string (snd (snd p) - fst (snd p)) ++ text ")") d) end)
               ++ [newline] ++ tname ++ [newline]) :: content.
Proof.
  intros (Hd & _ & _). unfold print, print_type_info. rewrite extents_list by exact Hd. cbn [rbind].
  rewrite print_dim_join. rewrite map_map. cbn [fst snd].
  replace (match map (fun p : tag * (Z * Z) => (fst p, snd (snd p) - fst (snd p))) (s_dom src) with [] => text "Scalar" | _ => join times_sign (map (fun p : tag * (Z * Z) => name (fst p) ++ text "(" ++ to_string (snd (snd p) - fst (snd p)) ++ text ")") (s_dom src)) end)
    with (match s_dom src with [] => text "Scalar" | d => join times_sign (map (fun p => name (fst p) ++ text "(" ++ to_string (snd (snd p) - fst (snd p)) ++ text ")") d) end) by (destruct (s_dom src); reflexivity).
  destruct (print_content show o host src fresh1 fresh2 g1 g2 g3 g4 s1 s2 m) as [c| |]; cbn [rbind].
  - split.
    + intros E. exists c. split; auto. assert (Hinj : forall x y : list (piece V), Ok x = Ok y -> x = y) by (intros x y K; now injection K). symmetry. now apply Hinj.
    + intros (c' & E & ->). assert (Hinj : forall x y : list (piece V), Ok x = Ok y -> x = y) by (intros x y K; now injection K). apply Hinj in E. now subst.
  - split; [discriminate|]. now intros (c' & E & _).
  - split; [discriminate|]. now intros (c' & E & _).
Qed.
Lemma print_full_ok {V} (show : V -> bytes) cur name tname host src fresh1 fresh2 g1 g2 g3 g4 (m : memory V) : valid cur -> (forall v, Z.of_nat (length (show v)) < 2 ^ 64) ->
  span_wf src -> box_count (s_dom src) < 2 ^ 64 ->
  fresh_for src fresh1 -> fresh_for src fresh2 -> (fresh1 + box_count (s_dom src) <= fresh2 \/ fresh2 + box_count (s_dom src) <= fresh1) ->
  room src g1 -> room src g2 -> room src g3 -> room src g4 ->
  (exists s1 s2 r, print_full show cur name tname host src fresh1 fresh2 g1 g2 g3 g4 s1 s2 m = Ok r) /\
  forall s1 s2 out left, print_full show cur name tname host src fresh1 fresh2 g1 g2 g3 g4 s1 s2 m = Ok (out, left) ->
  left = cur /\ exists header content f, out = Txt header :: content /\
    (forall e idx, in_box (s_dom src) e -> index_of (s_dom src) e idx -> span_read m src [e] = Ok (f idx)) /\
    map snd (elements content) = map f (all_indices (map (fun p => snd (snd p) - fst (snd p)) (s_dom src))) /\ ~ In Dots (marks content).
Proof.
  intros Hc Hsh Hw Hbox Hf1 Hf2 Hf12 Hg1 Hg2 Hg3 Hg4.
  assert (Hvf : valid full_options) by (unfold valid, full_options; cbn [threshold edgeitems]; split; [split; [lia|]|lia]; reflexivity).
  assert (Hex : Forall (fun n => n < threshold full_options) (map (fun p : tag * (Z * Z) => snd (snd p) - fst (snd p)) (s_dom src))).
  { destruct Hw as ([_ H] & _). apply Forall_map. eapply Forall_impl; [|exact H]. intros [q [b f]]. cbn. lia. }
  destruct (print_content_ok show full_options host src fresh1 fresh2 g1 g2 g3 g4 m Hvf Hsh Hw Hbox Hf1 Hf2 Hf12 Hg1 Hg2 Hg3 Hg4) as [(s1 & s2 & c & E) H].
  assert (Hback : fst (set_print_options cur full_options) = cur).
  { unfold set_print_options. cbn [fst]. unfold accepted. destruct Hc as [[_ K] _]. now replace (edgeitems cur <? threshold cur / 2) with true by lia. }
  assert (A : accepted full_options = true) by reflexivity.
  split.
  - exists s1, s2. eexists. unfold print_full, set_print_options. cbn [fst snd]. rewrite A.
    assert (P := proj2 (print_ok show full_options name tname host src fresh1 fresh2 g1 g2 g3 g4 s1 s2 m _ Hw) (ex_intro _ c (conj E eq_refl))).
    rewrite P. cbn [rbind]. reflexivity.
  - intros t1 t2 out left Ho. unfold print_full, set_print_options in Ho. cbn [fst snd] in Ho. rewrite A in Ho.
    destruct (print show full_options name tname host src fresh1 fresh2 g1 g2 g3 g4 t1 t2 m) as [p| |] eqn:Ep; try discriminate. cbn [rbind] in Ho.
    assert (Hinj : forall x y : list (piece V) * options, Ok x = Ok y -> x = y) by (intros x y K; now injection K). apply Hinj in Ho.
    assert (H1 : p = out) by exact (f_equal fst Ho). assert (H2 : (if accepted cur then cur else full_options) = left) by exact (f_equal snd Ho). subst p.
    split; [rewrite <- H2; exact Hback|].
    apply print_ok in Ep as (c' & Ec & ->); [|exact Hw]. destruct (H t1 t2 c' Ec) as (f & F1 & F2 & F3 & _). eexists. exists c', f. split; [reflexivity|]. split; [exact F1|]. split.
    + rewrite F3. f_equal. apply filter_all. intros idx _. clear -Hex. revert idx. induction Hex as [|n ext Hn _ IH]; intros [|i idx]; cbn [visible]; auto.
      rewrite IH. unfold visible1. now replace (n <? threshold full_options) with true by lia.
    + rewrite F2. now apply picture_no_dots.
Qed.

(** * Histories of options *)
Lemma history_ok rs o : valid o -> Forall is_options rs -> let final := fold_left (fun cur r => fst (set_print_options r cur)) rs o in
  valid final /\ final = last_valid o rs /\
  forall r, snd (set_print_options r final) = final /\ (threshold r / 2 <= edgeitems r -> fst (set_print_options r final) = final).
Proof.
  intros Ho H. revert o Ho. induction H as [|r rs Hr _ IH]; intros o Ho final.
  - unfold final. cbn. split; auto. split; auto. intros r. split; auto. intros Hr. unfold accepted. now replace (edgeitems r <? threshold r / 2) with false by lia.
  - assert (K : valid (fst (set_print_options r o))).
    { unfold set_print_options. cbn [fst]. destruct (accepted r) eqn:E; auto. now apply accepted_valid. }
    exact (IH _ K).
Qed.
Lemma truncation_disjoint o n : valid o -> threshold o <= n ->
  (forall i, ~ (i < edgeitems o /\ n - edgeitems o <= i)) /\ exists i, 0 <= i < n /\ visible1 o n i = false.
Proof.
  intros [H1 H2] Hn. split; [intros i; lia|]. exists (edgeitems o). split; [lia|]. unfold visible1. lia.
Qed.
