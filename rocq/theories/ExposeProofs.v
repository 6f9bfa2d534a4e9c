From Coq Require Import String.
From Verif Require Import Machine TypeSeqModel TaggedModel TaggedSpec DomainModel DomainSpec DomainProofs DomainProofs2 SpanModel SpanSpec
  SpanProofs StorageProofs ParModel ParSpec ParProofs PdiModel PdiSpec PdiProofs ExposeModel ExposeSpec.
Local Open Scope Z_scope.

(** ** What is shared *)
Lemma append_neq n s : s <> ""%string -> n <> (n ++ s)%string.
Proof. intros Hs. induction n as [|c n IH]; cbn; [congruence|]. intros E. injection E as E. auto. Qed.
Lemma append_inj n a b : (n ++ a)%string = (n ++ b)%string -> a = b.
Proof. induction n as [|c n IH]; cbn; auto. intros E. injection E as E. auto. Qed.
Lemma expected_names c : map (fun x => fst (fst x)) (expected c) = names_of c.
Proof. destruct c as [[n a] [x h w|v p w|k p]]; reflexivity. Qed.
Lemma filter_none {A} (f : A -> bool) l : (forall x, In x l -> f x = false) -> filter f l = [].
Proof. induction l as [|x l IH]; intros H; cbn; auto. rewrite (H x) by (cbn; auto). apply IH. intros y Hy. apply H. cbn; auto. Qed.
Lemma matches_names w refs xs : Forall2 (matches w) refs xs -> map rname refs = map (fun x => fst (fst x)) xs.
Proof. induction 1 as [|r x l l' H _ IH]; cbn; auto. rewrite IH. destruct H as [-> _]. reflexivity. Qed.

Lemma life_sees {V} ev l1 l2 name a x h wr w0 (m : memory V) :
  (forall k, owned w0 k = None) -> (forall n k b, ~ In (Own k, b) (shared w0 n)) ->
  Forall acceptable (l1 ++ (name, a, Chunk x h wr) :: l2) -> Forall extents_fit (l1 ++ (name, a, Chunk x h wr) :: l2) -> apart name l2 ->
  exists before after w1 w2, event_life ev (l1 ++ (name, a, Chunk x h wr) :: l2) = Ok (before ++ [PDI_event ev] ++ after) /\
    (forall n, ~ In (PDI_event n) (before ++ after)) /\ steps w0 before w1 /\ steps w1 after w2 /\ same_world w2 w0 /\
    pdi_sees w1 m name x (array_at m h x) (match a with Some a => a | None => if wr then read_write else read_only end).
Proof.
  intros Hf Hs Ha He Hap. destruct (life_ok ev _ w0 Hf Hs Ha He) as (before & after & refs & w1 & w2 & E & N & _ & _ & S1 & M & Sh & S2 & SW).
  exists before, after, w1, w2. repeat (split; [assumption|]).
  rewrite map_app, concat_app in M. cbn [map concat] in M.
  apply Forall2_app_inv_r in M as (r1 & r2' & M1 & M2 & ->). apply Forall2_app_inv_r in M2 as (rc & r2 & Mc & M2 & ->).
  cbn [expected] in Mc. inversion Mc as [|ra ? ? ? Ka Mc']; subst. inversion Mc' as [|rb ? ? ? Kb Mc'']; subst.
  inversion Mc'' as [|rd ? ? ? Kd Mn]; subst. inversion Mn; subst. clear Mc Mc' Mc'' Mn.
  assert (Hn : forall n, n = name \/ n = (name ++ "_rank")%string \/ n = (name ++ "_extents")%string ->
             filter (fun r : string * ptr * access => String.eqb n (fst (fst r))) r2 = []).
  { intros n Hn. apply filter_none. intros r Hr. apply String.eqb_neq. intros ->. apply matches_names in M2.
    assert (Hi : In (rname r) (map rname r2)) by now apply in_map. rewrite M2, concat_map, map_map in Hi.
    apply in_concat in Hi as (l & Hl & Hi). apply in_map_iff in Hl as (c & <- & Hc). rewrite expected_names in Hi.
    destruct (Hap c _ Hc Hi) as (? & ? & ?). unfold rname in *. intuition congruence. }
  destruct Ka as (Na & Aa & i & Pa & Oa), Kb as (Nb & Ab & j & Pb & Ob), Kd as (Nd & Ad & Pd). unfold rname in *. cbn [fst snd denotes] in *.
  assert (Q1 : name <> (name ++ "_rank")%string) by (apply append_neq; discriminate).
  assert (Q2 : name <> (name ++ "_extents")%string) by (apply append_neq; discriminate).
  assert (Q3 : (name ++ "_rank")%string <> (name ++ "_extents")%string) by (intros Q; apply append_inj in Q; discriminate).
  assert (T : forall n, shared w1 n = rev (map (fun r => (snd (fst r), snd r)) (filter (fun r : string * ptr * access => String.eqb n (fst (fst r))) [ra; rb; rd] ++
      filter (fun r : string * ptr * access => String.eqb n (fst (fst r))) r2)) ++
      rev (map (fun r => (snd (fst r), snd r)) (filter (fun r : string * ptr * access => String.eqb n (fst (fst r))) r1)) ++ shared w0 n).
  { intros n. rewrite Sh, filter_app, map_app, rev_app_distr, <- app_assoc. f_equal. f_equal. f_equal.
    change ([ra; rb; rd] ++ r2) with ([ra; rb; rd] ++ r2). now rewrite filter_app. }
  exists h, i, j. do 3 eexists. split; [|split; [exact Oa|split; [|split; [exact Ob|split; [|reflexivity]]]]].
  - rewrite T, Hn by auto. cbn [filter]. rewrite Na, Nb, Nd, String.eqb_refl. rewrite (proj2 (String.eqb_neq _ _) Q3).
    rewrite (proj2 (String.eqb_neq (name ++ "_rank") name)) by congruence. cbn. rewrite Pa, Aa. reflexivity.
  - rewrite T, Hn by auto. cbn [filter]. rewrite Na, Nb, Nd, String.eqb_refl. rewrite (proj2 (String.eqb_neq (name ++ "_extents") (name ++ "_rank"))) by congruence.
    rewrite (proj2 (String.eqb_neq (name ++ "_extents") name)) by congruence. cbn. rewrite Pb, Ab. reflexivity.
  - rewrite T, Hn by auto. cbn [filter]. rewrite Na, Nb, Nd, String.eqb_refl. rewrite (proj2 (String.eqb_neq _ _) Q1), (proj2 (String.eqb_neq _ _) Q2).
    cbn. rewrite Pd, Ad. reflexivity.
Qed.

(** ** The order of the elements *)
Lemma elements_prod x : elements x = prod x.
Proof. reflexivity. Qed.
Lemma exposed_ok s wr : span_wf s -> exposed s wr = Ok (Chunk (sizes (s_dom s)) (m_ptr (s_md s)) wr).
Proof.
  intros (Hd & _). unfold exposed. destruct (extents_values (s_dom s) Hd) as (ex & -> & Hv). cbn. now rewrite Hv.
Qed.
Lemma for_each_list d : dom_wf d -> host_for_each d (fun e l => l ++ [e]) [] = Ok (DomainProofs2.trace d).
Proof. intros Hd. rewrite host_for_each_trace by auto. f_equal. apply (collect_all (DomainProofs2.trace d) []). Qed.
Lemma array_at_range {V} (m : memory V) p x : array_at m p x = map (fun k => m (p + k)) (zrange (prod x)).
Proof. unfold array_at, zrange. rewrite map_map. reflexivity. Qed.
Lemma trace_box d e : dom_wf d -> In e (DomainProofs2.trace d) -> exists is, In is (box (sizes d)) /\ e = elem_at d is /\ in_box d e /\
  map (fun p => vf e (fst p) - fst (snd p)) d = is.
Proof.
  intros Hd Hi. apply in_map_iff in Hi as (is & <- & Hi). exists is. split; [exact Hi|]. split; [reflexivity|].
  apply in_box_list, in_rng_flip in Hi. split; [apply elem_at_box; auto|]. apply elem_at_offsets; [|apply Hd].
  apply in_rng_len in Hi. unfold sizes in Hi. now rewrite map_length in Hi.
Qed.
Lemma row_order d : dom_wf d -> map (fun e => row_major d (vf e)) (DomainProofs2.trace d) = zrange (prod (sizes d)).
Proof.
  intros Hd. rewrite <- box_dot_right by now apply ext_nonneg. unfold DomainProofs2.trace. rewrite map_map. apply map_ext_in. intros is Hi.
  rewrite row_major_dot. f_equal. apply elem_at_offsets; [|apply Hd].
  apply in_box_list, in_rng_flip, in_rng_len in Hi. unfold sizes in Hi. now rewrite map_length in Hi.
Qed.
Lemma vf_val_of d e q : in_box d e -> In q (ddims d) -> val_of e q (vf e q).
Proof.
  intros (He & Hb) Hq. unfold ddims in Hq. apply in_map_iff in Hq as ((q' & b & f) & <- & Hi). cbn in *.
  destruct (Hb _ _ _ Hi) as (x & Hx & _). rewrite (vf_val e q' x); auto. apply He.
Qed.
Lemma row_major_ext d X Y : (forall q, In q (ddims d) -> X q = Y q) -> row_major d X = row_major d Y.
Proof.
  induction d as [|(q, (b, f)) d IH]; intros H; cbn; auto. rewrite (H q) by (cbn; auto). rewrite IH; auto. intros r Hr. apply H. cbn; auto.
Qed.
(** [packed] in terms of positions. *)
Lemma packed_loc s : span_wf s -> (packed s <-> forall e, In e (DomainProofs2.trace (s_dom s)) -> loc s (vf e) = m_ptr (s_md s) + row_major (s_dom s) (vf e)).
Proof.
  intros Hw. assert (Hd := proj1 Hw). split.
  - intros Hp e Hi. destruct (trace_box _ _ Hd Hi) as (is & _ & _ & Hb & _).
    assert (E := Hp e (vf e) Hb (fun q => vf_val_of _ _ q Hb)). rewrite access_loc in E by (cbn; rewrite ?app_nil_r; auto).
    cbn in E. rewrite app_nil_r in E. congruence.
  - intros H e X Hb HX. rewrite access_loc by (cbn; rewrite ?app_nil_r; auto). cbn. rewrite app_nil_r. f_equal.
    assert (EX : forall q, In q (ddims (s_dom s)) -> X q = vf e q).
    { intros q Hq. symmetry. apply vf_val; [apply Hb | apply HX, Hq]. }
    rewrite (row_major_ext _ X (vf e)) by exact EX.
    set (is := map (fun p => vf e (fst p) - fst (snd p)) (s_dom s)).
    assert (Ri : in_rng (sizes (s_dom s)) is) by (apply offsets_in_rng, in_box_vf, Hb).
    assert (Hi : In (elem_at (s_dom s) is) (DomainProofs2.trace (s_dom s))).
    { apply in_map, in_box_list, in_rng_flip, Ri. }
    destruct (trace_box _ _ Hd Hi) as (js & _ & E & Hb' & Ej).
    assert (Eis : map (fun p => vf (elem_at (s_dom s) is) (fst p) - fst (snd p)) (s_dom s) = is).
    { apply elem_at_offsets; [|apply Hd]. unfold is. now rewrite map_length. }
    assert (Ev := map_offsets_inj _ _ _ Eis). specialize (H _ Hi). rewrite (row_major_ext _ _ (vf e)) in H by exact Ev.
    rewrite <- H. unfold loc. rewrite Eis. reflexivity.
Qed.

Lemma read_loc {V} (m : memory V) s e : span_wf s -> in_box (s_dom s) e -> span_read m s [e] = Ok (m (loc s (vf e))).
Proof.
  intros Hw Hb. unfold span_read. rewrite access_loc by (cbn; rewrite ?app_nil_r; auto). cbn. now rewrite app_nil_r.
Qed.
Lemma values_of_iff {V} (m : memory V) s vals : span_wf s -> (values_of m s vals <-> vals = map (fun e => m (loc s (vf e))) (DomainProofs2.trace (s_dom s))).
Proof.
  intros Hw. assert (Hd := proj1 Hw). unfold values_of. rewrite for_each_list by exact Hd.
  assert (G : forall l, (forall e, In e l -> in_box (s_dom s) e) ->
      (Forall2 (fun e v => span_read m s [e] = Ok v) l vals <-> vals = map (fun e => m (loc s (vf e))) l)).
  { clear -Hw. intros l. revert vals. induction l as [|e l IH]; intros vals Hl.
    - cbn. split; [now inversion 1 | intros ->; constructor].
    - cbn [map]. split.
      + inversion 1 as [|? v ? vs H1 H2]; subst. rewrite read_loc in H1 by (auto; apply Hl; cbn; auto).
        assert (v = m (loc s (vf e))) by congruence. subst v. f_equal. apply IH; auto. intros e' He'. apply Hl. cbn; auto.
      + intros ->. constructor; [apply read_loc; auto; apply Hl; cbn; auto|]. apply IH; auto. intros e' He'. apply Hl. cbn; auto. }
  assert (Hb : forall e, In e (DomainProofs2.trace (s_dom s)) -> in_box (s_dom s) e) by (intros e He; now destruct (trace_box _ _ Hd He) as (? & _ & _ & ? & _)).
  split.
  - intros (es & E & F). assert (es = DomainProofs2.trace (s_dom s)) by congruence. subst es. now apply G.
  - intros ->. exists (DomainProofs2.trace (s_dom s)). split; [reflexivity|]. now apply G.
Qed.
Lemma map_injective {A B} (f g : A -> B) l : map f l = map g l -> forall x, In x l -> f x = g x.
Proof. induction l as [|y l IH]; cbn; [easy|]. intros E x [->|Hx]; [congruence|]. apply IH; auto. congruence. Qed.

(** PDI reads the values of the chunk, whatever they are, exactly when the chunk is packed. *)
Lemma reads_values {V} (m : memory V) s : span_wf s -> packed s -> values_of m s (array_at m (m_ptr (s_md s)) (sizes (s_dom s))).
Proof.
  intros Hw Hp. apply values_of_iff; auto. rewrite array_at_range, <- row_order by apply Hw. rewrite map_map. apply map_ext_in.
  intros e He. f_equal. symmetry. now apply (proj1 (packed_loc s Hw) Hp).
Qed.
Lemma reads_values_conv s : span_wf s -> (forall m : memory Z, values_of m s (array_at m (m_ptr (s_md s)) (sizes (s_dom s)))) -> packed s.
Proof.
  intros Hw H. apply packed_loc; auto. specialize (H (fun a => a)). apply values_of_iff in H; auto.
  rewrite array_at_range, <- row_order, map_map in H by apply Hw. intros e He. symmetry. exact (map_injective _ _ _ H e He).
Qed.
