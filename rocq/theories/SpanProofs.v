From Verif Require Import ListAux Machine MachineProofs TypeSeqModel TypeSeqProofs TaggedModel TaggedSpec TaggedProofs
  DomainModel DomainSpec DomainProofs DomainProofs2 SpanModel SpanSpec.

(** * Mappings *)
Fixpoint dot (is st : list Z) : Z :=
  match is, st with i :: is', s :: st' => i * s + dot is' st' | _, _ => 0 end.
Definition prod (l : list Z) : Z := fold_right Z.mul 1 l.
Fixpoint zstr_right (ext : list Z) : list Z := match ext with [] => [] | _ :: r => prod r :: zstr_right r end.
Fixpoint zstr_left (acc : Z) (ext : list Z) : list Z := match ext with [] => [] | n :: r => acc :: zstr_left (acc * n) r end.
Definition in_rng (ext is : list Z) : Prop := Forall2 (fun n i => 0 <= i < n) ext is.

Lemma all_in_range_spec ext is : all_in_range ext is = true <-> in_rng ext is.
Proof.
  unfold in_rng. revert is. induction ext as [|n ext IH]; intros [|i is]; simpl.
  - split; auto. - split; [discriminate | intros H; inversion H]. - split; [discriminate | intros H; inversion H].
  - rewrite !andb_true_iff, IH. split.
    + intros [H1 H2]. constructor; auto. lia.
    + intros H. inversion H; subst. split; auto. lia.
Qed.
Lemma in_rng_pos ext is : in_rng ext is -> Forall (fun n => 0 < n) ext.
Proof. induction 1; constructor; auto. lia. Qed.
Lemma prod_pos ext : Forall (fun n => 0 < n) ext -> 0 < prod ext.
Proof. induction 1; simpl; [lia|]. unfold prod in *. nia. Qed.
Lemma dot_nonneg is st : Forall (fun x => 0 <= x) is -> Forall (fun x => 0 <= x) st -> 0 <= dot is st.
Proof.
  intros H. revert st. induction H; intros st Hs; simpl; [lia|]. destruct st; [lia|]. inversion Hs; subst.
  specialize (IHForall st H4). nia.
Qed.
Lemma in_rng_nonneg ext is : in_rng ext is -> Forall (fun x => 0 <= x) is.
Proof. induction 1; constructor; auto. lia. Qed.
Lemma dot_le_max ext is st : in_rng ext is -> Forall (fun x => 0 <= x) st -> dot is st <= max_offset ext st.
Proof.
  intros H. revert st. induction H; intros st Hs; [simpl; lia|]. destruct st; simpl; [lia|]. inversion Hs; subst.
  specialize (IHForall2 st H4). replace (Z.max 0 (x - 1)) with (x - 1) by lia. nia.
Qed.
Lemma off_stride_exact st is : Forall (fun x => 0 <= x) is -> Forall (fun x => 0 <= x) st -> dot is st < 2 ^ 64 ->
  off_stride st is = dot is st.
Proof.
  revert is. induction st as [|s st IH]; intros [|i is] Hi Hs Hd; simpl in *; auto.
  inversion Hi; inversion Hs; subst. assert (0 <= dot is st) by (apply dot_nonneg; auto).
  assert (0 <= i * s) by nia. rewrite IH by (auto; lia).
  unfold u64_add, u64_mul, u64. change two64 with (2 ^ 64). rewrite (Z.mod_small (i * s)) by lia. apply Z.mod_small. lia.
Qed.
Lemma mod_shift a : exists k, a mod 2 ^ 64 = a + k * 2 ^ 64.
Proof. exists (- (a / 2 ^ 64)). rewrite Z.mod_eq by lia. ring. Qed.
Lemma off_right_mod ext : forall acc is, length is = length ext -> 0 <= acc < 2 ^ 64 ->
  off_right acc ext is = (acc * prod ext + dot is (zstr_right ext)) mod 2 ^ 64.
Proof.
  induction ext as [|n ext IH]; intros acc [|i is] Hl Ha; cbn [length] in *; try discriminate;
    unfold prod; cbn [off_right dot zstr_right fold_right].
  - rewrite Z.mul_1_r, Z.add_0_r, Z.mod_small; auto.
  - rewrite IH; [|lia | unfold u64_add, u64; change two64 with (2 ^ 64); apply Z.mod_pos_bound; lia].
    unfold u64_add, u64_mul, u64. change two64 with (2 ^ 64).
    change (fold_right Z.mul 1 ext) with (prod ext).
    destruct (mod_shift (acc * n)) as [k1 ->]. destruct (mod_shift (acc * n + k1 * 2 ^ 64 + i)) as [k2 ->].
    rewrite <- (Z.mod_add (acc * (n * prod ext) + _) (k1 * prod ext + k2 * prod ext)) by lia. f_equal. ring.
Qed.
Lemma dot_right_bound ext is : in_rng ext is -> 0 <= dot is (zstr_right ext) < prod ext.
Proof.
  intros H. induction H as [|n i ext is Hi H IH]; simpl; [lia|].
  change (fold_right Z.mul 1 ext) with (prod ext). assert (Hp := prod_pos ext (in_rng_pos _ _ H)). nia.
Qed.
Lemma strides_right_exact ext : Forall (fun n => 0 < n) ext -> prod ext < 2 ^ 64 ->
  strides_right ext = zstr_right ext.
Proof.
  intros H. induction H as [|n ext Hn H IH]; simpl; auto. intros Hp.
  change (fold_right Z.mul 1 ext) with (prod ext) in *. assert (Hq := prod_pos ext H).
  rewrite IH by nia. f_equal. assert (Hlt : prod ext < 2 ^ 64) by nia. clear IH Hp Hn n.
  induction H as [|m ext Hm H IH]; simpl; auto. assert (Hr := prod_pos ext H).
  unfold prod in *. simpl in *. rewrite IH by nia. unfold u64_mul, u64. change two64 with (2 ^ 64); rewrite Z.mod_small; [auto|nia].
Qed.
Lemma max_right ext : Forall (fun n => 0 < n) ext -> max_offset ext (zstr_right ext) = prod ext - 1.
Proof.
  induction 1 as [|n ext Hn H IH]; simpl; auto. change (fold_right Z.mul 1 ext) with (prod ext).
  rewrite IH. replace (Z.max 0 (n - 1)) with (n - 1) by lia. lia.
Qed.
Lemma zstr_left_scale ext a : zstr_left a ext = map (Z.mul a) (zstr_left 1 ext).
Proof.
  revert a. induction ext as [|n ext IH]; intros a; cbn [zstr_left map]; auto. f_equal; [lia|].
  rewrite (IH (a * n)), (IH (1 * n)). rewrite map_map. apply map_ext. intros x. ring.
Qed.
Lemma dot_scale a is st : dot is (map (Z.mul a) st) = a * dot is st.
Proof. revert st. induction is as [|i is IH]; intros [|s st]; cbn [dot map]; rewrite ?IH; ring. Qed.
Lemma zstr_left_cons n ext : zstr_left 1 (n :: ext) = 1 :: map (Z.mul n) (zstr_left 1 ext).
Proof. cbn [zstr_left]. f_equal. rewrite zstr_left_scale. now rewrite Z.mul_1_l. Qed.
Lemma off_left_mod ext : forall is, length is = length ext -> Forall (fun x => 0 <= x) is ->
  off_left ext is mod 2 ^ 64 = (dot is (zstr_left 1 ext)) mod 2 ^ 64.
Proof.
  induction ext as [|n ext IH]; intros [|i is] Hl Hi; try discriminate; auto.
  rewrite zstr_left_cons. cbn [off_left dot]. rewrite dot_scale. unfold u64_add, u64_mul, u64. change two64 with (2 ^ 64).
  inversion Hi; subst. rewrite Z.mod_mod by lia. rewrite Z.add_mod_idemp_r by lia.
  rewrite <- Z.add_mod_idemp_r by lia. rewrite <- Z.mul_mod_idemp_r by lia. rewrite IH by (simpl in Hl; auto).
  rewrite Z.mul_mod_idemp_r by lia. rewrite Z.add_mod_idemp_r by lia. f_equal. lia.
Qed.
Lemma off_left_range ext is : 0 <= off_left ext is < 2 ^ 64.
Proof. destruct ext, is; cbn [off_left]; try lia. unfold u64_add, u64. change two64 with (2 ^ 64). apply Z.mod_pos_bound. lia. Qed.
Lemma dot_left_bound ext is : in_rng ext is -> 0 <= dot is (zstr_left 1 ext) < prod ext.
Proof.
  intros H. induction H as [|n i ext is Hi H IH]; [simpl; lia|].
  rewrite zstr_left_cons. cbn [dot]. rewrite dot_scale. unfold prod in *. cbn [fold_right]. nia.
Qed.
Lemma strides_left_exact ext : Forall (fun n => 0 < n) ext -> forall a, 0 < a -> a * prod ext < 2 ^ 64 ->
  strides_left a ext = zstr_left a ext.
Proof.
  induction 1 as [|n ext Hn H IH]; intros a Ha Hp; simpl; auto. f_equal.
  unfold prod in Hp. cbn [fold_right] in Hp. fold (prod ext) in Hp. assert (Hq := prod_pos ext H).
  unfold u64_mul, u64. change two64 with (2 ^ 64); rewrite Z.mod_small by nia. apply IH; nia.
Qed.
Lemma max_scale ext st a : max_offset ext (map (Z.mul a) st) = a * max_offset ext st.
Proof. revert st. induction ext as [|n ext IH]; intros [|s st]; cbn [max_offset map]; rewrite ?IH; ring. Qed.
Lemma max_left ext : Forall (fun n => 0 < n) ext -> max_offset ext (zstr_left 1 ext) = prod ext - 1.
Proof.
  induction 1 as [|n ext Hn H IH]; [reflexivity|]. rewrite zstr_left_cons. cbn [max_offset]. rewrite max_scale, IH.
  unfold prod. cbn [fold_right]. lia.
Qed.
Lemma zstr_right_nonneg ext : Forall (fun n => 0 < n) ext -> Forall (fun x => 0 <= x) (zstr_right ext).
Proof. induction 1; simpl; constructor; auto. assert (H1 := prod_pos l H0). unfold prod in *. lia. Qed.
Lemma zstr_left_nonneg ext : Forall (fun n => 0 < n) ext -> forall a, 0 <= a -> Forall (fun x => 0 <= x) (zstr_left a ext).
Proof. induction 1; intros a Ha; simpl; constructor; auto. apply IHForall. nia. Qed.

Definition str (s : span) : list Z := map_strides (m_lay (s_md s)) (m_ext (s_md s)).
Definition ext1 (p : tag * (Z * Z)) : Z := snd (snd p) - fst (snd p).
Definition nonempty (s : span) : Prop := Forall (fun n => 0 < n) (m_ext (s_md s)).
Lemma prod_box d : prod (map ext1 d) = box_count d.
Proof. induction d; auto. unfold prod, ext1, box_count in *. simpl. now rewrite IHd. Qed.

Lemma str_length s : span_wf s -> length (str s) = length (s_dom s).
Proof.
  intros (Hd & He & Hl). unfold str. rewrite He. destruct (m_lay (s_md s)); simpl.
  - clear. induction (s_dom s); simpl; auto.
  - clear. generalize 1. induction (s_dom s); intros; simpl; auto.
  - apply Hl.
Qed.
Lemma str_nonneg s : span_wf s -> Forall (fun x => 0 <= x) (str s).
Proof.
  assert (Hm : forall a b, 0 <= u64_mul a b) by (intros; unfold u64_mul, u64; change two64 with (2 ^ 64); apply Z.mod_pos_bound; lia).
  intros (Hd & He & Hl). unfold str. rewrite He. destruct (m_lay (s_md s)); simpl.
  - clear -Hm. induction (s_dom s) as [|p d IH]; simpl; constructor; auto. destruct d; simpl; [lia | apply Hm].
  - clear -Hm. assert (G : forall l a, 0 <= a -> Forall (fun x => 0 <= x) (strides_left a l)).
    { induction l; intros a0 Ha; simpl; constructor; auto. }
    apply G. lia.
  - apply Hl.
Qed.
(** On a non-empty well-formed span, offsets are exact and bounded. *)
Lemma span_offsets s : span_wf s -> nonempty s ->
  max_offset (m_ext (s_md s)) (str s) < 2 ^ 64 /\
  forall is, in_rng (m_ext (s_md s)) is -> map_offset (m_lay (s_md s)) (m_ext (s_md s)) is = dot is (str s).
Proof.
  intros Hs Hn. assert (Hnn := str_nonneg s Hs). destruct Hs as (Hd & He & Hl). unfold nonempty, str in *.
  assert (Hp : prod (m_ext (s_md s)) = box_count (s_dom s)) by (rewrite He; apply prod_box).
  destruct (m_lay (s_md s)); simpl in *.
  - rewrite strides_right_exact by (auto; lia). split; [rewrite max_right by auto; lia|].
    intros is Hi. rewrite off_right_mod by (try lia; symmetry; eapply Forall2_len; eauto).
    assert (Hb := dot_right_bound _ _ Hi). rewrite Z.mod_small; lia.
  - rewrite strides_left_exact by (auto; lia). split; [rewrite max_left by auto; lia|].
    intros is Hi. assert (Hb := dot_left_bound _ _ Hi).
    assert (Hm := off_left_mod (m_ext (s_md s)) is ltac:(symmetry; eapply Forall2_len; eauto) (in_rng_nonneg _ _ Hi)).
    assert (Hr := off_left_range (m_ext (s_md s)) is). rewrite !Z.mod_small in Hm by lia. auto.
  - destruct Hl as (Hl & Hst & Hmax). split; [auto|]. intros is Hi. apply off_stride_exact; auto.
    + eapply in_rng_nonneg; eauto.
    + assert (H := dot_le_max _ _ strides Hi Hst). specialize (Hmax Hn). lia.
Qed.

(** * Location as a function of the coordinates *)
Definition vf (e : tagged) (q : tag) : Z := match get q e with Ok x => x | _ => 0 end.
Definition loc (s : span) (X : tag -> Z) : Z :=
  m_ptr (s_md s) + dot (map (fun p => X (fst p) - fst (snd p)) (s_dom s)) (str s).
Lemma vf_val e q x : NoDup (dims e) -> val_of e q x -> vf e q = x.
Proof. intros Hn Hv. unfold vf. apply get_spec in Hv; auto. now rewrite Hv. Qed.
Lemma nth_val {A} (d : list (tag * A)) k p : nth_error d k = Some p -> In p d.
Proof. apply nth_error_In. Qed.

Lemma in_box_vf d e : in_box d e -> forall q b f, In (q, (b, f)) d -> b <= vf e q < f.
Proof. intros [[Hn _] H] q b f Hi. destruct (H q b f Hi) as (x & Hv & Hx). now rewrite (vf_val e q x). Qed.
Lemma in_box_of_vf d e : elem_of_dims d e -> (forall q b f, In (q, (b, f)) d -> b <= vf e q < f) -> in_box d e.
Proof.
  intros [Hn Hs] H. split; [split; auto|]. intros q b f Hi. destruct (dims_val e q) as [x Hx]; [apply Hs, ddims_in; eauto|].
  exists x. split; auto. specialize (H q b f Hi). now rewrite (vf_val e q x) in H.
Qed.
Lemma in_box_nonempty s e : span_wf s -> in_box (s_dom s) e -> nonempty s.
Proof.
  intros (Hd & He & _) Hb. unfold nonempty. rewrite He, Forall_map, Forall_forall. intros [q [b f]] Hi.
  assert (H := in_box_vf _ _ Hb q b f Hi). simpl. lia.
Qed.
Lemma offsets_in_rng d X : (forall q b f, In (q, (b, f)) d -> b <= X q < f) ->
  in_rng (map ext1 d) (map (fun p => X (fst p) - fst (snd p)) d).
Proof.
  unfold in_rng. induction d as [|[q [b f]] d IH]; intros H; simpl; constructor.
  - unfold ext1. simpl. specialize (H q b f (or_introl eq_refl)). lia.
  - apply IH. intros q' b' f' Hi. apply H. now right.
Qed.
Lemma distance_values d es : dom_wf d -> in_box d (concat es) ->
  distance_from_front d es = Ok (map (fun p => (fst p, vf (concat es) (fst p) - fst (snd p))) d).
Proof.
  intros Hd Hb. destruct (distance_spec d es Hd (proj1 Hb)) as (v & E & Hdv & Hv). rewrite E. f_equal. symmetry.
  apply tagged_eq_list.
  - rewrite Hdv. unfold dims, ddims. now rewrite map_map.
  - unfold dims. rewrite map_map. exact (proj1 Hd).
  - intros q x H. unfold val_of in H. apply in_map_iff in H as ([q' [b f]] & H1 & H2). injection H1 as <- <-. simpl in *.
    assert (Hr := in_box_vf _ _ Hb q' b f H2).
    destruct Hb as [[Hn Hs] Hb]. destruct (Hb q' b f H2) as (x & Hx & Hxr).
    rewrite (vf_val (concat es) q' x Hn Hx). specialize (Hv q' b f x H2 Hx).
    assert (Hw := dom_wf_at d q' b f Hd H2).
    replace (i64 (u64_sub x b)) with (x - b) in Hv; auto.
    mlia.
Qed.
Lemma access_loc s es : span_wf s -> in_box (s_dom s) (concat es) ->
  span_access s es = Ok (loc s (vf (concat es))).
Proof.
  intros Hs Hb. assert (Hne := in_box_nonempty s _ Hs Hb). destruct (span_offsets s Hs Hne) as [_ Ho].
  assert (Hs' := Hs). destruct Hs' as (Hd & He & _).
  unfold span_access. destruct (contains_spec_box (s_dom s) es (proj1 Hd) (proj1 Hb)) as (r & Ec & Hr).
  rewrite Ec. rewrite (proj2 Hr Hb). cbn [rbind]. rewrite distance_values by auto. cbn [rbind].
  assert (Hv : values (map (fun p => (fst p, vf (concat es) (fst p) - fst (snd p))) (s_dom s))
             = map (fun p => vf (concat es) (fst p) - fst (snd p)) (s_dom s)) by (unfold values; now rewrite map_map).
  rewrite Hv. assert (Hi : in_rng (m_ext (s_md s)) (map (fun p => vf (concat es) (fst p) - fst (snd p)) (s_dom s))).
  { rewrite He. apply offsets_in_rng. intros. eapply in_box_vf; eauto. }
  unfold md_access. rewrite (proj2 (all_in_range_spec _ _) Hi). rewrite Ho by auto. reflexivity.
Qed.

(** * Slicing *)
Lemma dom_eq_list (a b : domain) : ddims a = ddims b -> NoDup (ddims a) ->
  (forall q x f, In (q, (x, f)) a -> In (q, (x, f)) b) -> a = b.
Proof.
  revert b. induction a as [|[q [x f]] a IH]; intros [|[q' [x' f']] b] Hd Hn H; simpl in *; try discriminate; auto.
  injection Hd as -> Hd. inversion Hn as [|? ? Hni Hn']; subst.
  assert (E : In (q', (x, f)) ((q', (x', f')) :: b)) by (apply H; now left). destruct E as [E|E].
  - injection E as -> ->. f_equal. apply IH; auto. intros q y g Hi. destruct (H q y g (or_intror Hi)) as [E|E]; auto.
    injection E as <- <- <-. exfalso. apply Hni. apply ddims_in. eauto.
  - exfalso. apply Hni. rewrite Hd. apply ddims_in. eauto.
Qed.
Lemma has_dim_spec ts q : has_dim ts q = true <-> In q ts.
Proof. unfold has_dim. destruct (in_dec Nat.eq_dec q ts); split; auto; discriminate. Qed.
Lemma has_dim_tags ts q : in_tags_v q ts = has_dim ts q.
Proof.
  destruct (has_dim ts q) eqn:E.
  - apply in_tags_v_spec. now apply has_dim_spec.
  - apply in_tags_v_false. intros H. apply has_dim_spec in H. congruence.
Qed.
Lemma left_dims_wf d e : dom_wf d -> dom_wf (left_dims d e).
Proof.
  intros [Hn Hf]. unfold left_dims. split.
  - unfold ddims in *. clear Hf. induction d as [|p d IH]; simpl in *; [constructor|]. inversion Hn; subst.
    destruct (negb (has_dim (dims e) (fst p))); simpl; auto. constructor; auto.
    intros Hi. apply H1. apply in_map_iff in Hi as (r & E & Hr). apply filter_In in Hr as [Hr _]. rewrite <- E. now apply in_map.
  - rewrite Forall_forall in *. intros p Hp. apply filter_In in Hp as [Hp _]. auto.
Qed.
Lemma left_dims_dims d e : ddims (left_dims d e) = type_seq_remove (ddims d) (dims e).
Proof.
  destruct (remove_exact (ddims d) (dims e)) as [-> _]. unfold ddims, left_dims, has_dim. induction d as [|p d IH]; simpl; auto.
  destruct (in_dec Nat.eq_dec (fst p) (dims e)); simpl; auto. now rewrite IH.
Qed.
Lemma left_dims_in d e q b f : In (q, (b, f)) (left_dims d e) <-> In (q, (b, f)) d /\ ~ In q (dims e).
Proof.
  unfold left_dims. rewrite filter_In. simpl. rewrite negb_true_iff. split; intros [H1 H2]; split; auto.
  - intros H. apply has_dim_spec in H. congruence.
  - destruct (has_dim (dims e) q) eqn:E; auto. apply has_dim_spec in E. contradiction.
Qed.
Lemma select_left d e : dom_wf d -> dom_select (type_seq_remove (ddims d) (dims e)) d = Ok (left_dims d e).
Proof.
  intros Hd. rewrite <- left_dims_dims. destruct (dom_merge_spec (ddims (left_dims d e)) [d]) as (r & E & Hdr & Hw & Hr).
  - auto.
  - simpl. rewrite app_nil_r. apply Hd.
  - apply (left_dims_wf d e Hd).
  - simpl. rewrite app_nil_r. intros q Hq. apply ddims_in in Hq as (b & f & H). apply left_dims_in in H as [H _].
    apply ddims_in. eauto.
  - unfold dom_select. rewrite E. f_equal. apply dom_eq_list; auto; [apply Hw|].
    intros q x f Hi. apply Hr in Hi as (Hq & d' & [<-|[]] & Hi). rewrite ddims_in in Hq. destruct Hq as (b' & f' & Hq).
    apply left_dims_in in Hq as [Hq1 Hq2]. destruct (dom_fun d q x f b' f' (proj1 Hd) Hi Hq1); subst.
    apply left_dims_in. auto.
Qed.

(** ** By element *)
Definition slicers_of (d : domain) (e : tagged) : list slicer :=
  map (fun p => if has_dim (dims e) (fst p) then Fixed (vf e (fst p) - fst (snd p)) else Full) d.
Definition put (e : tagged) (X : tag -> Z) (q : tag) : Z := if has_dim (dims e) q then vf e q else X q.

Lemma slicers_of_ok d e : (forall q b f, In (q, (b, f)) d -> In q (dims e) -> b <= vf e q < f) ->
  slicers_ok (map ext1 d) (slicers_of d e) = true.
Proof.
  induction d as [|[q [b f]] d IH]; intros H; simpl; auto. rewrite IH, andb_true_r.
  - destruct (has_dim (dims e) q) eqn:E; auto. apply has_dim_spec in E. specialize (H q b f (or_introl eq_refl) E).
    unfold ext1. simpl. lia.
  - intros. apply H; auto. now right.
Qed.
Lemma sub_ext_of d e : sub_ext (map ext1 d) (slicers_of d e) = map ext1 (left_dims d e).
Proof.
  unfold left_dims. induction d as [|p d IH]; simpl; auto. destruct (has_dim (dims e) (fst p)); simpl; auto. now rewrite IH.
Qed.
Lemma sub_dot d e X st : length st = length d ->
  dot (map first_of (slicers_of d e)) st +
  dot (map (fun p => X (fst p) - fst (snd p)) (left_dims d e)) (sub_strides st (slicers_of d e)) =
  dot (map (fun p => put e X (fst p) - fst (snd p)) d) st.
Proof.
  unfold left_dims, put. revert st. induction d as [|p d IH]; intros [|s st] Hl; try discriminate; [reflexivity|].
  cbn [length] in Hl. specialize (IH st ltac:(lia)). cbn [slicers_of map filter sub_strides dot].
  destruct (has_dim (dims e) (fst p)) eqn:E; cbn [negb first_of sub_strides dot map]; rewrite <- IH; unfold slicers_of; ring.
Qed.
Lemma sub_max d e st : length st = length d -> Forall (fun x => 0 <= x) st ->
  max_offset (map ext1 (left_dims d e)) (sub_strides st (slicers_of d e)) <= max_offset (map ext1 d) st.
Proof.
  unfold left_dims. revert st. induction d as [|p d IH]; intros [|s st] Hl Hs; try discriminate.
  inversion Hs; subst. cbn [length] in Hl. specialize (IH st ltac:(lia) H2). cbn [slicers_of map filter sub_strides max_offset].
  destruct (has_dim (dims e) (fst p)) eqn:E; cbn [negb sub_strides max_offset map]; unfold slicers_of in *; nia.
Qed.
Lemma sub_strides_length d e st : length st = length d ->
  length (sub_strides st (slicers_of d e)) = length (left_dims d e).
Proof.
  unfold left_dims. revert st. induction d as [|p d IH]; intros [|s st] Hl; try discriminate; [reflexivity|].
  cbn [length] in Hl. specialize (IH st ltac:(lia)). cbn [slicers_of map filter sub_strides].
  destruct (has_dim (dims e) (fst p)); cbn [negb sub_strides length]; unfold slicers_of in *; lia.
Qed.
Lemma sub_strides_nonneg st sl : Forall (fun x => 0 <= x) st -> Forall (fun x => 0 <= x) (sub_strides st sl).
Proof.
  intros H. revert sl. induction H; intros [|c sl]; simpl; auto. destruct c; auto.
Qed.

Lemma list_eqb_refl l : list_eqb l l = true.
Proof. induction l; simpl; auto. rewrite Z.eqb_refl. auto. Qed.
Lemma map_u64_ext d : dom_wf d -> map u64 (map ext1 d) = map ext1 d.
Proof.
  intros [_ H]. rewrite map_map. apply map_ext_in. intros p Hp. rewrite Forall_forall in H. specialize (H p Hp).
  unfold ext1, u64. rewrite Z.mod_small; auto. change two64 with (2 ^ 64). lia.
Qed.
Lemma span_of_mdspan_ok m d : dom_wf d -> m_ext m = map ext1 d -> span_of_mdspan m d = Ok (mk_span m d).
Proof.
  intros Hd He. unfold span_of_mdspan. destruct (extents_values d Hd) as (ex & E & Hv). rewrite E. cbn [rbind].
  rewrite Hv. fold ext1. change (map (fun p => snd (snd p) - fst (snd p)) d) with (map ext1 d).
  rewrite map_u64_ext, He, list_eqb_refl by auto. reflexivity.
Qed.

Lemma map_res_in {A B} (f : A -> res B) (g : A -> B) l : (forall x, In x l -> f x = Ok (g x)) -> map_res f l = Ok (map g l).
Proof. apply map_res_ok. Qed.

Lemma elem_ok_vf d e : dom_wf d -> elem_ok d e -> forall q b f, In (q, (b, f)) d -> In q (dims e) -> b <= vf e q < f.
Proof.
  intros Hd [Hn H] q b f Hi Hq. destruct (dims_val e q Hq) as [x Hx]. destruct (H q x Hx) as (b' & f' & Hi' & Hr).
  destruct (dom_fun d q b f b' f' (proj1 Hd) Hi Hi'); subst. now rewrite (vf_val e q x).
Qed.
Lemma slice_elem_ok s e : span_wf s -> elem_ok (s_dom s) e ->
  exists m, span_slice_elem s e = Ok (mk_span m (left_dims (s_dom s) e)) /\
    span_wf (mk_span m (left_dims (s_dom s) e)) /\
    (nonempty (mk_span m (left_dims (s_dom s) e)) -> nonempty s /\
     forall X, loc (mk_span m (left_dims (s_dom s) e)) X = loc s (put e X)).
Proof.
  intros Hs Hok. assert (Hs' := Hs). destruct Hs' as (Hd & He & _). assert (Hvf := elem_ok_vf _ _ Hd Hok).
  destruct Hok as [Hn Hr]. set (d := s_dom s) in *.
  assert (Hincl : incl (dims e) (ddims d)).
  { intros q Hq. destruct (dims_val e q Hq) as [x Hx]. destruct (Hr q x Hx) as (b & f & H & _). apply ddims_in. eauto. }
  (* projection on the sliced dimensions *)
  destruct (dom_merge_spec (dims e) [d]) as (qd & Eq & Hdq & Hwq & Hq); auto.
  { simpl. rewrite app_nil_r. apply Hd. } { simpl. rewrite app_nil_r. auto. }
  assert (Hqd : forall q b f, In (q, (b, f)) qd <-> In q (dims e) /\ In (q, (b, f)) d).
  { intros q b f. rewrite Hq. split.
    - intros (H1 & d' & [<-|[]] & H2). auto.
    - intros [H1 H2]. split; auto. exists d. simpl. auto. }
  assert (Hb : in_box qd (concat [e])).
  { simpl. rewrite app_nil_r. apply in_box_of_vf; [split; auto; rewrite Hdq; tauto|].
    intros q b f H. apply Hqd in H as [H1 H2]. eauto. }
  unfold span_slice_elem, dom_select. fold d. rewrite Eq. cbn [rbind].
  destruct (contains_spec_box qd [e] (proj1 Hwq) (proj1 Hb)) as (r & Ec & Hcr). rewrite Ec, (proj2 Hcr Hb). cbn [rbind].
  rewrite distance_values by auto. cbn [rbind]. simpl concat. rewrite app_nil_r.
  set (v := map (fun p => (fst p, vf e (fst p) - fst (snd p))) qd).
  assert (Hdv : dims v = dims e) by (unfold v, dims at 1; rewrite map_map; exact Hdq).
  assert (Hgv : forall q b f, In (q, (b, f)) d -> In q (dims e) -> get q v = Ok (vf e q - b)).
  { intros q b f Hi Hqe. apply get_spec; [rewrite Hdv; auto|]. unfold v. apply in_map_iff. exists (q, (b, f)). split; auto.
    apply Hqd. auto. }
  unfold span_slice_vec. fold d. destruct (extents_spec d Hd) as (ex & Ex & Hdex & Hwex & Hex). rewrite Ex. cbn [rbind].
  assert (Hbel : vec_below v ex = Ok true).
  { unfold vec_below. rewrite (map_res_in _ (fun _ => true)).
    - cbn [rbind]. f_equal. apply forallb_forall. intros x Hx. apply in_map_iff in Hx as (? & <- & _). reflexivity.
    - intros q Hqv. rewrite Hdv in Hqv. assert (Hqd' := Hincl q Hqv). apply ddims_in in Hqd' as (b & f & Hi).
      rewrite (Hgv q b f Hi Hqv). cbn [rbind]. assert (Hge : get q ex = Ok (f - b)) by (apply get_spec; [apply Hwex | apply Hex; auto]).
      rewrite Hge. cbn [rbind]. f_equal. specialize (Hvf q b f Hi Hqv). lia. }
  rewrite Hbel. cbn [rbind]. rewrite Hdv.
  assert (Hsl : map_res (slicer_vec v) (ddims d) = Ok (slicers_of d e)).
  { unfold slicers_of, ddims. assert (G : forall l, incl l d -> map_res (slicer_vec v) (map fst l) =
       Ok (map (fun p => if has_dim (dims e) (fst p) then Fixed (vf e (fst p) - fst (snd p)) else Full) l)).
    { induction l as [|[q [b f]] l IH]; intros Hl; [reflexivity|]. cbn [map_res map fst snd].
      unfold slicer_vec at 1. rewrite has_dim_tags, Hdv. destruct (has_dim (dims e) q) eqn:E.
      - rewrite (Hgv q b f); [|apply Hl; now left | now apply has_dim_spec]. cbn [rbind]. rewrite IH; [reflexivity|].
        intros p Hp. apply Hl. now right.
      - cbn [rbind]. rewrite IH; [reflexivity|]. intros p Hp. apply Hl. now right. }
    apply G. apply incl_refl. }
  rewrite Hsl. cbn [rbind]. unfold submdspan.
  assert (Hext : m_ext (s_md s) = map ext1 d) by exact He.
  rewrite Hext, slicers_of_ok by exact Hvf. cbn [rbind]. rewrite (select_left d e Hd). cbn [rbind].
  set (m := mk_mdspan _ _ _). exists m.
  assert (Hlw := left_dims_wf d e Hd).
  assert (Hmext : m_ext m = map ext1 (left_dims d e)) by (unfold m; cbn [m_ext]; apply sub_ext_of).
  assert (Hstr : str s = map_strides (m_lay (s_md s)) (map ext1 d)) by (unfold str; now rewrite Hext).
  assert (Hsl' := str_length s Hs). assert (Hsn := str_nonneg s Hs).
  assert (Hne : nonempty (mk_span m (left_dims d e)) -> nonempty s).
  { unfold nonempty. cbn [s_md]. rewrite Hmext, Hext, !Forall_map, !Forall_forall. intros H [q [b f]] Hi.
    destruct (in_dec Nat.eq_dec q (dims e)) as [Hqe|Hqe].
    - specialize (Hvf q b f Hi Hqe). unfold ext1. simpl. lia.
    - apply H. apply left_dims_in. auto. }
  split; [now apply span_of_mdspan_ok|]. split.
  - split; [exact Hlw|]. split; [exact Hmext|]. cbn [s_md s_dom m_lay m]. rewrite <- Hstr. split; [|split].
    + apply sub_strides_length. exact Hsl'.
    + now apply sub_strides_nonneg.
    + intros Hp. assert (Hn' : nonempty s) by (apply Hne; unfold nonempty; cbn [s_md]; exact Hp).
      destruct (span_offsets s Hs Hn') as [Hm _]. rewrite Hext in Hm. fold m. rewrite Hmext.
      assert (G := sub_max d e (str s) Hsl' Hsn). lia.
  - intros Hp. assert (Hn' := Hne Hp). split; auto. intros X. destruct (span_offsets s Hs Hn') as [_ Ho].
    unfold loc at 1. unfold str at 1. cbn [s_md s_dom m_lay m_ptr map_strides m]. rewrite <- Hext, Ho.
    + fold (str s). rewrite <- Z.add_assoc, sub_dot by exact Hsl'. reflexivity.
    + rewrite Hext. unfold nonempty in Hn'. rewrite Hext in Hn'. revert Hvf Hn'. clear. unfold in_rng, slicers_of.
      induction d as [|[q [b f]] d IH]; intros Hvf Hn'; simpl; constructor.
      * inversion Hn'; subst. destruct (has_dim (dims e) q) eqn:E; simpl; [|unfold ext1 in *; simpl in *; lia].
        apply has_dim_spec in E. specialize (Hvf q b f (or_introl eq_refl) E). unfold ext1. simpl. lia.
      * apply IH; [intros; apply Hvf; auto; now right | now inversion Hn'].
Qed.

(** ** By sub-domain *)
Definition sub_of (o : domain) (p : tag * (Z * Z)) : option (tag * (Z * Z)) := find (fun r => Nat.eqb (fst r) (fst p)) o.
Lemma sub_of_some o p r : sub_of o p = Some r -> In r o /\ fst r = fst p.
Proof. intros H. apply find_some in H as [H1 H2]. apply Nat.eqb_eq in H2. auto. Qed.
Lemma sub_of_none o p : sub_of o p = None -> ~ In (fst p) (ddims o).
Proof.
  intros H Hi. apply in_map_iff in Hi as (r & E & Hr). assert (G := find_none _ _ H r Hr). simpl in G. apply Nat.eqb_neq in G. auto.
Qed.
Lemma sub_of_in o q b f p : NoDup (ddims o) -> In (q, (b, f)) o -> fst p = q -> sub_of o p = Some (q, (b, f)).
Proof.
  intros Hn Hi Hp. destruct (sub_of o p) as [[q' [b' f']]|] eqn:E.
  - apply sub_of_some in E as [E1 E2]. simpl in E2. rewrite Hp in E2. subst q'.
    destruct (dom_fun o q b f b' f' Hn Hi E1); subst. reflexivity.
  - exfalso. apply (sub_of_none o p E). rewrite Hp. apply ddims_in. eauto.
Qed.
Lemma override_unfold d o : override d o = map (fun p => match sub_of o p with Some r => (fst p, snd r) | None => p end) d.
Proof. reflexivity. Qed.
Lemma override_dims d o : ddims (override d o) = ddims d.
Proof. rewrite override_unfold. unfold ddims. rewrite map_map. apply map_ext. intros p. destruct (sub_of o p); reflexivity. Qed.
Lemma override_in d o q b f : NoDup (ddims d) -> NoDup (ddims o) ->
  In (q, (b, f)) (override d o) <-> (In q (ddims d) /\ In (q, (b, f)) o) \/ (In (q, (b, f)) d /\ ~ In q (ddims o)).
Proof.
  intros Hd Ho. rewrite override_unfold, in_map_iff. split.
  - intros ([q' [b' f']] & E & Hi). destruct (sub_of o (q', (b', f'))) as [r|] eqn:Es.
    + apply sub_of_some in Es as [E1 E2]. simpl in E2. injection E as -> E. left. split; [apply ddims_in; eauto|].
      destruct r as [q2 [b2 f2]]. simpl in *. subst. now injection E as -> ->.
    + injection E as -> -> ->. right. split; auto. apply (sub_of_none o _ Es).
  - intros [[Hq Hi]|[Hi Hq]].
    + apply ddims_in in Hq as (b' & f' & Hq). exists (q, (b', f')). split; auto.
      rewrite (sub_of_in o q b f (q, (b', f')) Ho Hi eq_refl). reflexivity.
    + exists (q, (b, f)). split; auto. destruct (sub_of o (q, (b, f))) as [r|] eqn:Es; auto.
      apply sub_of_some in Es as [E1 E2]. exfalso. apply Hq. simpl in E2. rewrite <- E2. now apply in_map.
Qed.
Definition dslicers (d o : domain) : list slicer :=
  map (fun p => match sub_of o p with
                | Some r => Pair (fst (snd r) - fst (snd p)) (snd (snd r) - fst (snd p))
                | None => Full end) d.
Lemma dsub_ext d o : sub_ext (map ext1 d) (dslicers d o) = map ext1 (override d o).
Proof.
  rewrite override_unfold. induction d as [|p d IH]; [reflexivity|]. cbn [map dslicers]. destruct (sub_of o p) as [r|]; cbn [sub_ext].
  - f_equal; [unfold ext1; simpl; ring | exact IH].
  - f_equal. exact IH.
Qed.
Lemma dsub_str d o st : length st = length d -> sub_strides st (dslicers d o) = st.
Proof.
  revert st. induction d as [|p d IH]; intros [|s st] Hl; try discriminate; [reflexivity|]. cbn [map dslicers sub_strides].
  cbn [length] in Hl. destruct (sub_of o p); f_equal; apply IH; lia.
Qed.
Lemma dsub_dot d o X st : length st = length d ->
  dot (map first_of (dslicers d o)) st + dot (map (fun p => X (fst p) - fst (snd p)) (override d o)) st =
  dot (map (fun p => X (fst p) - fst (snd p)) d) st.
Proof.
  rewrite override_unfold. revert st. induction d as [|p d IH]; intros [|s st] Hl; try discriminate; [reflexivity|].
  cbn [length] in Hl. specialize (IH st ltac:(lia)). cbn [map dslicers dot]. rewrite <- IH. unfold dslicers.
  destruct (sub_of o p) as [r|] eqn:E; cbn [first_of fst snd]; ring.
Qed.
Lemma dsub_max d o st : length st = length d -> Forall (fun x => 0 <= x) st ->
  Forall (fun p => ext1 (match sub_of o p with Some r => (fst p, snd r) | None => p end) <= ext1 p) d ->
  max_offset (map ext1 (override d o)) st <= max_offset (map ext1 d) st.
Proof.
  rewrite override_unfold. revert st. induction d as [|p d IH]; intros [|s st] Hl Hs Hf; try discriminate.
  inversion Hs; inversion Hf; subst. cbn [length] in Hl. specialize (IH st ltac:(lia) H2 H6). cbn [map max_offset]. nia.
Qed.

Lemma slicer_dom_ok d o q b f : dom_wf d -> dom_ok d o -> In (q, (b, f)) d ->
  slicer_dom o d q = Ok (match sub_of o (q, (b, f)) with
                         | Some r => Pair (fst (snd r) - b) (snd (snd r) - b) | None => Full end).
Proof.
  intros Hd (Ho & Hincl & Hin) Hi. unfold slicer_dom. rewrite has_dim_tags.
  destruct (sub_of o (q, (b, f))) as [[q' [b' f']]|] eqn:Es.
  - apply sub_of_some in Es as [E1 E2]. simpl in E2. subst q'.
    assert (Hq : In q (ddims o)) by (apply ddims_in; eauto). rewrite (proj2 (has_dim_spec _ _) Hq).
    assert (S1 : forall e x y, dom_wf e -> In (q, (x, y)) e -> dom_select [q] e = Ok [(q, (x, y))]).
    { intros e x y He Hx. destruct (dom_merge_spec [q] [e]) as (r & Er & Hdr & Hwr & Hr); auto.
      - simpl. rewrite app_nil_r. apply He.
      - repeat constructor. simpl. tauto.
      - simpl. rewrite app_nil_r. intros t [<-|[]]. apply ddims_in. eauto.
      - unfold dom_select. rewrite Er. f_equal. apply dom_eq_list; auto; [apply Hwr|].
        intros q1 x1 f1 H1. apply Hr in H1 as ([<-|[]] & e' & [<-|[]] & H1).
        destruct (dom_fun e q x1 f1 x y (proj1 He) H1 Hx); subst. now left. }
    rewrite (S1 o b' f' Ho E1). cbn [rbind]. rewrite (S1 d b f Hd Hi). cbn [rbind].
    assert (G : forall x, get q [(q, x)] = Ok x).
    { intros x. apply get_spec; [repeat constructor; simpl; tauto | now left]. }
    unfold front, dom_begin, back. cbn [map fst snd]. rewrite !G. cbn [rbind].
    destruct (Hin q b f b' f' Hi E1) as [I1 I2]. assert (W := dom_wf_at d q b f Hd Hi). assert (W' := dom_wf_at o q b' f' Ho E1).
    do 2 f_equal; mlia.
  - assert (Hq := sub_of_none o _ Es). simpl in Hq. destruct (has_dim (ddims o) q) eqn:E; auto.
    apply has_dim_spec in E. contradiction.
Qed.
Lemma restrict_override d o : dom_wf d -> dom_ok d o -> restrict_with d o = Ok (override d o) /\ dom_wf (override d o).
Proof.
  intros Hd (Ho & Hincl & Hin). destruct (restrict_with_full d o Hd Ho Hincl Hin) as (r & E & Hw & Hdr & Hr & _).
  assert (Er : r = override d o).
  { apply dom_eq_list; [rewrite override_dims; auto | apply Hw|]. intros q x f Hi. apply override_in; [apply Hd | apply Ho |]. assert (Hq : In q (ddims d)) by (rewrite <- Hdr; apply ddims_in; eauto).
    apply Hr in Hi. tauto. }
  subst r. auto.
Qed.
Lemma slice_dom_ok s o : span_wf s -> dom_ok (s_dom s) o ->
  exists m, span_slice_dom s o = Ok (mk_span m (override (s_dom s) o)) /\
    span_wf (mk_span m (override (s_dom s) o)) /\
    (nonempty (mk_span m (override (s_dom s) o)) -> nonempty s /\
     forall X, loc (mk_span m (override (s_dom s) o)) X = loc s X).
Proof.
  intros Hs Hok. assert (Hs' := Hs). destruct Hs' as (Hd & He & _). set (d := s_dom s) in *.
  destruct (restrict_override d o Hd Hok) as [Er Hwr]. assert (Hok' := Hok). destruct Hok' as (Ho & Hincl & Hin).
  destruct (dom_merge_spec (ddims o) [d]) as (qd & Eq & Hdq & Hwq & Hq); auto.
  { simpl. rewrite app_nil_r. apply Hd. } { apply Ho. } { simpl. rewrite app_nil_r. auto. }
  assert (Hqd : forall q b f, In (q, (b, f)) qd <-> In q (ddims o) /\ In (q, (b, f)) d).
  { intros q b f. rewrite Hq. split.
    - intros (H1 & d' & [<-|[]] & H2). auto.
    - intros [H1 H2]. split; auto. exists d. simpl. auto. }
  unfold span_slice_dom, dom_select. fold d. rewrite Eq. cbn [rbind].
  assert (Df : dims (front o) = ddims o) by apply dims_dom_begin.
  assert (Db : dims (back o) = ddims o) by apply dims_back.
  destruct (contains_spec_box qd [front o]) as (c1 & Ec1 & Hc1); [apply Hwq | simpl; rewrite app_nil_r; split; rewrite Df; [apply Ho | rewrite Hdq; tauto]|].
  destruct (contains_spec_box qd [back o]) as (c2 & Ec2 & Hc2); [apply Hwq | simpl; rewrite app_nil_r; split; rewrite Db; [apply Ho | rewrite Hdq; tauto]|].
  rewrite Ec1. cbn [rbind]. rewrite Ec2. cbn [rbind].
  assert (Hcond : dom_empty o || (c1 && c2) = true).
  { destruct (Z.eq_dec (box_count o) 0) as [Hz|Hz].
    - unfold dom_empty. rewrite dom_size_mod by auto. rewrite Hz. reflexivity.
    - apply orb_true_iff. right. apply andb_true_iff. split; [apply Hc1 | apply Hc2]; simpl; rewrite app_nil_r;
        (split; [split; [rewrite ?Df, ?Db; apply Ho | rewrite ?Df, ?Db, Hdq; tauto]|]);
        intros q b f Hi; apply Hqd in Hi as [Hqo Hi]; apply ddims_in in Hqo as (b' & f' & Hio);
        destruct (Hin q b f b' f' Hi Hio) as [I1 I2]; assert (Hlt := nonempty_lt o q b' f' Ho Hz Hio).
      + exists b'. split; [apply val_dom_begin; eauto | lia].
      + exists (f' - 1). split; [|lia]. assert (W := dom_wf_at o q b' f' Ho Hio). unfold val_of, back. apply in_map_iff. exists (q, (b', f')).
        split; auto. simpl. f_equal. mlia. }
  rewrite Hcond.
  assert (Hsl : map_res (slicer_dom o d) (ddims d) = Ok (dslicers d o)).
  { unfold dslicers, ddims. assert (G : forall l, incl l d -> map_res (slicer_dom o d) (map fst l) =
       Ok (map (fun p => match sub_of o p with Some r => Pair (fst (snd r) - fst (snd p)) (snd (snd r) - fst (snd p)) | None => Full end) l)).
    { induction l as [|[q [b f]] l IH]; intros Hl; [reflexivity|]. cbn [map_res map fst snd].
      rewrite (slicer_dom_ok d o q b f Hd Hok) by (apply Hl; now left). cbn [rbind]. rewrite IH; [reflexivity|].
      intros p Hp. apply Hl. now right. }
    apply G. apply incl_refl. }
  rewrite Hsl. cbn [rbind]. unfold submdspan. assert (Hext : m_ext (s_md s) = map ext1 d) by exact He.
  assert (Hsok : slicers_ok (map ext1 d) (dslicers d o) = true).
  { assert (G : forall l, incl l d -> slicers_ok (map ext1 l) (dslicers l o) = true); [|apply G, incl_refl].
    induction l as [|[q [b f]] l IH]; intros Hl; [reflexivity|]. cbn [map dslicers slicers_ok fst snd].
    unfold dslicers in IH. rewrite IH by (intros p Hp; apply Hl; now right). rewrite andb_true_r.
    destruct (sub_of o (q, (b, f))) as [[q' [b' f']]|] eqn:Es; auto. apply sub_of_some in Es as [E1 E2]. simpl in E2. subst q'.
    destruct (Hin q b f b' f' (Hl _ (or_introl eq_refl)) E1). assert (W := dom_wf_at o q b' f' Ho E1). unfold ext1. simpl. lia. }
  rewrite Hext, Hsok. cbn [rbind]. rewrite Er. cbn [rbind].
  set (m := mk_mdspan _ _ _). exists m.
  assert (Hmext : m_ext m = map ext1 (override d o)) by (unfold m; cbn [m_ext]; apply dsub_ext).
  assert (Hstr : str s = map_strides (m_lay (s_md s)) (map ext1 d)) by (unfold str; now rewrite Hext).
  assert (Hsl' := str_length s Hs). assert (Hsn := str_nonneg s Hs). fold d in Hsl'.
  assert (Hmono : Forall (fun p => ext1 (match sub_of o p with Some r => (fst p, snd r) | None => p end) <= ext1 p) d).
  { apply Forall_forall. intros [q [b f]] Hi. destruct (sub_of o (q, (b, f))) as [[q' [b' f']]|] eqn:Es; [|lia].
    apply sub_of_some in Es as [E1 E2]. simpl in E2. subst q'. destruct (Hin q b f b' f' Hi E1). unfold ext1. simpl. lia. }
  assert (Hne : nonempty (mk_span m (override d o)) -> nonempty s).
  { unfold nonempty. cbn [s_md]. rewrite Hmext, Hext, override_unfold, map_map, !Forall_map. revert Hmono. clear.
    rewrite !Forall_forall. intros H1 H2 p Hp. specialize (H1 p Hp). specialize (H2 p Hp). simpl in *. lia. }
  split; [now apply span_of_mdspan_ok|]. split.
  - split; [exact Hwr|]. split; [exact Hmext|]. cbn [s_md s_dom m_lay m]. rewrite <- Hstr, dsub_str by exact Hsl'. split; [|split].
    + rewrite Hsl'. rewrite override_unfold. now rewrite map_length.
    + exact Hsn.
    + intros Hp. assert (Hn' : nonempty s) by (apply Hne; unfold nonempty; cbn [s_md]; rewrite Hmext in *; exact Hp).
      destruct (span_offsets s Hs Hn') as [Hm _]. rewrite Hext in Hm. fold m. rewrite Hmext.
      assert (G := dsub_max d o (str s) Hsl' Hsn Hmono). lia.
  - intros Hp. assert (Hn' := Hne Hp). split; auto. intros X. destruct (span_offsets s Hs Hn') as [_ Hoff].
    unfold loc at 1. unfold str at 1. cbn [s_md s_dom m_lay m_ptr map_strides m]. rewrite <- Hext, Hoff.
    + fold (str s). rewrite dsub_str by exact Hsl'. rewrite <- Z.add_assoc, dsub_dot by exact Hsl'. reflexivity.
    + rewrite Hext. unfold nonempty in Hn', Hp. rewrite Hext in Hn'. cbn [s_md] in Hp. rewrite Hmext in Hp.
      assert (G : forall l, incl l d -> Forall (fun n => 0 < n) (map ext1 l) -> Forall (fun n => 0 < n) (map ext1 (override l o)) ->
         in_rng (map ext1 l) (map first_of (dslicers l o))); [|apply (G d (incl_refl _)); auto].
      unfold in_rng. induction l as [|[q [b f]] l IH]; intros Hl H1 H2; [constructor|]. rewrite override_unfold in *.
      cbn [map dslicers] in *. inversion H1; inversion H2; subst. constructor; [|apply IH; auto; intros p Hp'; apply Hl; now right].
      destruct (sub_of o (q, (b, f))) as [[q' [b' f']]|] eqn:Es; cbn [first_of fst snd]; [|lia].
      apply sub_of_some in Es as [E1 E2]. simpl in E2. subst q'. destruct (Hin q b f b' f' (Hl _ (or_introl eq_refl)) E1).
      unfold ext1 in *. simpl in *. lia.
Qed.

(** ** Sequences of slicings *)
Lemma vf_app_l a b q : NoDup (dims (a ++ b)) -> In q (dims a) -> vf (a ++ b) q = vf a q.
Proof.
  intros Hn Hq. destruct (dims_val a q Hq) as [x Hx]. rewrite (vf_val (a ++ b) q x Hn); [|apply in_or_app; auto].
  unfold dims in Hn. rewrite map_app in Hn. apply NoDup_app_inv in Hn as (Hn & _). now rewrite (vf_val a q x Hn).
Qed.
Lemma vf_app_r a b q : NoDup (dims (a ++ b)) -> In q (dims b) -> vf (a ++ b) q = vf b q.
Proof.
  intros Hn Hq. destruct (dims_val b q Hq) as [x Hx]. rewrite (vf_val (a ++ b) q x Hn); [|apply in_or_app; auto].
  unfold dims in Hn. rewrite map_app in Hn. apply NoDup_app_inv in Hn as (_ & Hn & _). now rewrite (vf_val b q x Hn).
Qed.
Lemma dot_ext d (X Y : tag -> Z) st : (forall q, In q (ddims d) -> X q = Y q) ->
  dot (map (fun p => X (fst p) - fst (snd p)) d) st = dot (map (fun p => Y (fst p) - fst (snd p)) d) st.
Proof.
  revert st. induction d as [|[q [b f]] d IH]; intros st H; [reflexivity|]. destruct st; [reflexivity|]. cbn [map dot fst snd].
  rewrite (H q) by now left. rewrite (IH st); [reflexivity|]. intros; apply H; now right.
Qed.
Lemma loc_ext s X Y : (forall q, In q (ddims (s_dom s)) -> X q = Y q) -> loc s X = loc s Y.
Proof. intros H. unfold loc. now rewrite (dot_ext (s_dom s) X Y (str s) H). Qed.

Lemma step_elem d e es : dom_wf d -> elem_ok d e -> in_box (left_dims d e) (concat es) -> in_box d (concat (es ++ [e])).
Proof.
  intros Hd Hok Hb. assert (Hvf := elem_ok_vf _ _ Hd Hok). destruct Hok as [Hn Hr]. assert (Hb' := in_box_vf _ _ Hb). destruct Hb as [[Hne Hse] _].
  rewrite concat_app. simpl. rewrite app_nil_r.
  assert (Hdisj : forall q, In q (dims (concat es)) -> ~ In q (dims e)).
  { intros q Hq. apply Hse in Hq. apply ddims_in in Hq as (b & f & Hq). now apply left_dims_in in Hq. }
  assert (Hnd : NoDup (dims (concat es ++ e))).
  { unfold dims. rewrite map_app. apply NoDup_app_intro; auto. }
  apply in_box_of_vf.
  - split; auto. intros q. unfold dims. rewrite map_app, in_app_iff. fold (dims (concat es)). fold (dims e). rewrite Hse. split.
    + intros [H|H]; apply ddims_in; [apply ddims_in in H as (b & f & H); apply left_dims_in in H as [H _]; eauto|].
      destruct (dims_val e q H) as [x Hx]. destruct (Hr q x Hx) as (b & f & Hi & _). eauto.
    + intros H. destruct (in_dec Nat.eq_dec q (dims e)); auto. left. apply ddims_in in H as (b & f & H).
      apply ddims_in. exists b, f. apply left_dims_in. auto.
  - intros q b f Hi. destruct (in_dec Nat.eq_dec q (dims e)) as [Hq|Hq].
    + rewrite vf_app_r by auto. eauto.
    + assert (Hl : In (q, (b, f)) (left_dims d e)) by (apply left_dims_in; auto).
      rewrite vf_app_l; [eauto | auto|]. apply Hse, ddims_in. eauto.
Qed.
Lemma step_dom d o e : dom_wf d -> dom_ok d o -> in_box (override d o) e -> in_box d e.
Proof.
  intros Hd (Ho & Hincl & Hin) [[Hne Hse] Hb]. rewrite override_dims in Hse. split; [split; auto|].
  intros q b f Hi. destruct (in_dec Nat.eq_dec q (ddims o)) as [Hq|Hq].
  - apply ddims_in in Hq as (b' & f' & Hq). destruct (Hb q b' f') as (x & Hx & Hxr).
    + apply override_in; [apply Hd | apply Ho|]. left. split; auto. apply ddims_in. eauto.
    + exists x. split; auto. destruct (Hin q b f b' f' Hi Hq). lia.
  - apply Hb. apply override_in; [apply Hd | apply Ho|]. auto.
Qed.
Lemma slices_compose sls : forall s, span_wf s -> slices_ok (s_dom s) sls ->
  exists s', run_slices s sls = Ok s' /\ span_wf s' /\ s_dom s' = left_domain (s_dom s) sls /\
    forall es, in_box (s_dom s') (concat es) ->
      in_box (s_dom s) (concat (es ++ fixed_elems sls)) /\
      exists a, span_access s' es = Ok a /\ span_access s (es ++ fixed_elems sls) = Ok a.
Proof.
  induction sls as [|[e|o] sls IH]; intros s Hs Hok; cbn [run_slices slices_ok left_domain fixed_elems apply_slice] in *.
  - exists s. split; [reflexivity|]. split; [auto|]. split; [reflexivity|]. intros es Hb. rewrite app_nil_r. split; auto.
    exists (loc s (vf (concat es))). split; now apply access_loc.
  - destruct Hok as [Hok Hrest]. destruct (slice_elem_ok s e Hs Hok) as (m & E & Hw & Hl). rewrite E. cbn [rbind].
    set (s1 := mk_span m (left_dims (s_dom s) e)) in *.
    destruct (IH s1 Hw Hrest) as (s' & E' & Hw' & Hd' & Ha). exists s'. split; auto. split; auto. split; auto.
    intros es Hb. destruct (Ha es Hb) as (Hb1 & a & A1 & A2). cbn [s_dom s1] in Hb1.
    assert (Hb2 := step_elem (s_dom s) e (es ++ fixed_elems sls) (proj1 Hs) Hok Hb1). rewrite <- app_assoc in Hb2.
    split; auto. exists a. split; auto. rewrite access_loc by auto. rewrite access_loc in A2 by auto. rewrite <- A2. f_equal.
    destruct (Hl (in_box_nonempty s1 _ Hw Hb1)) as [_ Hloc]. fold s1 in Hloc. rewrite Hloc. apply loc_ext. intros q Hq.
    rewrite app_assoc, concat_app. simpl. rewrite app_nil_r. assert (Hnd := proj1 (proj1 Hb2)). rewrite app_assoc, concat_app in Hnd. simpl in Hnd. rewrite app_nil_r in Hnd.
    unfold put. destruct (has_dim (dims e) q) eqn:Eh.
    + apply has_dim_spec in Eh. now rewrite vf_app_r.
    + rewrite vf_app_l; auto. apply (proj2 (proj1 Hb1)). apply ddims_in in Hq as (b & f & Hq). apply ddims_in. exists b, f.
      apply left_dims_in. split; auto. intros Hc. apply has_dim_spec in Hc. congruence.
  - destruct Hok as [Hok Hrest]. destruct (slice_dom_ok s o Hs Hok) as (m & E & Hw & Hl). rewrite E. cbn [rbind].
    set (s1 := mk_span m (override (s_dom s) o)) in *.
    destruct (IH s1 Hw Hrest) as (s' & E' & Hw' & Hd' & Ha). exists s'. split; auto. split; auto. split; auto.
    intros es Hb. destruct (Ha es Hb) as (Hb1 & a & A1 & A2). cbn [s_dom s1] in Hb1.
    assert (Hb2 := step_dom (s_dom s) o _ (proj1 Hs) Hok Hb1). split; auto. exists a. split; auto.
    rewrite access_loc by auto. rewrite access_loc in A2 by auto. rewrite <- A2. f_equal.
    destruct (Hl (in_box_nonempty s1 _ Hw Hb1)) as [_ Hloc]. fold s1 in Hloc. now rewrite Hloc.
Qed.
