(** Addresses of the elements of a chunk, and writes through slices. *)
From Coq Require Import Sorting.Sorted Permutation.
From Verif Require Import Machine MachineProofs ListAux TypeSeqModel TypeSeqProofs TaggedModel TaggedSpec TaggedProofs
  DomainModel DomainSpec DomainProofs DomainProofs2 StridedModel StridedSpec StridedProofs
  SparseModel SparseSpec SparseProofs SpanModel SpanSpec SpanProofs.
Open Scope Z_scope.

Lemma zrange_nat (n : nat) : zrange (Z.of_nat n) = map Z.of_nat (seq 0 n).
Proof. unfold zrange. now rewrite Nat2Z.id. Qed.
Lemma seq_from k n : seq k n = map (Nat.add k) (seq 0 n).
Proof.
  revert k. induction n as [|n IH]; intros k; [reflexivity|]. cbn [seq map]. f_equal; [lia|].
  rewrite IH, (IH 1%nat), map_map. apply map_ext. intros; lia.
Qed.
Lemma zrange_app a b : 0 <= a -> 0 <= b -> zrange (a + b) = zrange a ++ map (Z.add a) (zrange b).
Proof.
  intros Ha Hb. rewrite <- (Z2Nat.id a Ha), <- (Z2Nat.id b Hb). set (x := Z.to_nat a). set (y := Z.to_nat b).
  rewrite <- Nat2Z.inj_add, !zrange_nat, seq_app, map_app, map_map. f_equal. rewrite Nat.add_0_l.
  rewrite seq_from, map_map. apply map_ext. intros; lia.
Qed.
Lemma zrange_mul n P : 0 <= n -> 0 <= P -> zrange (n * P) = flat_map (fun i => map (Z.add (i * P)) (zrange P)) (zrange n).
Proof.
  intros Hn HP. rewrite <- (Z2Nat.id n Hn). generalize (Z.to_nat n). clear n Hn. intros n. induction n as [|n IH].
  - reflexivity.
  - replace (Z.of_nat (S n)) with (Z.of_nat n + 1) by lia. rewrite (zrange_app (Z.of_nat n) 1) by lia.
    rewrite flat_map_app, <- IH. rewrite Z.mul_add_distr_r, Z.mul_1_l, zrange_app by nia. f_equal.
    change (zrange 1) with [0]. cbn [map flat_map]. rewrite app_nil_r. now rewrite Z.add_0_r.
Qed.
Lemma prod_nonneg ext : Forall (fun n => 0 <= n) ext -> 0 <= prod ext.
Proof. induction 1 as [|n r Hn Hr IH]; simpl; [lia | unfold prod in *; cbn [fold_right]; nia]. Qed.
Lemma flat_map_ext' {A B} (f g : A -> list B) l : (forall x, f x = g x) -> flat_map f l = flat_map g l.
Proof. intros H. induction l as [|x l IH]; simpl; [auto|]. now rewrite H, IH. Qed.
Lemma map_flat_map {A B C} (g : B -> C) (f : A -> list B) l : map g (flat_map f l) = flat_map (fun x => map g (f x)) l.
Proof. induction l as [|x l IH]; simpl; [auto|]. now rewrite map_app, IH. Qed.
Lemma box_dot_right ext : Forall (fun n => 0 <= n) ext ->
  map (fun is => dot is (zstr_right ext)) (box ext) = zrange (prod ext).
Proof.
  induction 1 as [|n r Hn Hr IH]; [reflexivity|].
  change (box (n :: r)) with (flat_map (fun i => map (cons i) (box r)) (zrange n)).
  change (prod (n :: r)) with (n * prod r). rewrite zrange_mul by (auto using prod_nonneg).
  rewrite map_flat_map. apply flat_map_ext'. intros i. rewrite map_map. cbn [zstr_right dot]. rewrite <- IH, map_map. reflexivity.
Qed.

Lemma dot_left_cons i is n r : dot (i :: is) (zstr_left 1 (n :: r)) = i + n * dot is (zstr_left 1 r).
Proof. rewrite zstr_left_cons. cbn [dot]. rewrite dot_scale. ring. Qed.
Lemma dot_left_inj ext : forall is js, in_rng ext is -> in_rng ext js ->
  dot is (zstr_left 1 ext) = dot js (zstr_left 1 ext) -> is = js.
Proof.
  induction ext as [|n r IH]; intros is js Hi Hj E.
  - inversion Hi; inversion Hj; auto.
  - inversion Hi as [|? i ? is' J1 J2]; inversion Hj as [|? j ? js' J3 J4]; subst. rewrite !dot_left_cons in E.
    assert (dot is' (zstr_left 1 r) = dot js' (zstr_left 1 r)) by nia. f_equal; [nia | apply IH; auto].
Qed.
Lemma dot_left_surj ext : Forall (fun n => 0 <= n) ext -> forall k, 0 <= k < prod ext ->
  exists is, in_rng ext is /\ dot is (zstr_left 1 ext) = k.
Proof.
  induction 1 as [|n r Hn Hr IH]; intros k Hk.
  - unfold prod in Hk. simpl in Hk. exists []. split; [constructor | simpl; lia].
  - change (prod (n :: r)) with (n * prod r) in Hk. assert (0 < n) by (destruct (Z.eq_dec n 0) as [->|]; lia).
    destruct (IH (k / n)) as (is & Hi & E).
    { split; [apply Z.div_pos; lia | apply Z.div_lt_upper_bound; lia]. }
    exists (k mod n :: is). split; [constructor; auto; apply Z.mod_pos_bound; lia|].
    rewrite dot_left_cons, E. assert (G := Z.div_mod k n). lia.
Qed.
Lemma dot_right_inj ext : forall is js, in_rng ext is -> in_rng ext js ->
  dot is (zstr_right ext) = dot js (zstr_right ext) -> is = js.
Proof.
  induction ext as [|n r IH]; intros is js Hi Hj E.
  - inversion Hi; inversion Hj; auto.
  - inversion Hi as [|? i ? is' J1 J2]; inversion Hj as [|? j ? js' J3 J4]; subst. cbn [zstr_right dot] in E.
    assert (B1 := dot_right_bound r is' J2). assert (B2 := dot_right_bound r js' J4).
    assert (i = j) by nia. subst j. f_equal. apply IH; auto. lia.
Qed.
Lemma dot_right_surj ext : Forall (fun n => 0 <= n) ext -> forall k, 0 <= k < prod ext ->
  exists is, in_rng ext is /\ dot is (zstr_right ext) = k.
Proof.
  induction 1 as [|n r Hn Hr IH]; intros k Hk.
  - unfold prod in Hk. simpl in Hk. exists []. split; [constructor | simpl; lia].
  - change (prod (n :: r)) with (n * prod r) in Hk. assert (HP := prod_nonneg r Hr). assert (0 < prod r) by nia.
    destruct (IH (k mod prod r)) as (is & Hi & E); [apply Z.mod_pos_bound; lia|].
    exists (k / prod r :: is). assert (G := Z.div_mod k (prod r)). split.
    + constructor; auto. split; [apply Z.div_pos; lia | apply Z.div_lt_upper_bound; nia].
    + cbn [zstr_right dot]. lia.
Qed.

(** Spans obtained from an allocation. *)
Lemma ext_nonneg d : dom_wf d -> Forall (fun n => 0 <= n) (map ext1 d).
Proof. intros [_ H]. apply Forall_map. eapply Forall_impl; [|exact H]. intros p Hp. unfold ext1. cbn beta in Hp. lia. Qed.
Lemma span_of_ptr_ok l ptr d : dom_wf d -> span_of_ptr l ptr d = Ok (mk_span (mk_mdspan ptr l (map ext1 d)) d).
Proof.
  intros Hd. unfold span_of_ptr. destruct (extents_values d Hd) as (ex & -> & E). cbn [rbind]. rewrite E.
  change (map (fun p => snd (snd p) - fst (snd p)) d) with (map ext1 d). now rewrite map_u64_ext.
Qed.
Definition canonical (l : layout) : Prop := l = LRight \/ l = LLeft.
Lemma alloc_wf l ptr d : dom_wf d -> box_count d < 2 ^ 64 -> canonical l -> span_wf (mk_span (mk_mdspan ptr l (map ext1 d)) d).
Proof. intros Hd Hc [-> | ->]; (split; [exact Hd|]; split; [reflexivity | exact Hc]). Qed.
Lemma row_major_dot d X : row_major d X = dot (map (fun p => X (fst p) - fst (snd p)) d) (zstr_right (map ext1 d)).
Proof. induction d as [|[q [b f]] d IH]; [reflexivity|]. cbn [row_major map zstr_right dot fst snd]. now rewrite prod_box, IH. Qed.
Lemma col_major_dot d X : col_major d X = dot (map (fun p => X (fst p) - fst (snd p)) d) (zstr_left 1 (map ext1 d)).
Proof.
  induction d as [|[q [b f]] d IH]; [reflexivity|]. cbn [col_major map fst snd].
  rewrite dot_left_cons, IH. reflexivity.
Qed.
Lemma alloc_str_right ptr d e : dom_wf d -> box_count d < 2 ^ 64 -> in_box d e ->
  str (mk_span (mk_mdspan ptr LRight (map ext1 d)) d) = zstr_right (map ext1 d).
Proof.
  intros Hd Hc Hb. assert (Hn := in_box_nonempty (mk_span (mk_mdspan ptr LRight (map ext1 d)) d) e (alloc_wf _ _ _ Hd Hc (or_introl eq_refl)) Hb).
  unfold str. cbn [s_md m_lay m_ext map_strides]. apply strides_right_exact; [exact Hn | now rewrite prod_box].
Qed.
Lemma alloc_str_left ptr d e : dom_wf d -> box_count d < 2 ^ 64 -> in_box d e ->
  str (mk_span (mk_mdspan ptr LLeft (map ext1 d)) d) = zstr_left 1 (map ext1 d).
Proof.
  intros Hd Hc Hb. assert (Hn := in_box_nonempty (mk_span (mk_mdspan ptr LLeft (map ext1 d)) d) e (alloc_wf _ _ _ Hd Hc (or_intror eq_refl)) Hb).
  unfold str. cbn [s_md m_lay m_ext map_strides]. apply strides_left_exact; [exact Hn | lia | rewrite Z.mul_1_l; now rewrite prod_box].
Qed.
(** The address of every element, given in any order of dimensions and split in any way. *)
Lemma address_exact ptr d : dom_wf d -> box_count d < 2 ^ 64 ->
  exists sr sl, span_of_ptr LRight ptr d = Ok sr /\ span_of_ptr LLeft ptr d = Ok sl /\
  forall es X, in_box d (concat es) -> (forall q, In q (ddims d) -> val_of (concat es) q (X q)) ->
    span_access sr es = Ok (ptr + row_major d X) /\ span_access sl es = Ok (ptr + col_major d X).
Proof.
  intros Hd Hc. eexists. eexists. split; [apply span_of_ptr_ok; auto|]. split; [apply span_of_ptr_ok; auto|].
  intros es X Hb HX.
  assert (E : forall q, In q (ddims d) -> vf (concat es) q = X q) by (intros q Hq; apply vf_val; [apply Hb | auto]).
  split; (rewrite access_loc; [|apply alloc_wf; unfold canonical; auto | exact Hb]); unfold loc; cbn [s_md m_ptr s_dom].
  - rewrite (alloc_str_right ptr d (concat es)) by auto. rewrite row_major_dot. now rewrite (dot_ext d (vf (concat es)) X _ E).
  - rewrite (alloc_str_left ptr d (concat es)) by auto. rewrite col_major_dot. now rewrite (dot_ext d (vf (concat es)) X _ E).
Qed.
Lemma vf_same d e1 e2 : in_box d e1 -> in_box d e2 -> (forall q, In q (ddims d) -> vf e1 q = vf e2 q) -> same_values e1 e2.
Proof.
  intros [[N1 S1] _] [[N2 S2] _] H q x. split; intros Hv.
  - assert (Hq : In q (ddims d)) by (apply S1; eapply val_of_dims; eauto). destruct (dims_val e2 q (proj2 (S2 q) Hq)) as [y Hy].
    rewrite <- (vf_val e1 q x N1 Hv), (H q Hq), (vf_val e2 q y N2 Hy). exact Hy.
  - assert (Hq : In q (ddims d)) by (apply S2; eapply val_of_dims; eauto). destruct (dims_val e1 q (proj2 (S1 q) Hq)) as [y Hy].
    rewrite <- (vf_val e2 q x N2 Hv), <- (H q Hq), (vf_val e1 q y N1 Hy). exact Hy.
Qed.
Lemma same_vf d e1 e2 q : in_box d e1 -> in_box d e2 -> same_values e1 e2 -> In q (ddims d) -> vf e1 q = vf e2 q.
Proof.
  intros [[N1 S1] _] [[N2 S2] _] H Hq. destruct (dims_val e1 q (proj2 (S1 q) Hq)) as [y Hy].
  rewrite (vf_val e1 q y N1 Hy). symmetry. apply vf_val; auto. now apply H.
Qed.
Lemma map_offsets_inj d X Y : map (fun p : tag * (Z * Z) => X (fst p) - fst (snd p)) d = map (fun p => Y (fst p) - fst (snd p)) d ->
  forall q, In q (ddims d) -> X q = Y q.
Proof.
  induction d as [|[t [b f]] d IH]; intros E q Hq; [destruct Hq|]. cbn [map fst snd] in E. injection E as E1 E2.
  destruct Hq as [<-|Hq]; [simpl; lia | auto].
Qed.
Lemma alloc_no_alias l ptr d : dom_wf d -> box_count d < 2 ^ 64 -> canonical l -> no_aliasing (mk_span (mk_mdspan ptr l (map ext1 d)) d).
Proof.
  intros Hd Hc Hl e1 e2 a H1 H2 A1 A2. cbn [s_dom] in *. apply (vf_same d); auto.
  assert (Hw := alloc_wf l ptr d Hd Hc Hl).
  rewrite access_loc in A1, A2 by (simpl; rewrite ?app_nil_r; auto). simpl in A1, A2. rewrite app_nil_r in A1, A2.
  injection A1 as A1. injection A2 as A2. unfold loc in *. cbn [s_md m_ptr s_dom] in *. apply map_offsets_inj.
  assert (R1 := offsets_in_rng d _ (in_box_vf _ _ H1)). assert (R2 := offsets_in_rng d _ (in_box_vf _ _ H2)).
  destruct Hl as [-> | ->].
  - rewrite (alloc_str_right ptr d e1) in * by auto. apply (dot_right_inj (map ext1 d)); auto. lia.
  - rewrite (alloc_str_left ptr d e1) in * by auto. apply (dot_left_inj (map ext1 d)); auto. lia.
Qed.
Lemma list_nth_ext {A} (a b : list A) : (forall k, nth_error a k = nth_error b k) -> a = b.
Proof.
  revert b. induction a as [|x a IH]; intros [|y b] H; auto; try (specialize (H 0%nat); discriminate).
  assert (H0 := H 0%nat). simpl in H0. injection H0 as ->. f_equal. apply IH. intros k. exact (H (S k)).
Qed.
Lemma elem_at_offsets d is : length is = length d -> NoDup (ddims d) ->
  map (fun p => vf (elem_at d is) (fst p) - fst (snd p)) d = is.
Proof.
  intros Hl Hn. apply list_nth_ext. intros k. destruct (nth_error is k) as [i|] eqn:Ei.
  - destruct (nth_error d k) as [[q [b f]]|] eqn:Ed.
    + rewrite nth_error_map, Ed. cbn [option_map fst snd]. f_equal. rewrite (vf_val _ q (b + i)); [lia | rewrite elem_at_dims; auto|].
      unfold val_of, elem_at. apply in_map_iff. exists ((q, (b, f)), i). split; [reflexivity|].
      revert is d Hl Hn Ei Ed. induction k as [|k IH]; intros [|j is] [|p d] Hl Hn Ei Ed; try discriminate; simpl in *.
      * injection Ei as ->. injection Ed as ->. now left.
      * right. apply IH; auto. now inversion Hn.
    + apply nth_error_None in Ed. assert (k < length is)%nat by (apply nth_error_Some; congruence). lia.
  - apply nth_error_None. rewrite map_length. apply nth_error_None in Ei. lia.
Qed.
Lemma in_rng_flip ext is : in_rng ext is <-> Forall2 (fun i n => 0 <= i < n) is ext.
Proof. unfold in_rng. split; intros H; induction H; constructor; auto. Qed.
Lemma in_rng_len ext is : in_rng ext is -> length is = length ext.
Proof. intros H. apply Forall2_len in H. auto. Qed.
Lemma elem_at_box d is : dom_wf d -> in_rng (map ext1 d) is -> in_box d (elem_at d is).
Proof.
  intros Hd Hr. apply (trace_in d _ Hd). unfold trace. apply in_map, in_box_list, in_rng_flip. exact Hr.
Qed.
Lemma alloc_bijection l ptr d : dom_wf d -> box_count d < 2 ^ 64 -> canonical l ->
  exists s, span_of_ptr l ptr d = Ok s /\
    (forall es, in_box d (concat es) -> exists a, span_access s es = Ok a /\ ptr <= a < ptr + dom_size d) /\
    (forall es es' a, in_box d (concat es) -> in_box d (concat es') ->
        span_access s es = Ok a -> span_access s es' = Ok a -> same_values (concat es) (concat es')) /\
    (forall a, ptr <= a < ptr + dom_size d -> exists e, in_box d e /\ span_access s [e] = Ok a).
Proof.
  intros Hd Hc Hl. exists (mk_span (mk_mdspan ptr l (map ext1 d)) d). split; [now apply span_of_ptr_ok|].
  assert (Hw := alloc_wf l ptr d Hd Hc Hl). rewrite dom_size_exact by auto.
  split; [|split].
  - intros es Hb. rewrite access_loc by auto. eexists. split; [reflexivity|]. unfold loc. cbn [s_md m_ptr s_dom].
    assert (R := offsets_in_rng d _ (in_box_vf _ _ Hb)). rewrite <- prod_box. destruct Hl as [-> | ->].
    + rewrite (alloc_str_right ptr d (concat es)) by auto. assert (G := dot_right_bound _ _ R). lia.
    + rewrite (alloc_str_left ptr d (concat es)) by auto. assert (G := dot_left_bound _ _ R). lia.
  - intros es es' a H1 H2 A1 A2. apply (alloc_no_alias l ptr d Hd Hc Hl _ _ a); auto.
    + rewrite access_loc in * by (simpl; rewrite ?app_nil_r; auto). simpl. now rewrite app_nil_r.
    + rewrite access_loc in * by (simpl; rewrite ?app_nil_r; auto). simpl. now rewrite app_nil_r.
  - intros a Ha. rewrite <- prod_box in Ha.
    assert (Hsurj : exists is, in_rng (map ext1 d) is /\ dot is (if match l with LRight => true | _ => false end then zstr_right (map ext1 d) else zstr_left 1 (map ext1 d)) = a - ptr).
    { destruct Hl as [-> | ->]; [apply dot_right_surj | apply dot_left_surj]; auto using ext_nonneg; lia. }
    destruct Hsurj as (is & Hr & E). exists (elem_at d is). assert (Hb := elem_at_box d is Hd Hr). split; auto.
    rewrite access_loc by (auto; simpl; rewrite app_nil_r; auto). simpl. rewrite app_nil_r. unfold loc. cbn [s_md m_ptr s_dom].
    rewrite elem_at_offsets; [|apply in_rng_len in Hr; now rewrite map_length in Hr | apply Hd].
    destruct Hl as [-> | ->]; [rewrite (alloc_str_right ptr d _ Hd Hc Hb) | rewrite (alloc_str_left ptr d _ Hd Hc Hb)]; f_equal; lia.
Qed.

(** layout_right stores the elements in iteration order. *)
Definition collect (e : tagged) (l : list tagged) : list tagged := l ++ [e].
Lemma collect_all l acc : fold_left (fun s e => collect e s) l acc = acc ++ l.
Proof. revert acc. induction l as [|e l IH]; intros acc; [now rewrite app_nil_r|]. cbn [fold_left]. rewrite IH. unfold collect. now rewrite <- app_assoc. Qed.
Lemma iteration_order ptr d : dom_wf d -> box_count d < 2 ^ 64 ->
  exists s l, span_of_ptr LRight ptr d = Ok s /\ host_for_each d (fun e l => l ++ [e]) [] = Ok l /\
    map (fun e => span_access s [e]) l = map (fun k => Ok (ptr + k)) (zrange (dom_size d)).
Proof.
  intros Hd Hc. exists (mk_span (mk_mdspan ptr LRight (map ext1 d)) d), (trace d). split; [now apply span_of_ptr_ok|].
  split. { rewrite host_for_each_trace by auto. f_equal. apply (collect_all (trace d) []). }
  rewrite dom_size_exact, <- prod_box by auto. rewrite <- box_dot_right by auto using ext_nonneg. unfold trace. rewrite !map_map.
  change (map (fun p => snd (snd p) - fst (snd p)) d) with (map ext1 d). apply map_ext_in. intros is Hi.
  apply in_box_list, in_rng_flip in Hi. assert (Hb := elem_at_box d is Hd Hi).
  rewrite access_loc by (simpl; rewrite ?app_nil_r; auto using alloc_wf; apply alloc_wf; unfold canonical; auto). simpl. rewrite app_nil_r. unfold loc. cbn [s_md m_ptr s_dom].
  rewrite elem_at_offsets; [|apply in_rng_len in Hi; now rewrite map_length in Hi | apply Hd].
  rewrite (alloc_str_right ptr d (elem_at d is)) by auto. reflexivity.
Qed.

(** ** Writes through slices *)
Lemma same_values_b_spec a b : NoDup (dims a) -> NoDup (dims b) -> (forall q, In q (dims a) <-> In q (dims b)) ->
  (same_values_b a b = true <-> same_values a b).
Proof.
  intros Na Nb S. unfold same_values_b. rewrite forallb_forall. split.
  - intros H. assert (G : forall q x, val_of a q x -> val_of b q x).
    { intros q x Hv. specialize (H _ Hv). apply existsb_exists in H as ([q' x'] & Hi & E). simpl in E.
      apply andb_true_iff in E as [E1 E2]. apply Nat.eqb_eq in E1. apply Z.eqb_eq in E2. subst. exact Hi. }
    intros q x. split; auto. intros Hv. destruct (dims_val a q) as [y Hy]; [apply S; eapply val_of_dims; eauto|].
    assert (E : y = x) by (eapply (val_of_fun b); eauto). now subst.
  - intros H [q x] Hi. apply existsb_exists. exists (q, x). split; [now apply H|]. simpl. now rewrite Nat.eqb_refl, Z.eqb_refl.
Qed.
Lemma access_same s es es' : span_wf s -> in_box (s_dom s) (concat es) -> in_box (s_dom s) (concat es') ->
  same_values (concat es) (concat es') -> span_access s es = span_access s es'.
Proof.
  intros Hs H1 H2 E. rewrite !access_loc by auto. f_equal. apply loc_ext. intros q Hq. now apply (same_vf (s_dom s)).
Qed.
Lemma access_merge s es : span_wf s -> in_box (s_dom s) (concat es) -> span_access s [concat es] = span_access s es.
Proof.
  intros Hs Hb. apply access_same; auto; simpl; rewrite app_nil_r; auto. intros q x; tauto.
Qed.
Lemma write_once {V} (m : memory V) s sls es v : span_wf s -> no_aliasing s -> slices_ok (s_dom s) sls ->
  in_box (left_domain (s_dom s) sls) (concat es) ->
  exists s' m', run_slices s sls = Ok s' /\ span_write m s' es v = Ok m' /\
    in_box (s_dom s) (concat (es ++ fixed_elems sls)) /\
    (forall es2, in_box (s_dom s) (concat es2) ->
       span_read m' s es2 = if same_values_b (concat es2) (concat (es ++ fixed_elems sls)) then Ok v else span_read m s es2) /\
    (forall a, (forall e, in_box (s_dom s) e -> span_access s [e] <> Ok a) -> m' a = m a).
Proof.
  intros Hs Hna Hok Hb. destruct (slices_compose sls s Hs Hok) as (s' & E & Hw & Hd & Ha). rewrite <- Hd in Hb.
  destruct (Ha es Hb) as (Hb' & a & A1 & A2). exists s', (mem_write m a v). split; auto. split.
  { unfold span_write. rewrite A1. reflexivity. } split; auto. split.
  - intros es2 H2. unfold span_read. rewrite (access_loc s es2) by auto. cbn [rbind]. unfold mem_write.
    set (a2 := loc s (vf (concat es2))).
    assert (A3 : span_access s [concat es2] = Ok a2) by (rewrite access_merge, access_loc by auto; reflexivity).
    assert (A4 : span_access s [concat (es ++ fixed_elems sls)] = Ok a) by (rewrite access_merge by auto; auto).
    assert (Hiff : same_values_b (concat es2) (concat (es ++ fixed_elems sls)) = true <-> a2 = a).
    { rewrite same_values_b_spec; [|apply H2 | apply Hb' | intros q; rewrite (proj2 (proj1 H2) q), (proj2 (proj1 Hb') q); tauto]. split.
      - intros Hsv. assert (G := access_same s es2 _ Hs H2 Hb' Hsv). rewrite access_loc, A2 in G by auto. now injection G.
      - intros ->. apply (Hna _ _ a); auto. }
    destruct (Z.eqb_spec a2 a) as [E1|E1].
    + rewrite (proj2 Hiff E1). reflexivity.
    + destruct (same_values_b _ _); auto. exfalso. apply E1. now apply Hiff.
  - intros x Hx. unfold mem_write. destruct (Z.eqb_spec x a) as [->|]; auto. exfalso. apply (Hx _ Hb').
    rewrite access_merge by auto. exact A2.
Qed.
Lemma writes_refine {V} s (ws : list (list slice * list tagged * V)) : span_wf s -> no_aliasing s ->
  Forall (write_ok (s_dom s)) ws -> forall m : memory V,
  exists m', run_writes m s ws = Ok m' /\
    (forall es, in_box (s_dom s) (concat es) ->
       span_read m' s es = match latest (rev (map target ws)) (concat es) with Some v => Ok v | None => span_read m s es end) /\
    (forall a, (forall e, in_box (s_dom s) e -> span_access s [e] <> Ok a) -> m' a = m a).
Proof.
  intros Hs Hna. induction ws as [|[[sls es] v] ws IH]; intros Hok m.
  - exists m. split; [reflexivity|]. split; auto.
  - inversion Hok as [|? ? [H1 H2] Hr]; subst. cbn [fst snd] in *.
    destruct (write_once m s sls es v Hs Hna H1 H2) as (s' & m1 & E1 & E2 & Hb & R1 & F1).
    destruct (IH Hr m1) as (m' & E & R & F). exists m'. cbn [run_writes]. rewrite E1. cbn [rbind]. rewrite E2. cbn [rbind].
    split; auto. split.
    + intros es2 Hb2. rewrite R by auto. cbn [map rev]. assert (G : forall (l : list (tagged * V)) x, latest (l ++ [x]) (concat es2) =
        match latest l (concat es2) with Some y => Some y | None => latest [x] (concat es2) end).
      { induction l as [|[e y] l IHl]; intros x; [reflexivity|]. cbn [app latest]. rewrite IHl. now destruct (same_values_b (concat es2) e). }
      rewrite G. destruct (latest (rev (map target ws)) (concat es2)); auto. rewrite R1 by auto.
      unfold target at 1. cbn [latest fst snd]. now destruct (same_values_b _ _).
    + intros a Ha. rewrite F by auto. now apply F1.
Qed.
Lemma slice_no_aliasing s sls s' : span_wf s -> no_aliasing s -> slices_ok (s_dom s) sls -> run_slices s sls = Ok s' ->
  span_wf s' /\ no_aliasing s'.
Proof.
  intros Hs Hna Hok E. destruct (slices_compose sls s Hs Hok) as (s1 & E1 & Hw & Hd & Ha). rewrite E in E1. injection E1 as <-.
  split; auto. intros e1 e2 a H1 H2 A1 A2.
  destruct (Ha [e1]) as (B1 & a1 & C1 & D1); [simpl; now rewrite app_nil_r|].
  destruct (Ha [e2]) as (B2 & a2 & C2 & D2); [simpl; now rewrite app_nil_r|].
  rewrite A1 in C1. injection C1 as <-. rewrite A2 in C2. injection C2 as <-.
  assert (S := Hna _ _ a B1 B2 ltac:(now rewrite access_merge) ltac:(now rewrite access_merge)).
  rewrite !concat_app in S. simpl in S. rewrite !app_nil_r in S. rewrite concat_app in B1, B2. simpl in B1, B2. rewrite app_nil_r in B1, B2.
  apply (vf_same (s_dom s')); auto. intros q Hq.
  assert (Q1 : In q (dims e1)) by (apply (proj2 (proj1 H1)); auto). assert (Q2 : In q (dims e2)) by (apply (proj2 (proj1 H2)); auto).
  rewrite <- (vf_app_l e1 (concat (fixed_elems sls))), <- (vf_app_l e2 (concat (fixed_elems sls))); auto; try apply B1; try apply B2.
  apply (same_vf (s_dom s)); auto. apply (proj2 (proj1 B1)). unfold dims. rewrite map_app. apply in_or_app. now left.
Qed.

(** ** Strided and sparse supports *)
Lemma md_right_order ptr ext : Forall (fun n => 0 <= n) ext -> prod ext < 2 ^ 64 ->
  map (md_access (mk_mdspan ptr LRight ext)) (box ext) = map (fun k => Ok (ptr + k)) (zrange (prod ext)).
Proof.
  intros Hn Hp. rewrite <- box_dot_right by auto. rewrite map_map. apply map_ext_in. intros is Hi.
  apply in_box_list, in_rng_flip in Hi. unfold md_access. cbn [m_ext m_ptr m_lay map_offset].
  rewrite (proj2 (all_in_range_spec ext is) Hi). f_equal. f_equal. rewrite off_right_mod; [|now apply in_rng_len | lia].
  rewrite Z.mul_0_l, Z.add_0_l. apply Z.mod_small. assert (G := dot_right_bound ext is Hi). lia.
Qed.
Definition s_count (d : sdomain) : Z := fold_right (fun p acc => sn (snd p) * acc) 1 d.
Lemma s_count_prod d : s_count d = prod (map (fun p => sn (snd p)) d).
Proof. induction d as [|p d IH]; [reflexivity|]. unfold s_count, prod in *. cbn [fold_right map]. now rewrite IH. Qed.
Lemma fold_mul_mod {A} (g : A -> Z) d : (forall p, In p d -> 0 <= g p) -> forall acc, 0 <= acc < 2 ^ 64 ->
  fold_left (fun acc p => u64_mul acc (g p)) d acc = (acc * fold_right (fun p acc => g p * acc) 1 d) mod 2 ^ 64.
Proof.
  induction d as [|p d IH]; intros Hg acc Ha; cbn [fold_left fold_right].
  - rewrite Z.mul_1_r, Z.mod_small; auto.
  - rewrite IH; [|intros; apply Hg; now right | unfold u64_mul, u64; change two64 with (2 ^ 64); apply Z.mod_pos_bound; lia].
    unfold u64_mul, u64. change two64 with (2 ^ 64). rewrite Z.mul_mod_idemp_l by lia. f_equal. ring.
Qed.
Lemma strided_order ptr d : sdom_wf d -> Forall (fun p => 0 < sn (snd p)) d -> fold_right (fun p acc => sn (snd p) * acc) 1 d < 2 ^ 64 ->
  exists l, s_host_for_each d (fun e l => l ++ [e]) [] = Ok l /\
    map (fun e => strided_access (strided_span_mdspan LRight ptr d) d [e]) l = map (fun k => Ok (ptr + k)) (zrange (s_size d)).
Proof.
  intros Hd Hpos Hc. exists (map (s_elem d) (box (map (fun p => sn (snd p)) d))). split.
  { rewrite s_for_each_trace by auto. f_equal. apply (collect_all _ []). }
  assert (Hn : Forall (fun n => 0 <= n) (map (fun p => sn (snd p)) d)).
  { apply Forall_map. eapply Forall_impl; [|exact Hpos]. intros; cbn beta in *; lia. }
  assert (Hu : map (fun p => u64 (sn (snd p))) d = map (fun p => sn (snd p)) d).
  { apply map_ext_in. intros p Hp. destruct Hd as [_ Hd]. rewrite Forall_forall in Hd. specialize (Hd p Hp). unfold sdim_wf in Hd. mlia. }
  assert (Hsz : s_size d = prod (map (fun p => sn (snd p)) d)).
  { unfold s_size. rewrite <- s_count_prod.
    assert (E : forall acc, fold_left (fun acc p => u64_mul acc (u64 (sn (snd p)))) d acc = fold_left (fun acc p => u64_mul acc (sn (snd p))) d acc).
    { clear -Hd. destruct Hd as [_ Hd]. induction Hd as [|p d Hp Hd IH]; intros acc; [reflexivity|]. cbn [fold_left]. rewrite IH.
      f_equal. f_equal. unfold sdim_wf in Hp. mlia. }
    rewrite E. rewrite (fold_mul_mod (fun p => sn (snd p))); [|intros p Hp; rewrite Forall_forall in Hpos; specialize (Hpos p Hp); lia | lia].
    rewrite Z.mul_1_l. apply Z.mod_small. fold (s_count d). rewrite s_count_prod. assert (G := prod_nonneg _ Hn). rewrite <- s_count_prod. rewrite <- s_count_prod in G. split; auto. }
  rewrite Hsz. rewrite <- md_right_order by (auto; rewrite <- s_count_prod; auto). rewrite !map_map. apply map_ext_in. intros is Hi.
  apply in_box_list in Hi.
  assert (Hr : s_in_range d is).
  { revert Hi. clear. revert is. induction d as [|p d IH]; intros is H; inversion H; subst; constructor; auto. apply IH; auto. }
  unfold strided_access, strided_span_mdspan. rewrite Hu.
  destruct (s_distance_roundtrip d is Hd Hr) as (e & E1 & Hpr & E2). rewrite s_at_ok in E1 by auto. injection E1 as <-.
  assert (Hdim : dims (s_elem d is) = sdims d) by (apply s_elem_dims, in_range_length; auto).
  assert (Helem : elem_wf (s_elem d is)).
  { split; [rewrite Hdim; apply Hd|]. apply Forall_forall. intros x Hx. destruct Hd as [_ Hd]. revert Hpr Hx. unfold in_progressions.
    revert Hd. clear. intros Hd Hp. induction Hp as [|p y d' ys (k & Hk & ->) Hp IH]; [contradiction|]. inversion Hd as [|? ? W Hd']; subst.
    intros [<-|Hx]; [|auto]. unfold sdim_wf in W. unfold is_u64. change two64 with (2 ^ 64). nia. }
  destruct (s_contains_exact d [s_elem d is] Hd Hpos) as (r & e & Ec & De & Se & Hr').
  { simpl. rewrite app_nil_r. exact Helem. } { simpl. rewrite app_nil_r, Hdim. tauto. }
  rewrite Ec. cbn [rbind]. assert (Ee : e = s_elem d is).
  { apply tagged_eq_list; [congruence | rewrite De; apply Hd|]. intros q x. specialize (Se q x). simpl in Se. rewrite app_nil_r in Se. apply Se. }
  subst e. rewrite (proj2 Hr' Hpr). rewrite E2. cbn [rbind].
  replace (values (combine (sdims d) is)) with is; [reflexivity|].
  apply in_range_length in Hr. unfold values. assert (Hl : length is = length (sdims d)) by (unfold sdims; now rewrite map_length).
  revert Hl. clear. generalize (sdims d). clear d. induction is as [|i is IH]; intros [|t l] H; try discriminate; [reflexivity|]. simpl. f_equal. apply IH. simpl in H. lia.
Qed.
Lemma sp_count_prod d : sp_count d = prod (map (fun p => Z.of_nat (length (snd p))) d).
Proof. induction d as [|p d IH]; [reflexivity|]. unfold sp_count, prod in *. cbn [fold_right map]. now rewrite IH. Qed.
Lemma values_combine (ts : type_seq) (is : list Z) : length is = length ts -> values (combine ts is) = is.
Proof.
  unfold values. revert ts. induction is as [|i is IH]; intros [|t l] H; try discriminate; [reflexivity|]. simpl. f_equal. apply IH. simpl in H. lia.
Qed.
Lemma sparse_order ptr d : spdom_wf d -> sp_count d < 2 ^ 64 ->
  exists l, sp_host_for_each d (fun e l => l ++ [e]) [] = Ok l /\
    map (fun e => sparse_access (sparse_span_mdspan LRight ptr d) d [e]) l = map (fun k => Ok (ptr + k)) (zrange (sp_size d)).
Proof.
  intros Hd Hc. exists (map (sp_elem d) (box (map (fun p => Z.of_nat (length (snd p))) d))).
  assert (Hrng : forall is, Forall2 (fun i n => 0 <= i < n) is (map (fun p => Z.of_nat (length (snd p))) d) -> sp_in_range d is).
  { clear. intros is. revert is. induction d as [|p d IH]; intros is H; inversion H; subst; constructor; auto. apply IH; auto. }
  assert (Hlen : forall is, sp_in_range d is -> length is = length d) by (intros is H; apply Forall2_len in H; auto).
  split.
  { unfold sp_host_for_each. rewrite (for_each_serial_trace _ _ (sp_elem d)).
    - f_equal. apply (collect_all _ []).
    - intros is Hi. apply Hrng in Hi. rewrite values_combine; [now apply sp_at_ok|]. unfold spdims. rewrite map_length. auto. }
  assert (Hn : Forall (fun n => 0 <= n) (map (fun p : tag * list Z => Z.of_nat (length (snd p))) d)).
  { apply Forall_map, Forall_forall. intros; lia. }
  rewrite sp_size_exact by auto. rewrite sp_count_prod. rewrite <- md_right_order by (auto; rewrite <- sp_count_prod; auto).
  rewrite !map_map. apply map_ext_in. intros is Hi. apply in_box_list in Hi. apply Hrng in Hi.
  unfold sparse_access, sparse_span_mdspan.
  destruct (sp_distance_roundtrip d is Hd Hi) as (e & E1 & Hin & E2). rewrite sp_at_ok in E1 by auto. injection E1 as <-.
  assert (Hdim : dims (sp_elem d is) = spdims d) by (apply sp_elem_dims; auto).
  destruct (sp_contains_exact d [sp_elem d is]) as (r & e & Ec & De & Se & Hr').
  { apply Hd. } { destruct Hd as [_ Hd]. eapply Forall_impl; [|exact Hd]. intros; now apply lt_le_sorted. }
  { simpl. rewrite app_nil_r, Hdim. apply Hd. } { simpl. rewrite app_nil_r, Hdim. tauto. }
  rewrite Ec. cbn [rbind]. assert (Ee : e = sp_elem d is).
  { apply tagged_eq_list; [congruence | rewrite De; apply Hd|]. intros q x. specialize (Se q x). simpl in Se. rewrite app_nil_r in Se. apply Se. }
  subst e. rewrite (proj2 Hr' Hin), E2. cbn [rbind]. rewrite values_combine; [reflexivity|]. unfold spdims. rewrite map_length. auto.
Qed.
Lemma access_by_vector s v : span_wf s -> offset_in_range (s_dom s) v ->
  exists e a, dom_at (s_dom s) v = Ok e /\ in_box (s_dom s) e /\ span_access s [e] = Ok a /\ span_access_vec s [v] = Ok a.
Proof.
  intros Hs Hv. assert (Hd := proj1 Hs). destruct (at_then_distance _ v Hd Hv) as (e & w & E1 & Hb & E2 & E3 & Hw).
  exists e. rewrite access_loc by (auto; simpl; now rewrite app_nil_r). eexists. split; auto. split; auto. split; [reflexivity|].
  rewrite <- access_loc by (auto; simpl; now rewrite app_nil_r). unfold span_access. rewrite E2. cbn [rbind]. rewrite E3. cbn [rbind].
  unfold span_access_vec. destruct Hv as [[Nv Sv] _].
  rewrite sum_sizes_spec. simpl. rewrite app_nil_r.
  assert (L : length (s_dom s) = length v) by (apply elem_of_dims_length; [apply Hd | split; auto]). rewrite L, Nat.eqb_refl.
  destruct (construct_spec (ddims (s_dom s)) [v]) as (r & Er & Dr & Vr); [simpl; now rewrite app_nil_r | simpl; rewrite app_nil_r; intros q Hq; now apply Sv|].
  rewrite Er. cbn [rbind]. do 2 f_equal. destruct (distance_spec (s_dom s) [e] Hd) as (w' & Ew' & Dw & _); [simpl; rewrite app_nil_r; apply Hb|].
  rewrite E3 in Ew'. injection Ew' as <-. apply tagged_eq_list; [congruence | rewrite Dr; apply Hd|].
  intros q x Hx. apply Hw. apply Vr in Hx as [_ Hx]. simpl in Hx. now rewrite app_nil_r in Hx.
Qed.
Lemma chunk_slices_no_aliasing l ptr d : dom_wf d -> box_count d < 2 ^ 64 -> canonical l ->
  forall s sls s', span_of_ptr l ptr d = Ok s -> slices_ok d sls -> run_slices s sls = Ok s' -> span_wf s' /\ no_aliasing s'.
Proof.
  intros Hd Hc Hl s sls s' E Hok Er. rewrite span_of_ptr_ok in E by auto. injection E as <-.
  eapply slice_no_aliasing; eauto using alloc_wf, alloc_no_alias.
Qed.
