(** Chunks of two dimensions allocated row by row. *)
From Verif Require Import Machine MachineProofs TypeSeqModel TaggedModel TaggedSpec TaggedProofs
  DomainModel DomainSpec DomainProofs ListAux DomainProofs2 SpanModel SpanSpec SpanProofs StorageProofs KokkosModel KokkosSpec KokkosProofs
  ReduceModel ReduceSpec ReduceProofs ParModel ParSpec ParProofs ParProofs2 ProgramModel.

(** A kernel never hits undefined behaviour for a schedule if it does not for another one. *)
Lemma kernel_defined {V} (ps : list (prog V)) c m : kernel ps c m <> Undef.
Proof. unfold kernel. destruct (interleave_calls c ps m) as [ps' m']. destruct (forallb is_ret ps'); discriminate. Qed.
Lemma deepcopy_defined {V} dst src g1 g2 (m : memory V) : (exists c m', parallel_deepcopy dst src g1 g2 c m = Ok m') ->
  forall c, parallel_deepcopy dst src g1 g2 c m <> Undef.
Proof.
  unfold parallel_deepcopy, view_copy. intros (c & m' & E) c'. destruct (dom_eq _ _) as [[]| |]; cbn [rbind] in *; try discriminate.
  destruct (list_eqb _ _); [|discriminate]. destruct (map_res _ _); cbn [rbind] in *; try discriminate. apply kernel_defined.
Qed.
Lemma for_each_run {V} d (f : tagged -> res (prog V)) (P : tagged -> prog V) (R W : tagged -> Z -> Prop) m : dom_wf d ->
  (forall e, In e (trace d) -> f e = Ok (P e)) ->
  (forall e, In e (trace d) -> within (R e) (W e) (P e)) ->
  (forall e e' a, In e (trace d) -> In e' (trace d) -> e <> e' -> W e a -> ~ R e' a /\ ~ W e' a) ->
  (exists c m', parallel_for_each d f c m = Ok m') /\
  (forall c m', parallel_for_each d f c m = Ok m' ->
    (forall e a, In e (trace d) -> W e a -> m' a = run_alone (P e) m a) /\
    (forall a, (forall e, In e (trace d) -> ~ W e a) -> m' a = m a)) /\
  (forall c, parallel_for_each d f c m <> Undef).
Proof.
  intros Hw Hf Hin Hr. unfold parallel_for_each. rewrite (for_each_calls_ok d f P) by auto. cbn [rbind].
  split; [apply kernel_ends|]. split; [|intros c; apply kernel_defined].
  intros c m' E. apply (items (trace d) P R W m) with (sched := c); auto using trace_nodup.
Qed.

Lemma index_inj ny i j i' j' : 0 <= j < ny -> 0 <= j' < ny -> i * ny + j = i' * ny + j' -> i = i' /\ j = j'.
Proof. intros Hj Hj' E. assert (i = i') by nia. subst. lia. Qed.
Lemma index_range nx ny i j : 0 <= i < nx -> 0 <= j < ny -> 0 <= i * ny + j < nx * ny.
Proof. intros. nia. Qed.
Section Grid.
Variables (tx ty : tag).
Hypothesis Hxy : tx <> ty.
Definition el (i j : Z) : tagged := [(tx, i); (ty, j)].
Definition dom2 (x0 x1 y0 y1 : Z) : domain := [(tx, (x0, x1)); (ty, (y0, y1))].
Lemma nodup2 : NoDup [tx; ty].
Proof. repeat constructor; cbn; intuition. Qed.
Lemma dom2_wf x0 x1 y0 y1 : 0 <= x0 <= x1 -> x1 < 2 ^ 63 -> 0 <= y0 <= y1 -> y1 < 2 ^ 63 -> dom_wf (dom2 x0 x1 y0 y1).
Proof. intros. split; [exact nodup2|]. repeat constructor; cbn [fst snd]; lia. Qed.
Lemma trace_dom2 x0 x1 y0 y1 : trace (dom2 x0 x1 y0 y1) =
  flat_map (fun i => map (fun j => el (x0 + i) (y0 + j)) (zrange (y1 - y0))) (zrange (x1 - x0)).
Proof.
  unfold trace, dom2. cbn [map box fst snd]. generalize (zrange (y1 - y0)). intros l'. induction (zrange (x1 - x0)) as [|i l IH]; cbn [flat_map]; auto.
  rewrite map_app. f_equal; [|exact IH]. rewrite map_map. clear IH. induction l' as [|j l' IH]; cbn [flat_map map app]; auto.
  f_equal. exact IH.
Qed.
Lemma in_trace2 x0 x1 y0 y1 e : In e (trace (dom2 x0 x1 y0 y1)) <-> exists i j, e = el i j /\ x0 <= i < x1 /\ y0 <= j < y1.
Proof.
  rewrite trace_dom2, in_flat_map. split.
  - intros (i & Hi & H). apply in_zrange in Hi. apply in_map_iff in H as (j & <- & Hj). apply in_zrange in Hj.
    exists (x0 + i), (y0 + j). split; [reflexivity|lia].
  - intros (i & j & -> & Hi & Hj). exists (i - x0). split; [apply in_zrange; lia|]. apply in_map_iff. exists (j - y0).
    split; [f_equal; lia|apply in_zrange; lia].
Qed.
Lemma el_inj i j i' j' : el i j = el i' j' -> i = i' /\ j = j'.
Proof. intros E. injection E. auto. Qed.
Lemma box2 x0 x1 y0 y1 i j : in_box (dom2 x0 x1 y0 y1) (el i j) <-> x0 <= i < x1 /\ y0 <= j < y1.
Proof.
  split.
  - intros [_ H]. destruct (H tx x0 x1) as (x & Hx & Hr); [now left|]. destruct (H ty y0 y1) as (y & Hy & Hr'); [right; now left|].
    unfold val_of, el in *. cbn [In] in *.
    destruct Hx as [Hx|[Hx|[]]]; [|exfalso; apply Hxy; congruence]. destruct Hy as [Hy|[Hy|[]]]; [exfalso; apply Hxy; congruence|].
    injection Hx as <-. injection Hy as <-. auto.
  - intros [Hi Hj]. split; [split; [exact nodup2|intros q; reflexivity]|]. intros q b f [E|[E|[]]]; injection E as <- <- <-.
    + exists i. split; auto. now left.
    + exists j. split; auto. right. now left.
Qed.

(** The chunk of [nx] times [ny] elements allocated at [p]. *)
Definition grid (p nx ny : Z) : span := mk_span (mk_mdspan p LRight [nx; ny]) (dom2 0 nx 0 ny).
Definition sized (nx ny : Z) : Prop := 0 < nx < 2 ^ 63 /\ 0 < ny < 2 ^ 63 /\ nx * ny < 2 ^ 64.
Lemma count2 x0 x1 y0 y1 : box_count (dom2 x0 x1 y0 y1) = (x1 - x0) * (y1 - y0).
Proof. unfold box_count, dom2. cbn [fold_right fst snd]. lia. Qed.
Lemma grid_dom p nx ny : s_dom (grid p nx ny) = dom2 0 nx 0 ny. Proof. reflexivity. Qed.
Lemma grid_wf p nx ny : sized nx ny -> span_wf (grid p nx ny).
Proof.
  intros (Hx & Hy & Hn). split; [apply dom2_wf; lia|]. split.
  - cbn [s_md grid m_ext s_dom dom2 map fst snd]. now rewrite !Z.sub_0_r.
  - cbn [s_md grid m_lay]. rewrite grid_dom, count2. lia.
Qed.
Lemma grid_alloc p nx ny : sized nx ny -> span_of_ptr LRight p (dom2 0 nx 0 ny) = Ok (grid p nx ny).
Proof.
  intros (Hx & Hy & Hn). unfold span_of_ptr. destruct (extents_values (dom2 0 nx 0 ny)) as (ex & E & Ev); [apply dom2_wf; lia|].
  rewrite E. cbn [rbind]. rewrite Ev. unfold grid, dom2. cbn [map fst snd]. rewrite !Z.sub_0_r.
  unfold u64. rewrite !Z.mod_small by (unfold two64; lia). reflexivity.
Qed.
Lemma grid_loc p nx ny X : sized nx ny -> loc (grid p nx ny) X = p + X tx * ny + X ty.
Proof.
  intros (Hx & Hy & Hn). unfold loc, str, grid, dom2. cbn [s_md s_dom m_ptr m_lay m_ext map_strides strides_right map dot fst snd fold_right].
  unfold u64_mul, u64. rewrite Z.mul_1_r, Z.mod_small by (unfold two64; lia). lia.
Qed.
Lemma vf_x i j : vf (el i j) tx = i.
Proof. unfold vf, get, el. cbn [dims map fst ts_rank]. rewrite Nat.eqb_refl. reflexivity. Qed.
Lemma vf_y i j : vf (el i j) ty = j.
Proof.
  apply vf_val; [exact nodup2|]. right. now left.
Qed.
Lemma grid_at p nx ny i j es : sized nx ny -> concat es = el i j -> 0 <= i < nx -> 0 <= j < ny ->
  span_access (grid p nx ny) es = Ok (p + i * ny + j).
Proof.
  intros Hs Ec Hi Hj. rewrite access_loc; [|now apply grid_wf|rewrite Ec; apply box2; lia].
  rewrite Ec, grid_loc by auto. now rewrite vf_x, vf_y.
Qed.
Lemma grid_cell p nx ny a : sized nx ny -> cell_of (grid p nx ny) a <-> exists i j, 0 <= i < nx /\ 0 <= j < ny /\ a = p + i * ny + j.
Proof.
  intros Hs. assert (Hw := grid_wf p nx ny Hs). split.
  - intros (e & Hb & E). destruct (in_trace_of _ e Hw Hb) as (e' & Ht & _ & E').
    rewrite grid_dom in Ht. apply in_trace2 in Ht as (i & j & -> & Hi & Hj). exists i, j. split; [lia|]. split; [lia|].
    unfold at_cell in E'. rewrite grid_loc, vf_x, vf_y in E' by auto. congruence.
  - intros (i & j & Hi & Hj & ->). exists (el i j). split; [apply box2; lia|]. apply grid_at; auto.
Qed.
Lemma grid_inj p nx ny : sized nx ny -> no_aliasing (grid p nx ny).
Proof.
  intros Hs e1 e2 a B1 B2 E1 E2. assert (Hw := grid_wf p nx ny Hs).
  destruct (in_trace_of _ e1 Hw B1) as (f1 & T1 & S1 & A1). destruct (in_trace_of _ e2 Hw B2) as (f2 & T2 & S2 & A2).
  rewrite E1 in A1. rewrite E2 in A2. rewrite grid_dom in *. apply in_trace2 in T1 as (i & j & -> & Hi & Hj). apply in_trace2 in T2 as (i' & j' & -> & Hi' & Hj').
  unfold at_cell in *. rewrite grid_loc, vf_x, vf_y in A1, A2 by auto.
  assert (E : a = p + i * ny + j) by congruence. assert (E' : a = p + i' * ny + j') by congruence.
  destruct (index_inj ny i j i' j') as [-> ->]; try lia.
  intros q x. rewrite (S1 q x). now rewrite (S2 q x).
Qed.

(** The value of a grid at a point, in a memory. *)
Definition val {V} (m : memory V) (p ny : Z) (i j : Z) : V := m (p + i * ny + j).
Lemma grid_read {V} (m : memory V) p nx ny i j : sized nx ny -> 0 <= i < nx -> 0 <= j < ny ->
  span_read m (grid p nx ny) [el i j] = Ok (val m p ny i j).
Proof. intros Hs Hi Hj. unfold span_read. rewrite (grid_at p nx ny i j); auto. Qed.

(** What a chunk of two dimensions contains. *)
Lemma contents_trace {V} (m : memory V) s (v : tagged -> V) : dom_wf (s_dom s) ->
  (forall e, In e (trace (s_dom s)) -> span_read m s [e] = Ok (v e)) -> contents m s = Ok (map v (trace (s_dom s))).
Proof.
  intros Hw H. unfold contents. rewrite host_for_each_trace by auto. cbn [rbind]. unfold id.
  assert (G : forall l acc, (forall e, In e l -> span_read m s [e] = Ok (v e)) ->
    fold_left (fun (s0 : res (list V)) e => l0 <- s0 ;; v0 <- span_read m s [e] ;; Ok (l0 ++ [v0])) l (Ok acc) = Ok (acc ++ map v l)).
  { induction l as [|e l IH]; intros acc Hl; cbn [fold_left map]; [now rewrite app_nil_r|].
    cbn [rbind]. rewrite Hl by now left. cbn [rbind]. rewrite IH by (intros; apply Hl; now right). now rewrite <- app_assoc. }
  apply G. exact H.
Qed.
Definition listed {V} (x0 x1 y0 y1 : Z) (v : Z -> Z -> V) : list V :=
  flat_map (fun i => map (fun j => v (x0 + i) (y0 + j)) (zrange (y1 - y0))) (zrange (x1 - x0)).
Lemma contents2 {V} (m : memory V) s x0 x1 y0 y1 (v : Z -> Z -> V) : s_dom s = dom2 x0 x1 y0 y1 -> dom_wf (s_dom s) ->
  (forall i j, x0 <= i < x1 -> y0 <= j < y1 -> span_read m s [el i j] = Ok (v i j)) ->
  contents m s = Ok (listed x0 x1 y0 y1 v).
Proof.
  intros Hd Hw H. rewrite (contents_trace m s (fun e => v (vf e tx) (vf e ty))); auto.
  - f_equal. rewrite Hd, trace_dom2. unfold listed. rewrite flat_map_concat_map, concat_map, map_map, flat_map_concat_map. f_equal.
    apply map_ext. intros i. rewrite map_map. apply map_ext. intros j. now rewrite vf_x, vf_y.
  - intros e He. rewrite Hd in He. apply in_trace2 in He as (i & j & -> & Hi & Hj). rewrite vf_x, vf_y. now apply H.
Qed.
Lemma listed_ext {V} x0 x1 y0 y1 (v w : Z -> Z -> V) : (forall i j, x0 <= i < x1 -> y0 <= j < y1 -> v i j = w i j) ->
  listed x0 x1 y0 y1 v = listed x0 x1 y0 y1 w.
Proof.
  intros H. unfold listed. rewrite !flat_map_concat_map. f_equal. apply map_ext_in. intros i Hi. apply in_zrange in Hi. apply map_ext_in. intros j Hj. apply in_zrange in Hj.
  apply H; lia.
Qed.

(** One grid copied to another one. *)
Lemma grid_copy {V} (m : memory V) p p' nx ny g1 g2 : sized nx ny -> (p' + nx * ny <= p \/ p + nx * ny <= p') ->
  length g1 = 4%nat -> length g2 = 4%nat ->
  (exists c m', parallel_deepcopy (grid p nx ny) (grid p' nx ny) g1 g2 c m = Ok m') /\
  (forall c m', parallel_deepcopy (grid p nx ny) (grid p' nx ny) g1 g2 c m = Ok m' ->
    (forall i j, 0 <= i < nx -> 0 <= j < ny -> val m' p ny i j = val m p' ny i j) /\
    (forall a, ~ (p <= a < p + nx * ny) -> m' a = m a)) /\
  (forall c, parallel_deepcopy (grid p nx ny) (grid p' nx ny) g1 g2 c m <> Undef).
Proof.
  intros Hs Hd L1 L2. destruct (deepcopy_ok (grid p nx ny) (grid p' nx ny) g1 g2 m) as [He Hp]; auto using grid_wf, grid_inj.
  - rewrite grid_dom, count2. destruct Hs as (? & ? & ?). lia.
  - split; [exact L1|]. cbn. lia.
  - split; [exact L2|]. cbn. lia.
  - left. intros a (e & B1 & E1) H2. assert (C1 : cell_of (grid p nx ny) a) by (exists e; auto).
    apply grid_cell in C1 as (i & j & Hi & Hj & Ea); auto. apply grid_cell in H2 as (i' & j' & Hi' & Hj' & Ea'); auto.
    assert (A := index_range nx ny i j Hi Hj). assert (A' := index_range nx ny i' j' Hi' Hj'). lia.
  - split; [exact He|]. split; [|now apply deepcopy_defined]. intros c m' E. destruct (Hp c m' E) as [H1 H2]. split.
    + intros i j Hi Hj. specialize (H1 (el i j)). rewrite !grid_read in H1 by auto.
      assert (Hb : in_box (s_dom (grid p nx ny)) (el i j)) by (apply box2; lia). apply H1 in Hb. congruence.
    + intros a Ha. apply H2. intros C. apply grid_cell in C as (i & j & Hi & Hj & ->); auto.
      assert (A := index_range nx ny i j Hi Hj). lia.
Qed.
End Grid.
