(** Proofs that chunks refine independent arrays. *)
From Verif Require Import Machine MachineProofs ListAux TypeSeqModel TaggedModel TaggedSpec TaggedProofs DomainModel DomainSpec DomainProofs DomainProofs2
  SpanModel SpanSpec SpanProofs StorageProofs HeapModel HeapSpec.

(** * Places of the elements *)
Definition span0 (d : domain) : span := mk_span (mk_mdspan 0 LRight (map ext1 d)) d.
Definition off (d : domain) (e : tagged) : Z := loc (span0 d) (vf e).
Lemma fits_count sz d : fits sz d -> 0 <= box_count d < 2 ^ 64.
Proof. intros (H1 & H2 & H3). assert (H := box_count_nonneg d H2). split; auto. nia. Qed.
Lemma span0_ok d sz : fits sz d -> span_of_ptr LRight 0 d = Ok (span0 d).
Proof. intros F. apply span_of_ptr_ok; apply F. Qed.
Lemma span0_wf d sz : fits sz d -> span_wf (span0 d).
Proof. intros F. apply alloc_wf; [apply F | apply (fits_count sz d F) | now left]. Qed.
Lemma span0_access d sz es : fits sz d -> in_box d (concat es) -> span_access (span0 d) es = Ok (off d (concat es)).
Proof. intros F Hb. apply access_loc; [now apply span0_wf with sz | exact Hb]. Qed.
Lemma off_range d sz e : fits sz d -> in_box d e -> 0 <= off d e < box_count d.
Proof.
  intros F Hb. assert (C := fits_count sz d F).
  destruct (alloc_bijection LRight 0 d (proj1 (proj2 F)) (proj2 C) (or_introl eq_refl)) as (s & Es & H & _).
  assert (s = span0 d) by (pose proof (span0_ok d sz F); congruence). subst s.
  destruct (H [e]) as (a & Ea & Ha); [simpl; now rewrite app_nil_r|].
  rewrite (span0_access d sz) in Ea by (simpl; rewrite ?app_nil_r; auto). simpl in Ea. rewrite app_nil_r in Ea.
  rewrite dom_size_exact in Ha; [|apply F | apply C]. assert (off d e = a) by congruence. lia.
Qed.
Lemma off_same d sz e e' : fits sz d -> in_box d e -> in_box d e' -> (same_values_b e e' = true <-> off d e = off d e').
Proof.
  intros F H1 H2. rewrite same_values_b_spec; [|apply H1 | apply H2 | intros q; rewrite (proj2 (proj1 H1) q), (proj2 (proj1 H2) q); tauto].
  split.
  - intros S. unfold off. apply loc_ext. intros q Hq. cbn [span0 s_dom] in Hq.
    destruct (dims_val e q) as [x Hx]; [now apply (proj2 (proj1 H1))|].
    rewrite (vf_val e q x), (vf_val e' q x); auto; [apply H2 | now apply S | apply H1].
  - intros E. assert (C := fits_count sz d F).
    destruct (alloc_bijection LRight 0 d (proj1 (proj2 F)) (proj2 C) (or_introl eq_refl)) as (s & Es & _ & H & _).
    assert (s = span0 d) by (pose proof (span0_ok d sz F); congruence). subst s.
    specialize (H [e] [e'] (off d e)). simpl in H. rewrite !app_nil_r in H. apply H; auto.
    + rewrite (span0_access d sz); simpl; rewrite ?app_nil_r; auto.
    + rewrite (span0_access d sz); simpl; rewrite ?app_nil_r; auto. now rewrite E.
Qed.

(** * Bytes *)
Lemma inside_spec bl a n : inside bl a n = true <-> exists b m, In (b, m) bl /\ b <= a /\ a + n <= b + m.
Proof.
  unfold inside. rewrite existsb_exists. split.
  - intros ([b m] & Hi & E). exists b, m. cbn [fst snd] in E. split; auto. lia.
  - intros (b & m & Hi & E). exists (b, m). cbn [fst snd]. split; auto. lia.
Qed.
Lemma in_span_bytes a n k : In k (span_bytes a n) -> a <= k < a + n.
Proof. unfold span_bytes. rewrite in_map_iff. intros (j & <- & Hj). apply in_seq in Hj. lia. Qed.
Lemma put_same m a v : map (put m a v) (span_bytes a (Z.of_nat (length v))) = v.
Proof.
  unfold span_bytes. rewrite Nat2Z.id, map_map.
  assert (E : forall l : list Z, map (fun k => nth k l 0) (seq 0 (length l)) = l).
  { induction l as [|x l IH]; auto. cbn [length seq map nth]. f_equal. rewrite <- seq_shift, map_map. exact IH. }
  transitivity (map (fun k => nth k v 0) (seq 0 (length v))); [|apply E].
  apply map_ext_in. intros k Hk. apply in_seq in Hk. unfold put.
  replace ((a <=? a + Z.of_nat k) && (a + Z.of_nat k <? a + Z.of_nat (length v))) with true by lia.
  f_equal. lia.
Qed.
Lemma put_other m a v b n : disjoint a (Z.of_nat (length v)) b n -> map (put m a v) (span_bytes b n) = map m (span_bytes b n).
Proof.
  intros D. apply map_ext_in. intros k Hk. apply in_span_bytes in Hk. unfold put, disjoint in *.
  replace ((a <=? k) && (k <? a + Z.of_nat (length v))) with false by lia. reflexivity.
Qed.
Lemma shake_inside junk bl t m a n : inside bl a n = true -> map (shake junk bl t m) (span_bytes a n) = map m (span_bytes a n).
Proof.
  intros Hi. apply inside_spec in Hi as (b & k & Hi & Hb). apply map_ext_in. intros j Hj. apply in_span_bytes in Hj. unfold shake.
  replace (inside bl j 1) with true; auto. symmetry. apply inside_spec. exists b, k. split; auto. lia.
Qed.

(** * The invariant *)
Definition nbytes (a : array) : Z := a_sz a * box_count (a_dom a).
Record inv (st : HeapSpec.store) (w : heap) (base : nat -> Z) : Prop := mk_inv {
  i_made : forall i a, arrays st i = Some a -> (i < created st)%nat;
  i_fits : forall i a, arrays st i = Some a -> fits (a_sz a) (a_dom a);
  i_null : forall i a, arrays st i = Some a -> (base i = 0 <-> box_count (a_dom a) = 0);
  i_log : forall i a e v, arrays st i = Some a -> In (e, v) (a_log a) -> in_box (a_dom a) e /\ Z.of_nat (length v) = a_sz a;
  i_block : forall i a, arrays st i = Some a -> a_live a = true -> 0 < box_count (a_dom a) -> In (base i, nbytes a) (blocks w);
  i_owner : forall b m, In (b, m) (blocks w) -> exists i a, arrays st i = Some a /\ a_live a = true /\ 0 < box_count (a_dom a) /\ base i = b /\ m = nbytes a;
  i_apart : forall i j a a', i <> j -> arrays st i = Some a -> arrays st j = Some a' -> a_live a = true -> a_live a' = true ->
     0 < box_count (a_dom a) -> 0 < box_count (a_dom a') -> disjoint (base i) (nbytes a) (base j) (nbytes a');
  i_nodup : NoDup (blocks w);
  i_value : forall i a e v, arrays st i = Some a -> a_live a = true -> in_box (a_dom a) e -> latest (a_log a) e = Some v ->
     map (bytes w) (span_bytes (base i + a_sz a * off (a_dom a) e) (a_sz a)) = v;
  i_dead : forall x, has st x = None -> chunks w x = None;
  i_empty : forall x sz ts, has st x = Some (sz, ts, None) -> exists s, chunks w x = Some (mk_handle sz 0 s) /\ ddims (s_dom s) = ts;
  i_full : forall x sz ts i, has st x = Some (sz, ts, Some i) -> exists a, arrays st i = Some a /\ a_live a = true /\ a_sz a = sz /\ ddims (a_dom a) = ts /\
     chunks w x = Some (mk_handle sz (base i) (span0 (a_dom a)));
  i_owned : forall i a, arrays st i = Some a -> a_live a = true -> exists x sz ts, has st x = Some (sz, ts, Some i);
  i_alone : forall x y i sz ts sz' ts', has st x = Some (sz, ts, Some i) -> has st y = Some (sz', ts', Some i) -> x = y;
  i_sees : forall u i sls, sees st u = Some (i, sls) -> exists a s, arrays st i = Some a /\ slices_ok (a_dom a) sls /\
     run_slices (span0 (a_dom a)) sls = Ok s /\ views w u = Some (mk_handle (a_sz a) (base i) s)
}.

Lemma inv_init m : inv nothing (init_heap m) (fun _ => 0).
Proof. constructor; cbn; try discriminate; try contradiction; auto. constructor. Qed.

Lemma upd_same {A} (f : nat -> A) x v : upd f x v x = v.
Proof. unfold upd. now rewrite Nat.eqb_refl. Qed.
Lemma upd_other {A} (f : nat -> A) x v y : y <> x -> upd f x v y = f y.
Proof. intros H. unfold upd. destruct (Nat.eqb_spec y x); congruence. Qed.
Lemma upd_cases {A} (f : nat -> A) x v y r : upd f x v y = r -> (y = x /\ v = r) \/ (y <> x /\ f y = r).
Proof. unfold upd. destruct (Nat.eqb_spec y x); auto. Qed.

Section step.
Context (malloc : nat -> list (Z * Z) -> Z -> option Z) (junk : nat -> Z -> Z) (Hmal : well_behaved malloc).

(** An element of a live array: its bytes are in the block. *)
Lemma elem_inside st w base i a e : inv st w base -> arrays st i = Some a -> a_live a = true -> in_box (a_dom a) e ->
  inside (blocks w) (base i + a_sz a * off (a_dom a) e) (a_sz a) = true.
Proof.
  intros I Ha Hl Hb. assert (F := i_fits _ _ _ I i a Ha). assert (R := off_range _ _ e F Hb).
  apply inside_spec. exists (base i), (nbytes a). split; [apply (i_block _ _ _ I); auto; lia|].
  unfold nbytes. destruct F as (Hs & _). nia.
Qed.
Lemma elems_apart st w base i j a a' e e' : inv st w base -> arrays st i = Some a -> arrays st j = Some a' -> a_live a = true -> a_live a' = true ->
  in_box (a_dom a) e -> in_box (a_dom a') e' -> (i <> j \/ same_values_b e' e = false) ->
  disjoint (base i + a_sz a * off (a_dom a) e) (a_sz a) (base j + a_sz a' * off (a_dom a') e') (a_sz a').
Proof.
  intros I Ha Ha' Hl Hl' Hb Hb' Hc. assert (F := i_fits _ _ _ I i a Ha). assert (F' := i_fits _ _ _ I j a' Ha').
  assert (R := off_range _ _ e F Hb). assert (R' := off_range _ _ e' F' Hb').
  destruct (Nat.eq_dec i j) as [->|N].
  - assert (a' = a) by congruence. subst a'. destruct Hc as [Hc|Hc]; [congruence|].
    assert (off (a_dom a) e' <> off (a_dom a) e). { intros E. apply (off_same _ _ e' e F Hb' Hb) in E. congruence. }
    unfold disjoint. destruct F as (Hs & _). nia.
  - assert (D := i_apart _ _ _ I i j a a' N Ha Ha' Hl Hl'). unfold disjoint, nbytes in *.
    destruct F as (Hs & _), F' as (Hs' & _). specialize (D ltac:(lia) ltac:(lia)).
    destruct D as [D|D]; [left|right]; nia.
Qed.

(** ** Writes *)
Lemma write_step st w base i a e v : inv st w base -> arrays st i = Some a -> a_live a = true -> in_box (a_dom a) e -> Z.of_nat (length v) = a_sz a ->
  exists w', HeapModel.store w (base i + a_sz a * off (a_dom a) e) v = Ok w' /\ inv (written st i a e v) w' base.
Proof.
  intros I Ha Hl Hb Hv. unfold HeapModel.store. rewrite Hv, (elem_inside st w base i a e) by auto.
  eexists. split; [reflexivity|].
  assert (G : forall j a2, arrays (written st i a e v) j = Some a2 ->
     exists a1, arrays st j = Some a1 /\ a_sz a2 = a_sz a1 /\ a_dom a2 = a_dom a1 /\ a_live a2 = a_live a1 /\
       ((j <> i /\ a_log a2 = a_log a1) \/ (j = i /\ a1 = a /\ a_log a2 = (e, v) :: a_log a))).
  { intros j a2 Hj. cbn in Hj. apply upd_cases in Hj as [[-> E]|[N E]].
    - injection E as <-. exists a. cbn. repeat split; auto.
    - exists a2. repeat split; auto. }
  assert (G' : forall j a1, arrays st j = Some a1 -> exists a2, arrays (written st i a e v) j = Some a2 /\ a_sz a2 = a_sz a1 /\ a_dom a2 = a_dom a1 /\ a_live a2 = a_live a1).
  { intros j a1 Hj. cbn. destruct (Nat.eq_dec j i) as [->|N].
    - rewrite upd_same. eexists. split; [reflexivity|]. assert (a1 = a) by congruence. subst. auto.
    - rewrite upd_other by auto. exists a1. auto. }
  constructor; cbn [blocks bytes chunks views has sees created written].
  - intros j a2 Hj. destruct (G j a2 Hj) as (a1 & H1 & _). eapply i_made; eauto.
  - intros j a2 Hj. destruct (G j a2 Hj) as (a1 & H1 & -> & -> & _). eapply i_fits; eauto.
  - intros j a2 Hj. destruct (G j a2 Hj) as (a1 & H1 & _ & -> & _). eapply i_null; eauto.
  - intros j a2 e2 v2 Hj Hi. destruct (G j a2 Hj) as (a1 & H1 & -> & -> & _ & [(N & El)|(-> & -> & El)]); rewrite El in Hi.
    + eapply i_log; eauto.
    + destruct Hi as [Hi|Hi]; [injection Hi as <- <-; auto | eapply i_log; eauto].
  - intros j a2 Hj. destruct (G j a2 Hj) as (a1 & H1 & E1 & E2 & E3 & _). unfold nbytes. rewrite E1, E2, E3. apply (i_block _ _ _ I j a1 H1).
  - intros b m Hi. destruct (i_owner _ _ _ I b m Hi) as (j & a1 & H1 & H2 & H3 & H4 & H5).
    destruct (G' j a1 H1) as (a2 & K1 & K2 & K3 & K4). exists j, a2. unfold nbytes in *. rewrite K2, K3, K4. auto.
  - intros j k a1 a2 N H1 H2. destruct (G j a1 H1) as (b1 & J1 & E1 & E2 & E3 & _). destruct (G k a2 H2) as (b2 & J2 & F1 & F2 & F3 & _).
    unfold nbytes. rewrite E1, E2, E3, F1, F2, F3. apply (i_apart _ _ _ I j k b1 b2 N J1 J2).
  - apply I.
  - intros j a2 e2 v2 Hj Hlj Hb2 Hla. destruct (G j a2 Hj) as (a1 & H1 & E1 & E2 & E3 & C). rewrite E1, E2 in *. rewrite E3 in Hlj.
    destruct C as [(N & El)|(-> & -> & El)]; rewrite El in Hla.
    + rewrite put_other; [eapply i_value; eauto|]. rewrite Hv. apply (elems_apart st w base i j a a1 e e2); auto.
    + cbn [latest] in Hla. destruct (same_values_b e2 e) eqn:Es.
      * injection Hla as ->. apply (off_same _ _ e2 e (i_fits _ _ _ I i a Ha) Hb2 Hb) in Es. rewrite Es, <- Hv. apply put_same.
      * rewrite put_other; [eapply i_value; eauto|]. rewrite Hv. apply (elems_apart st w base i i a a e e2); auto.
  - intros x Hx. apply (i_dead _ _ _ I); auto.
  - apply I.
  - intros x sz ts j Hx. destruct (i_full _ _ _ I x sz ts j Hx) as (a1 & H1 & H2 & H3 & H4 & H5).
    destruct (G' j a1 H1) as (a2 & K1 & K2 & K3 & K4). exists a2. rewrite K2, K3, K4. auto.
  - intros j a2 Hj Hlj. destruct (G j a2 Hj) as (a1 & H1 & _ & _ & E3 & _). rewrite E3 in Hlj. eapply i_owned; eauto.
  - apply I.
  - intros u j sls Hu. destruct (i_sees _ _ _ I u j sls Hu) as (a1 & s & H1 & H2 & H3 & H4).
    destruct (G' j a1 H1) as (a2 & K1 & K2 & K3 & _). exists a2, s. rewrite K2, K3. auto.
Qed.

(** ** The end of an array *)
Lemma release_step st w base x sz ts o : inv st w base -> has st x = Some (sz, ts, o) ->
  exists h w', chunks w x = Some h /\ release junk w h = Ok w' /\ chunks w' = chunks w /\ views w' = views w /\
    inv (with_chunk (ended st o) x (Some (sz, ts, None))) (set_chunk w' x (Some (emptied h))) base.
Proof.
  intros I Hx. destruct o as [i|].
  2:{ destruct (i_empty _ _ _ I x sz ts Hx) as (s & Hc & Hs). exists (mk_handle sz 0 s), w. split; auto. split; [reflexivity|]. do 2 (split; [reflexivity|]).
      cbn [ended]. unfold emptied. cbn [h_sz h_span].
      constructor; cbn [blocks bytes chunks views has sees created arrays with_chunk set_chunk]; try (apply I).
      - intros y Hy. apply upd_cases in Hy as [[-> E]|[N E]]; [discriminate|]. rewrite upd_other by auto. now apply (i_dead _ _ _ I).
      - intros y sz' ts' Hy. apply upd_cases in Hy as [[-> E]|[N E]].
        + injection E as <- <-. exists s. now rewrite upd_same.
        + rewrite upd_other by auto. now apply (i_empty _ _ _ I).
      - intros y sz' ts' j Hy. apply upd_cases in Hy as [[-> E]|[N E]]; [discriminate|]. rewrite upd_other by auto. now apply (i_full _ _ _ I).
      - intros j a Hj Hl. destruct (i_owned _ _ _ I j a Hj Hl) as (y & sz' & ts' & Hy). exists y, sz', ts'. rewrite upd_other; auto. intros ->. congruence.
      - intros y z j s1 t1 s2 t2 Hy Hz. apply upd_cases in Hy as [[-> E]|[N E]]; [discriminate|]. apply upd_cases in Hz as [[-> E']|[N' E']]; [discriminate|].
        eapply i_alone; eauto. }
  destruct (i_full _ _ _ I x sz ts i Hx) as (a & Ha & Hl & Hsz & Hts & Hc).
  exists (mk_handle sz (base i) (span0 (a_dom a))).
  assert (F := i_fits _ _ _ I i a Ha). assert (C := fits_count _ _ F).
  set (bl := filter (fun b => negb (fst b =? base i)) (blocks w)).
  assert (Hbl : forall b m, In (b, m) bl <-> In (b, m) (blocks w) /\ b <> base i).
  { intros b m. unfold bl. rewrite filter_In. cbn [fst]. split; intros [H1 H2]; split; auto; lia. }
  assert (Hoth : forall j a', arrays st j = Some a' -> a_live a' = true -> 0 < box_count (a_dom a') -> j <> i -> base j <> base i).
  { intros j a' Hj Hl' Hp N E. destruct (Z.eq_dec (box_count (a_dom a)) 0) as [Z0|Z0].
    - apply (i_null _ _ _ I i a Ha) in Z0. assert (base j = 0) by congruence. apply (i_null _ _ _ I j a' Hj) in H. lia.
    - assert (D := i_apart _ _ _ I i j a a' (not_eq_sym N) Ha Hj Hl Hl' ltac:(lia) Hp). unfold disjoint, nbytes in D.
      assert (F' := i_fits _ _ _ I j a' Hj). destruct F as (S1 & _), F' as (S2 & _). assert (0 < a_sz a * box_count (a_dom a)) by nia. assert (0 < a_sz a' * box_count (a_dom a')) by nia. lia. }
  assert (Hrel : exists m t, release junk w (mk_handle sz (base i) (span0 (a_dom a))) = Ok (mk_heap bl t m (chunks w) (views w)) /\
     forall p n, inside bl p n = true -> map m (span_bytes p n) = map (bytes w) (span_bytes p n)).
  { unfold release, deallocate, kokkos_free. cbn [h_base]. destruct (Z.eqb_spec (base i) 0) as [Z0|Z0].
    - exists (bytes w), (ticks w). assert (bl = blocks w) as ->.
      { assert (A : forall l : list (Z * Z), (forall b m, In (b, m) l -> b <> base i) -> filter (fun b => negb (fst b =? base i)) l = l).
        { clear. intros l. induction l as [|[b m] l IH]; intros H; auto. cbn [filter fst].
          replace (b =? base i) with false by (specialize (H b m (or_introl eq_refl)); lia). cbn [negb]. f_equal. apply IH. intros b' m' Hi. apply (H b' m'). now right. }
        apply A. intros b m Hi. destruct (i_owner _ _ _ I b m Hi) as (j & a' & H1 & H2 & H3 & <- & _).
        intros E. assert (base j = 0) by congruence. apply (i_null _ _ _ I j a' H1) in H. lia. }
      split; auto. now destruct w.
    - replace (existsb (fun b => fst b =? base i) (blocks w)) with true.
      + fold bl. eexists _, _. split; [reflexivity|]. intros p n Hi. now apply shake_inside.
      + symmetry. apply existsb_exists. exists (base i, nbytes a). cbn [fst]. split; [|lia]. apply (i_block _ _ _ I); auto.
        assert (box_count (a_dom a) <> 0); [|lia]. intros E. apply (i_null _ _ _ I i a Ha) in E. lia. }
  destruct Hrel as (m & t & Er & Hm). eexists. split; [exact Hc|]. split; [exact Er|]. split; [reflexivity|]. split; [reflexivity|].
  cbn [ended]. rewrite Ha. unfold emptied, with_chunk, set_chunk. cbn [h_sz h_span blocks ticks bytes chunks views arrays created has sees].
  assert (G : forall j a2, upd (arrays st) i (Some (mk_array (a_sz a) (a_dom a) (a_log a) false)) j = Some a2 ->
     exists a1, arrays st j = Some a1 /\ a_sz a2 = a_sz a1 /\ a_dom a2 = a_dom a1 /\ a_log a2 = a_log a1 /\ (a_live a2 = true -> j <> i /\ a_live a1 = true)).
  { intros j a2 Hj. apply upd_cases in Hj as [[-> E]|[N E]].
    - injection E as <-. exists a. cbn. repeat split; auto; discriminate.
    - exists a2. repeat split; auto. }
  assert (G' : forall j a1, arrays st j = Some a1 -> exists a2, upd (arrays st) i (Some (mk_array (a_sz a) (a_dom a) (a_log a) false)) j = Some a2 /\
      a_sz a2 = a_sz a1 /\ a_dom a2 = a_dom a1 /\ (j <> i -> a2 = a1)).
  { intros j a1 Hj. destruct (Nat.eq_dec j i) as [->|N].
    - rewrite upd_same. eexists. split; [reflexivity|]. assert (a1 = a) by congruence. subst. cbn. repeat split; auto; congruence.
    - rewrite upd_other by auto. exists a1. auto. }
  constructor; cbn [blocks bytes chunks views has sees created arrays].
  - intros j a2 Hj. destruct (G j a2 Hj) as (a1 & H1 & _). eapply i_made; eauto.
  - intros j a2 Hj. destruct (G j a2 Hj) as (a1 & H1 & -> & -> & _). eapply i_fits; eauto.
  - intros j a2 Hj. destruct (G j a2 Hj) as (a1 & H1 & _ & -> & _). eapply i_null; eauto.
  - intros j a2 e2 v2 Hj Hi. destruct (G j a2 Hj) as (a1 & H1 & -> & -> & El & _). rewrite El in Hi. eapply i_log; eauto.
  - intros j a2 Hj Hlj Hp. destruct (G j a2 Hj) as (a1 & H1 & E1 & E2 & _ & E3). destruct (E3 Hlj) as [N L]. unfold nbytes. rewrite E1, E2 in *.
    apply Hbl. split; [now apply (i_block _ _ _ I j a1 H1) | eapply Hoth; eauto].
  - intros b k Hi. apply Hbl in Hi as [Hi Hne]. destruct (i_owner _ _ _ I b k Hi) as (j & a1 & H1 & H2 & H3 & H4 & H5).
    assert (N : j <> i) by (intros ->; congruence). exists j, a1. rewrite upd_other by auto. auto.
  - intros j k a1 a2 N H1 H2 L1 L2. destruct (G j a1 H1) as (b1 & J1 & E1 & E2 & _ & E3). destruct (G k a2 H2) as (b2 & J2 & F1 & F2 & _ & F3).
    unfold nbytes. rewrite E1, E2, F1, F2. apply (i_apart _ _ _ I j k b1 b2 N J1 J2); [now apply E3 | now apply F3].
  - unfold bl. apply NoDup_filter, I.
  - intros j a2 e2 v2 Hj Hlj Hb2 Hla. destruct (G j a2 Hj) as (a1 & H1 & E1 & E2 & E3 & C3). destruct (C3 Hlj) as [N L]. rewrite E1, E2, E3 in *.
    rewrite Hm; [eapply i_value; eauto|].
    assert (F1 := i_fits _ _ _ I j a1 H1). assert (R := off_range _ _ e2 F1 Hb2).
    apply inside_spec. exists (base j), (nbytes a1). split.
    + apply Hbl. split; [apply (i_block _ _ _ I); auto; lia | eapply Hoth; eauto; lia].
    + unfold nbytes. destruct F1 as (S1 & _). nia.
  - intros y Hy. apply upd_cases in Hy as [[-> E]|[N E]]; [discriminate|]. rewrite upd_other by auto. now apply (i_dead _ _ _ I).
  - intros y sz' ts' Hy. apply upd_cases in Hy as [[-> E]|[N E]].
    + injection E as <- <-. exists (span0 (a_dom a)). rewrite upd_same. auto.
    + rewrite upd_other by auto. now apply (i_empty _ _ _ I).
  - intros y sz' ts' j Hy. apply upd_cases in Hy as [[-> E]|[N E]]; [discriminate|]. rewrite (upd_other (chunks w)) by auto.
    assert (Nj : j <> i). { intros ->. apply N. eapply i_alone; eauto. }
    destruct (i_full _ _ _ I y sz' ts' j E) as (a1 & H1 & H2 & H3 & H4 & H5). exists a1. rewrite upd_other by auto. auto.
  - intros j a2 Hj Hlj. destruct (G j a2 Hj) as (a1 & H1 & _ & _ & _ & E3). destruct (E3 Hlj) as [N L].
    destruct (i_owned _ _ _ I j a1 H1 L) as (y & sz' & ts' & Hy). exists y, sz', ts'. rewrite upd_other; auto. intros ->. congruence.
  - intros y z j s1 t1 s2 t2 Hy Hz. apply upd_cases in Hy as [[-> E]|[N E]]; [discriminate|]. apply upd_cases in Hz as [[-> E']|[N' E']]; [discriminate|].
    eapply i_alone; eauto.
  - intros u j sls Hu. destruct (i_sees _ _ _ I u j sls Hu) as (a1 & s & H1 & H2 & H3 & H4).
    destruct (G' j a1 H1) as (a2 & K1 & K2 & K3 & _). exists a2, s. rewrite K2, K3. auto.
Qed.

(** ** A new array *)
Lemma new_step st w base x sz d : inv st w base -> has st x = None -> fits sz d ->
  (malloc (ticks w) (blocks w) (sz * box_count d) = None /\ new_chunk malloc junk w x sz d = Ok None) \/
  exists w' base', new_chunk malloc junk w x sz d = Ok (Some w') /\
    inv (mk_store (upd (arrays st) (created st) (Some (mk_array sz d [] true))) (S (created st))
                (upd (has st) x (Some (sz, ddims d, Some (created st)))) (sees st)) w' base'.
Proof.
  intros I Hx F. assert (C := fits_count _ _ F). destruct F as (Hs & Hd & Hf).
  assert (Eu : u64_mul sz (dom_size d) = sz * box_count d).
  { rewrite dom_size_exact by (auto; lia). unfold u64_mul, u64. apply Z.mod_small. change two64 with (2 ^ 64). nia. }
  unfold new_chunk, allocate, kokkos_malloc. rewrite Eu.
  assert (Hfresh : arrays st (created st) = None).
  { destruct (arrays st (created st)) eqn:E; auto. apply (i_made _ _ _ I) in E. lia. }
  assert (Hde : dom_empty d = (box_count d =? 0)) by (unfold dom_empty; now rewrite dom_size_exact by (auto; lia)).
  assert (Hold : forall j a, arrays st j = Some a -> j <> created st) by (intros j a Hj ->; congruence).
  (* the state after a successful allocation at address [p], with blocks [bl] and bytes [m] *)
  assert (G : forall p bl t m,
     (p = 0 <-> box_count d = 0) ->
     (forall q, In q bl <-> (0 < box_count d /\ q = (p, sz * box_count d)) \/ In q (blocks w)) -> NoDup bl ->
     (0 < box_count d -> forall b k, In (b, k) (blocks w) -> disjoint p (sz * box_count d) b k) ->
     (forall q n, inside (blocks w) q n = true -> map m (span_bytes q n) = map (bytes w) (span_bytes q n)) ->
     inv (mk_store (upd (arrays st) (created st) (Some (mk_array sz d [] true))) (S (created st))
                (upd (has st) x (Some (sz, ddims d, Some (created st)))) (sees st))
         (set_chunk (mk_heap bl t m (chunks w) (views w)) x (Some (mk_handle sz p (span0 d)))) (upd base (created st) p)).
  { intros p bl t m Hp Hbl Hnd Hdis Hm.
    constructor; cbn [blocks bytes chunks views has sees created arrays set_chunk].
    - intros j a Hj. apply upd_cases in Hj as [[-> _]|[N E]]; [lia|]. apply (i_made _ _ _ I) in E. lia.
    - intros j a Hj. apply upd_cases in Hj as [[-> E]|[N E]]; [injection E as <-; cbn; repeat split; auto; apply Hd | eapply i_fits; eauto].
    - intros j a Hj. apply upd_cases in Hj as [[-> E]|[N E]]; [injection E as <-; rewrite upd_same; exact Hp | rewrite upd_other by auto; eapply i_null; eauto].
    - intros j a e v Hj Hi. apply upd_cases in Hj as [[-> E]|[N E]]; [injection E as <-; destruct Hi | eapply i_log; eauto].
    - intros j a Hj Hl Hpos. apply Hbl. apply upd_cases in Hj as [[-> E]|[N E]].
      + injection E as <-. rewrite upd_same. left. split; auto.
      + right. rewrite upd_other by auto. now apply (i_block _ _ _ I).
    - intros b k Hi. apply Hbl in Hi as [[Hpos E]|Hi].
      + injection E as -> ->. exists (created st), (mk_array sz d [] true). rewrite !upd_same. cbn. auto.
      + destruct (i_owner _ _ _ I b k Hi) as (j & a & H1 & H2 & H3 & H4 & H5). exists j, a. rewrite !upd_other by eauto. auto.
    - intros j k a a' N H1 H2 L1 L2 P1 P2. apply upd_cases in H1 as [[-> E1]|[N1 E1]]; apply upd_cases in H2 as [[-> E2]|[N2 E2]]; try congruence.
      + injection E1 as <-. rewrite upd_same, upd_other by auto. apply Hdis; auto. now apply (i_block _ _ _ I).
      + injection E2 as <-. rewrite upd_same, upd_other by auto. destruct (Hdis P2 (base j) (nbytes a)) as [D|D]; [now apply (i_block _ _ _ I)| now right | now left].
      + rewrite !upd_other by auto. eapply i_apart; eauto.
    - exact Hnd.
    - intros j a e v Hj Hl Hb Hla. apply upd_cases in Hj as [[-> E]|[N E]]; [injection E as <-; discriminate|].
      rewrite upd_other by auto. rewrite Hm; [eapply i_value; eauto | now apply (elem_inside st w base j a e I E)].
    - intros y Hy. apply upd_cases in Hy as [[-> E]|[N E]]; [discriminate|]. rewrite upd_other by auto. now apply (i_dead _ _ _ I).
    - intros y sz' ts' Hy. apply upd_cases in Hy as [[-> E]|[N E]]; [discriminate|]. rewrite upd_other by auto. now apply (i_empty _ _ _ I).
    - intros y sz' ts' j Hy. apply upd_cases in Hy as [[-> E]|[N E]].
      + injection E as <- <- <-. exists (mk_array sz d [] true). rewrite !upd_same. cbn. auto.
      + rewrite (upd_other (chunks w)) by auto. destruct (i_full _ _ _ I y sz' ts' j E) as (a & H1 & H2 & H3 & H4 & H5).
        exists a. rewrite !upd_other by eauto. auto.
    - intros j a Hj Hl. apply upd_cases in Hj as [[-> E]|[N E]].
      + exists x, sz, (ddims d). now rewrite upd_same.
      + destruct (i_owned _ _ _ I j a E Hl) as (y & sz' & ts' & Hy). exists y, sz', ts'. rewrite upd_other; auto. intros ->. congruence.
    - intros y z j s1 t1 s2 t2 Hy Hz. apply upd_cases in Hy as [[-> E]|[N E]]; apply upd_cases in Hz as [[-> E']|[N' E']]; auto.
      + injection E as <- <- <-. destruct (i_full _ _ _ I z _ _ _ E') as (a & H1 & _). apply (i_made _ _ _ I) in H1. lia.
      + injection E' as <- <- <-. destruct (i_full _ _ _ I y _ _ _ E) as (a & H1 & _). apply (i_made _ _ _ I) in H1. lia.
      + eapply i_alone; eauto.
    - intros u j sls Hu. destruct (i_sees _ _ _ I u j sls Hu) as (a & s & H1 & H2 & H3 & H4). exists a, s. rewrite !upd_other by eauto. auto. }
  destruct (Z.eqb_spec (sz * box_count d) 0) as [E|E].
  - right. assert (E0 : box_count d = 0) by nia.
    rewrite (span0_ok d sz) by (split; auto). cbn [rbind]. rewrite Hde, E0. cbn [Z.eqb orb].
    eexists _, (upd base (created st) 0). split; [reflexivity|].
    replace w with (mk_heap (blocks w) (ticks w) (bytes w) (chunks w) (views w)) at 1 by now destruct w.
    apply G; auto; try lia; try tauto; try apply I. intros q. split; [auto|]. intros [[H _]|H]; [lia|auto].
  - destruct (malloc (ticks w) (blocks w) (sz * box_count d)) as [p|] eqn:Em; [right | left; auto].
    assert (Hpos : 0 < sz * box_count d) by nia. destruct (Hmal _ _ _ _ Hpos Em) as (P1 & P2 & P3).
    rewrite (span0_ok d sz) by (split; auto). cbn [rbind]. rewrite Hde.
    assert (Hc : 0 < box_count d) by nia.
    replace ((box_count d =? 0) || (negb (p =? 0) && negb (box_count d =? 0))) with true by lia.
    eexists _, (upd base (created st) p). split; [reflexivity|].
    apply G; try lia.
    + intros q. cbn [In]. split; intros [H|H]; auto. left. now destruct H.
    + constructor; [|apply I]. intros Hi. apply P3 in Hi. unfold disjoint in Hi. lia.
    + intros _. exact P3.
    + intros q n Hi. now apply shake_inside.
Qed.

(** ** Changes of the chunks that have no array to end *)
Lemma give_step st w base x y sz ts o h : inv st w base -> x <> y -> (has st x = None \/ has st x = Some (sz, ts, None)) -> has st y = Some (sz, ts, o) ->
  chunks w y = Some h ->
  inv (with_chunk (with_chunk st x (Some (sz, ts, o))) y (Some (sz, ts, None))) (set_chunk (set_chunk w x (Some h)) y (Some (emptied h))) base.
Proof.
  intros I N Hx Hy Hh.
  constructor; cbn [blocks bytes chunks views has sees created arrays with_chunk set_chunk]; try (apply I).
  - intros z Hz. apply upd_cases in Hz as [[-> E]|[N1 E]]; [discriminate|]. apply upd_cases in E as [[-> E]|[N2 E]]; [discriminate|].
    rewrite !upd_other by auto. now apply (i_dead _ _ _ I).
  - intros z sz' ts' Hz. apply upd_cases in Hz as [[-> E]|[N1 E]].
    + injection E as <- <-. rewrite upd_same. unfold emptied.
      destruct o as [i|].
      * destruct (i_full _ _ _ I y sz ts i Hy) as (a & H1 & H2 & H3 & H4 & H5). assert (h = mk_handle sz (base i) (span0 (a_dom a))) by congruence. subst h.
        eexists. split; [reflexivity|]. exact H4.
      * destruct (i_empty _ _ _ I y sz ts Hy) as (s & H1 & H2). assert (h = mk_handle sz 0 s) by congruence. subst h. eexists. split; [reflexivity|]. exact H2.
    + rewrite upd_other by auto. apply upd_cases in E as [[-> E]|[N2 E]].
      * injection E as <- <- ->. rewrite upd_same, <- Hh. now apply (i_empty _ _ _ I).
      * rewrite upd_other by auto. now apply (i_empty _ _ _ I).
  - intros z sz' ts' j Hz. apply upd_cases in Hz as [[-> E]|[N1 E]]; [discriminate|].
    rewrite upd_other by auto. apply upd_cases in E as [[-> E]|[N2 E]].
    + injection E as <- <- ->. rewrite upd_same, <- Hh. now apply (i_full _ _ _ I).
    + rewrite upd_other by auto. now apply (i_full _ _ _ I).
  - intros j a Hj Hl. destruct (i_owned _ _ _ I j a Hj Hl) as (z & sz' & ts' & Hz).
    destruct (Nat.eq_dec z y) as [->|Nz].
    + exists x, sz, ts. rewrite upd_other by auto. rewrite upd_same. congruence.
    + exists z, sz', ts'. rewrite upd_other by auto. rewrite upd_other; auto. intros ->. destruct Hx; congruence.
  - intros z z' j s1 t1 s2 t2 Hz Hz'. apply upd_cases in Hz as [[-> E]|[N1 E]]; [discriminate|]. apply upd_cases in Hz' as [[-> E']|[N1' E']]; [discriminate|].
    apply upd_cases in E as [[-> E]|[N2 E]]; apply upd_cases in E' as [[-> E']|[N2' E']]; auto.
    + injection E as <- <- ->. exfalso. apply N1'. symmetry. eapply i_alone; eauto.
    + injection E' as <- <- ->. exfalso. apply N1. eapply i_alone; eauto.
    + eapply i_alone; eauto.
Qed.
Lemma drop_step st w base x sz ts : inv st w base -> has st x = Some (sz, ts, None) -> 
  inv (with_chunk st x None) (set_chunk w x None) base.
Proof.
  intros I Hx.
  constructor; cbn [blocks bytes chunks views has sees created arrays with_chunk set_chunk]; try (apply I).
  - intros z Hz. apply upd_cases in Hz as [[-> E]|[N1 E]]; [apply upd_same|]. rewrite upd_other by auto. now apply (i_dead _ _ _ I).
  - intros z sz' ts' Hz. apply upd_cases in Hz as [[-> E]|[N1 E]]; [discriminate|]. rewrite upd_other by auto. now apply (i_empty _ _ _ I).
  - intros z sz' ts' j Hz. apply upd_cases in Hz as [[-> E]|[N1 E]]; [discriminate|]. rewrite upd_other by auto. now apply (i_full _ _ _ I).
  - intros j a Hj Hl. destruct (i_owned _ _ _ I j a Hj Hl) as (z & sz' & ts' & Hz). exists z, sz', ts'. rewrite upd_other; auto. intros ->. congruence.
  - intros z z' j s1 t1 s2 t2 Hz Hz'. apply upd_cases in Hz as [[-> E]|[N1 E]]; [discriminate|]. apply upd_cases in Hz' as [[-> E']|[N1' E']]; [discriminate|].
    eapply i_alone; eauto.
Qed.

(** Replacing twice is replacing once; states are compared up to the values of their functions. *)
Lemma inv_ext st st' w w' base : inv st w base ->
  (forall i, arrays st' i = arrays st i) -> created st' = created st -> (forall x, has st' x = has st x) -> (forall u, sees st' u = sees st u) ->
  blocks w' = blocks w -> bytes w' = bytes w -> (forall x, chunks w' x = chunks w x) -> (forall u, views w' u = views w u) -> inv st' w' base.
Proof.
  intros I E1 E2 E3 E4 F1 F2 F3 F4. constructor.
  - intros i a. rewrite E1, E2. apply I.
  - intros i a. rewrite E1. apply I.
  - intros i a. rewrite E1. apply I.
  - intros i a e v. rewrite E1. apply I.
  - intros i a. rewrite E1, F1. apply I.
  - intros b m. rewrite F1. intros H. destruct (i_owner _ _ _ I b m H) as (i & a & H1). exists i, a. now rewrite E1.
  - intros i j a a'. rewrite !E1. apply I.
  - rewrite F1. apply I.
  - intros i a e v. rewrite E1, F2. apply I.
  - intros x. rewrite E3, F3. apply I.
  - intros x sz ts. rewrite E3, F3. apply I.
  - intros x sz ts i. rewrite E3, F3. intros H. destruct (i_full _ _ _ I x sz ts i H) as (a & H1). exists a. now rewrite E1.
  - intros i a. rewrite E1. intros H1 H2. destruct (i_owned _ _ _ I i a H1 H2) as (x & sz & ts & H). exists x, sz, ts. now rewrite E3.
  - intros x y i sz ts sz' ts'. rewrite !E3. apply I.
  - intros u i sls. rewrite E4, F4. intros H. destruct (i_sees _ _ _ I u i sls H) as (a & s & H1). exists a, s. now rewrite E1.
Qed.
Lemma upd_upd {A} (f : nat -> A) x v v' y : upd (upd f x v) x v' y = upd f x v' y.
Proof. unfold upd. now destruct (Nat.eqb y x). Qed.

Lemma chunk_address st w base x sz ts i a es : inv st w base -> has st x = Some (sz, ts, Some i) -> arrays st i = Some a -> in_box (a_dom a) (concat es) ->
  exists h, chunks w x = Some h /\ h_sz h = a_sz a /\ address h es = Ok (base i + a_sz a * off (a_dom a) (concat es)).
Proof.
  intros I Hx Ha Hb. destruct (i_full _ _ _ I x sz ts i Hx) as (a' & H1 & H2 & H3 & H4 & H5). assert (a' = a) by congruence. subst a'.
  eexists. split; [exact H5|]. split; [now symmetry|]. unfold address. cbn [h_span h_base h_sz]. rewrite (span0_access _ (a_sz a)); auto; [|eapply i_fits; eauto].
  cbn [rbind]. now rewrite H3.
Qed.
Lemma view_address st w base u i sls a es : inv st w base -> sees st u = Some (i, sls) -> arrays st i = Some a -> in_box (left_domain (a_dom a) sls) (concat es) ->
  in_box (a_dom a) (concat (es ++ fixed_elems sls)) /\
  exists h, views w u = Some h /\ h_sz h = a_sz a /\ address h es = Ok (base i + a_sz a * off (a_dom a) (concat (es ++ fixed_elems sls))).
Proof.
  intros I Hu Ha Hb. destruct (i_sees _ _ _ I u i sls Hu) as (a' & s & H1 & H2 & H3 & H4). assert (a' = a) by congruence. subst a'.
  assert (F := i_fits _ _ _ I i a Ha).
  destruct (slices_compose sls (span0 (a_dom a)) (span0_wf _ _ F) H2) as (s' & E & _ & Ed & H).
  assert (s' = s) by congruence. subst s'. destruct (H es) as (Hin & k & K1 & K2); [now rewrite Ed|].
  split; [exact Hin|]. eexists. split; [exact H4|]. split; [reflexivity|]. unfold address. cbn [h_span h_base h_sz]. rewrite K1.
  rewrite (span0_access _ (a_sz a)) in K2 by auto. cbn [rbind]. congruence.
Qed.

(** ** Every statement *)
Lemma step_ok st o st' w base : inv st w base -> does st o st' ->
  (step malloc junk w o = Ok None /\ exists t bl n, 0 < n /\ malloc t bl n = None) \/
  exists w' base', step malloc junk w o = Ok (Some w') /\ inv st' w' base'.
Proof.
  intros I D. destruct D.
  - cbn [step]. rewrite (i_dead _ _ _ I x H). destruct (new_step st w base x sz d I H H0) as [(E1 & E2)|(w' & base' & E1 & E2)].
    + left. split; auto. exists (ticks w), (blocks w), (sz * box_count d). split; auto.
      unfold new_chunk, allocate, kokkos_malloc in E2. assert (C := fits_count _ _ H0). destruct H0 as (Hs & Hd & Hf).
      assert (sz * box_count d <> 0); [|nia]. intros Z0.
      assert (Eu : u64_mul sz (dom_size d) = 0).
      { rewrite dom_size_exact by (auto; lia). unfold u64_mul, u64. now rewrite Z0. }
      rewrite Eu in E2. cbn [Z.eqb] in E2. rewrite (span0_ok d sz) in E2 by (split; auto). cbn [rbind] in E2. destruct (dom_empty d || _); discriminate.
    + right. eauto.
  - right. cbn [step]. rewrite (i_dead _ _ _ I x H). eexists _, base. split; [reflexivity|].
    constructor; cbn [blocks bytes chunks views has sees created arrays with_chunk set_chunk]; try (apply I).
    + intros z Hz. apply upd_cases in Hz as [[-> E]|[N1 E]]; [discriminate|]. rewrite upd_other by auto. now apply (i_dead _ _ _ I).
    + intros z sz' ts' Hz. apply upd_cases in Hz as [[-> E]|[N1 E]]; [injection E as <- <-; rewrite upd_same; eauto|]. rewrite upd_other by auto. now apply (i_empty _ _ _ I).
    + intros z sz' ts' j Hz. apply upd_cases in Hz as [[-> E]|[N1 E]]; [discriminate|]. rewrite upd_other by auto. now apply (i_full _ _ _ I).
    + intros j a Hj Hl. destruct (i_owned _ _ _ I j a Hj Hl) as (z & sz' & ts' & Hz). exists z, sz', ts'. rewrite upd_other; auto. intros ->. congruence.
    + intros z z' j s1 t1 s2 t2 Hz Hz'. apply upd_cases in Hz as [[-> E]|[N1 E]]; [discriminate|]. apply upd_cases in Hz' as [[-> E']|[N1' E']]; [discriminate|].
      eapply i_alone; eauto.
  - right. cbn [step]. rewrite (i_dead _ _ _ I x H).
    assert (exists h, chunks w y = Some h) as (h & Hh).
    { destruct o; [destruct (i_full _ _ _ I _ _ _ _ H0) as (a & _ & _ & _ & _ & K) | destruct (i_empty _ _ _ I _ _ _ H0) as (s & K & _)]; eauto. }
    rewrite Hh. eexists _, base. split; [reflexivity|]. apply give_step; auto. intros ->. congruence.
  - right. cbn [step].
    destruct (release_step st w base x sz ts o I H0) as (h & w1 & Hh & Er & Ec & Ev & I1).
    assert (exists h', chunks w y = Some h' /\ h_sz h' = sz /\ ddims (s_dom (h_span h')) = ts) as (h' & Hh' & S1 & T1).
    { destruct o'; [destruct (i_full _ _ _ I _ _ _ _ H1) as (a & _ & _ & _ & K2 & K) | destruct (i_empty _ _ _ I _ _ _ H1) as (s & K & K2)]; eexists; split; eauto. }
    assert (h_sz h = sz /\ ddims (s_dom (h_span h)) = ts) as [S2 T2].
    { destruct o; [destruct (i_full _ _ _ I _ _ _ _ H0) as (a & _ & _ & _ & K2 & K) | destruct (i_empty _ _ _ I _ _ _ H0) as (s & K & K2)];
        match type of K with _ = Some ?g => assert (h = g) by congruence; subst h end; auto. }
    rewrite Hh, Hh', S1, S2, T1, T2, Z.eqb_refl. destruct (list_eq_dec Nat.eq_dec ts ts) as [_|]; [|congruence]. cbn [andb]. rewrite Er. cbn [rbind]. rewrite Ec, Hh'.
    eexists _, base. split; [reflexivity|].
    assert (I2 := give_step _ _ base x y sz ts o' h' I1 H).
    assert (I3 : inv (with_chunk (with_chunk (with_chunk (ended st o) x (Some (sz, ts, None))) x (Some (sz, ts, o'))) y (Some (sz, ts, None)))
                     (set_chunk (set_chunk (set_chunk w1 x (Some (emptied h))) x (Some h')) y (Some (emptied h'))) base).
    { apply I2; [right; cbn; apply upd_same | cbn; rewrite upd_other by auto; destruct o as [i|]; cbn; [destruct (arrays st i)|]; exact H1 | cbn; rewrite upd_other by auto; now rewrite Ec]. }
    eapply inv_ext; [exact I3|..]; try reflexivity; intros z; cbn; unfold upd; destruct (Nat.eqb z y), (Nat.eqb z x); reflexivity.
  - right. cbn [step].
    destruct (release_step st w base x sz ts o I H) as (h & w1 & Hh & Er & Ec & Ev & I1).
    rewrite Hh, Z.eqb_refl. destruct (list_eq_dec Nat.eq_dec _ _) as [_|]; [|congruence]. cbn [andb]. rewrite Er. cbn [rbind]. rewrite Ec, Hh.
    eexists _, base. split; [reflexivity|]. eapply inv_ext; [exact I1|..]; try reflexivity; intros z; cbn; unfold upd; destruct (Nat.eqb z x); reflexivity.
  - right. cbn [step].
    destruct (release_step st w base x sz ts o I H) as (h & w1 & Hh & Er & Ec & Ev & I1).
    rewrite Hh, Er. cbn [rbind]. eexists _, base. split; [reflexivity|].
    assert (I2 := drop_step _ _ base x sz ts I1 (upd_same _ _ _)).
    eapply inv_ext; [exact I2|..]; try reflexivity; intros z; cbn; unfold upd; destruct (Nat.eqb z x); reflexivity.
  - right. cbn [step]. destruct (chunk_address st w base x sz ts i a es I H H0 H1) as (h & Hh & S1 & Ea).
    destruct (i_full _ _ _ I _ _ _ _ H) as (a' & K1 & K2 & _). assert (a' = a) by congruence. subst a'.
    destruct (write_step st w base i a (concat es) v I H0 K2 H1 H2) as (w' & Ew & Iw).
    rewrite Hh. unfold write. rewrite S1, H2, Z.eqb_refl, Ea. cbn [rbind]. rewrite Ew. cbn [rbind]. eauto.
  - right. cbn [step]. destruct (i_full _ _ _ I _ _ _ _ H) as (a' & K1 & K2 & K3 & K4 & K5). assert (a' = a) by congruence. subst a'.
    rewrite K5. cbn [h_span h_sz h_base].
    destruct (slices_compose sls (span0 (a_dom a)) (span0_wf _ _ (i_fits _ _ _ I i a H0)) H1) as (s & Es & _). rewrite Es. cbn [rbind].
    eexists _, base. split; [reflexivity|].
    constructor; cbn [blocks bytes chunks views has sees created arrays set_view]; try (apply I).
    intros u' j sls' Hu. apply upd_cases in Hu as [[-> E]|[N1 E]].
    + injection E as <- <-. exists a, s. rewrite upd_same, K3. auto.
    + rewrite upd_other by auto. now apply (i_sees _ _ _ I).
  - right. cbn [step]. destruct (view_address st w base u i sls a es I H H0 H2) as (Hin & h & Hh & S1 & Ea).
    destruct (write_step st w base i a (concat (es ++ fixed_elems sls)) v I H0 H1 Hin H3) as (w' & Ew & Iw).
    rewrite Hh. unfold write. rewrite S1, H3, Z.eqb_refl, Ea. cbn [rbind]. rewrite Ew. cbn [rbind]. eauto.
Qed.
Lemma run_inv os : forall st st' w base, inv st w base -> history st os st' ->
  exists w' done rest st2 base', run malloc junk w os = Ok (w', rest) /\ os = done ++ rest /\ history st done st2 /\ inv st2 w' base' /\
    (rest = [] -> st2 = st') /\ (rest = [] \/ exists t bl n, 0 < n /\ malloc t bl n = None).
Proof.
  induction os as [|o os IH]; intros st st' w base I H; inversion H; subst.
  - exists w, [], [], st', base. split; [reflexivity|]. split; [reflexivity|]. split; [constructor|]. split; auto.
  - cbn [run]. destruct (step_ok _ _ _ w base I H3) as [(E & K)|(w1 & b1 & E & I1)]; rewrite E; cbn [rbind].
    + exists w, [], (o :: os), st, base. split; [reflexivity|]. split; [reflexivity|]. split; [constructor|]. split; [exact I|]. split; [discriminate | auto].
    + destruct (IH _ _ w1 b1 I1 H5) as (w2 & d & r & st2 & b2 & F1 & F2 & F3 & F4 & F5).
      exists w2, (o :: d), r, st2, b2. split; [exact F1|]. split; [now rewrite F2|]. split; [econstructor; eauto|]. split; auto.
Qed.
Lemma inv_reads st w base : inv st w base -> reads_agree st w.
Proof.
  intros I. split.
  - intros x sz ts i a es v Hx Ha Hb Hl. destruct (chunk_address st w base x sz ts i a es I Hx Ha Hb) as (h & Hh & S1 & Ea).
    destruct (i_full _ _ _ I _ _ _ _ Hx) as (a' & K1 & K2 & _). assert (a' = a) by congruence. subst a'.
    unfold read_chunk, read. rewrite Hh, Ea. cbn [rbind]. unfold load. rewrite S1, (elem_inside st w base i a) by auto. f_equal. eapply i_value; eauto.
  - intros u i sls a es v Hu Ha Hlv Hb Hl. destruct (view_address st w base u i sls a es I Hu Ha Hb) as (Hin & h & Hh & S1 & Ea).
    unfold read_view, read. rewrite Hh, Ea. cbn [rbind]. unfold load. rewrite S1, (elem_inside st w base i a) by auto. f_equal. eapply i_value; eauto.
Qed.
Lemma inv_memory st w base : inv st w base -> memory_agrees st w.
Proof.
  intros I. split; [apply I|]. split; [|split].
  - intros b m Hi. destruct (i_owner _ _ _ I b m Hi) as (i & a & H1 & H2 & H3 & H4 & H5). destruct (i_owned _ _ _ I i a H1 H2) as (x & sz & ts & Hx).
    destruct (i_full _ _ _ I x sz ts i Hx) as (a' & K1 & K2 & K3 & K4 & K5). exists x, sz, ts, i, a. eexists. split; [exact Hx|]. split; [exact H1|].
    split; [exact K5|]. split; [exact H4 | exact H5].
  - intros x sz ts i a Hx Ha Hp. destruct (i_full _ _ _ I x sz ts i Hx) as (a' & K1 & K2 & K3 & K4 & K5). assert (a' = a) by congruence. subst a'.
    eexists. split; [exact K5|]. cbn [h_base]. now apply (i_block _ _ _ I).
  - intros b m b' m' H1 H2 N. destruct (i_owner _ _ _ I b m H1) as (i & a & A1 & A2 & A3 & A4 & A5). destruct (i_owner _ _ _ I b' m' H2) as (j & a' & B1 & B2 & B3 & B4 & B5).
    subst. apply (i_apart _ _ _ I i j a a'); auto. intros ->. apply N. assert (a' = a) by congruence. subst. reflexivity.
Qed.
Theorem heap_refines os st m : history nothing os st ->
  exists w done rest st', run malloc junk (init_heap m) os = Ok (w, rest) /\ os = done ++ rest /\ history nothing done st' /\
    reads_agree st' w /\ memory_agrees st' w /\
    (rest = [] -> st' = st) /\ (rest = [] \/ exists t bl n, 0 < n /\ malloc t bl n = None).
Proof.
  intros H. destruct (run_inv os _ _ _ _ (inv_init m) H) as (w & d & r & st2 & b & F1 & F2 & F3 & F4 & F5).
  exists w, d, r, st2. repeat (split; [assumption|]). split; [now apply inv_reads with b|]. split; [now apply inv_memory with b | exact F5].
Qed.
End step.
