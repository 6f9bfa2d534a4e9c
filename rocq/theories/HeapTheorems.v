(** The claims on the storage of chunks. *)
From Verif Require Import Machine MachineProofs TypeSeqModel TaggedModel TaggedSpec DomainModel DomainSpec SpanModel SpanSpec HeapModel HeapSpec HeapProofs.

Lemma arrays_independent : forall malloc junk m os st, well_behaved malloc -> history nothing os st ->
  exists w done rest st', run malloc junk (init_heap m) os = Ok (w, rest) /\ os = done ++ rest /\ history nothing done st' /\
    reads_agree st' w /\ memory_agrees st' w /\
    (rest = [] -> st' = st) /\ (rest = [] \/ exists t bl n, 0 < n /\ malloc t bl n = None).
Proof. intros malloc junk m os st Hm H. now apply heap_refines. Qed.
Lemma all_returned : forall malloc junk m os st w, well_behaved malloc -> history nothing os st -> (forall x, has st x = None) ->
  run malloc junk (init_heap m) os = Ok (w, []) -> blocks w = [].
Proof.
  intros malloc junk m os st w Hm H Hn Hr. destruct (heap_refines malloc junk Hm os st m H) as (w' & d & r & st' & E1 & E2 & E3 & _ & E5 & E6 & _).
  assert (w' = w /\ r = []) as [-> ->] by (split; congruence). rewrite (E6 eq_refl) in E5.
  destruct (blocks w) as [|[b k] l] eqn:Eb; auto. destruct E5 as (_ & E5 & _). destruct (E5 b k) as (x & sz & ts & i & a & h & K & _); [rewrite Eb; now left|].
  rewrite Hn in K. discriminate.
Qed.

(** * Sizes that wrap *)
Definition bump (t : nat) (bl : list (Z * Z)) (n : Z) : option Z :=
  let a := fold_right (fun b acc => Z.max (fst b + snd b) acc) 16 bl in if a + n <=? 2 ^ 64 then Some a else None.
Lemma bump_ok : well_behaved bump.
Proof.
  intros t bl n a Hn. unfold bump. set (f := fold_right _ _ _). destruct (Z.leb_spec (f + n) (2 ^ 64)) as [L|L]; [|discriminate]. intros E. injection E as <-.
  assert (G : 16 <= f /\ forall b m, In (b, m) bl -> b + m <= f).
  { unfold f. clear. induction bl as [|[b m] bl [IH1 IH2]]; cbn [fold_right fst snd]; [split; [lia | intros ? ? []]|].
    split; [lia|]. intros b' m' [E|Hi]; [injection E as -> ->; lia | specialize (IH2 _ _ Hi); lia]. }
  split; [lia|]. split; [lia|]. intros b m Hi. right. now apply G.
Qed.
Lemma wrapped_sizes_overlap : exists malloc junk m w d d' e e' v v',
  well_behaved malloc /\ dom_wf d /\ box_count d < 2 ^ 64 /\ in_box d e /\ dom_wf d' /\ in_box d' e' /\
  run malloc junk (init_heap m) [New 0 8 d; New 1 8 d'; Write 1 [e'] v'; Write 0 [e] v] = Ok (w, []) /\
  read_chunk w 1 [e'] = Ok v /\ v <> v'.
Proof.
  exists bump, (fun _ _ => 0), (fun _ => 0). eexists. exists [(1%nat, (0, 2 ^ 61 + 2))], [(1%nat, (0, 1))], [(1%nat, 2)], [(1%nat, 0)], [1;2;3;4;5;6;7;8], [0;0;0;0;0;0;0;0].
  split; [apply bump_ok|]. split; [split; [repeat constructor; simpl; intuition discriminate | repeat constructor; cbn [fst snd]; lia]|].
  split; [reflexivity|].
  assert (Hbox : forall n x, 0 <= x < n -> in_box [(1%nat, (0, n))] [(1%nat, x)]).
  { intros n x H. split; [split; [repeat constructor; simpl; auto | intros q; simpl; tauto]|]. intros q b f [E|[]]. injection E as <- <- <-. exists x. split; [now left | lia]. }
  split; [apply Hbox; lia|]. split; [split; [repeat constructor; simpl; intuition discriminate | repeat constructor; cbn [fst snd]; lia]|].
  split; [apply Hbox; lia|]. split; [vm_compute; reflexivity|]. split; [vm_compute; reflexivity | discriminate].
Qed.

(** * AlignedAllocator *)
Lemma aligned_round : forall malloc junk w sz n a w', well_behaved malloc -> positive_blocks w -> 0 < sz -> 0 < n ->
  aligned_allocate malloc junk 0 w sz n = Some (a, w') ->
  0 < a /\ a + sz * n <= 2 ^ 64 /\ (forall b m, In (b, m) (blocks w) -> disjoint a (sz * n) b m) /\
  blocks w' = (a, sz * n) :: blocks w /\
  exists w'', aligned_deallocate junk w' a n = Ok w'' /\ blocks w'' = blocks w.
Proof.
  intros malloc junk w sz n a w' Hm Hp Hs Hn. unfold aligned_allocate. rewrite !Z.add_0_r. destruct (sz * n <? two64); [|discriminate].
  destruct (malloc _ _ _) as [p|] eqn:Em; [|discriminate]. rewrite Z.add_0_r. intros E. injection E as <- <-.
  assert (Hpos : 0 < sz * n) by nia. destruct (Hm _ _ _ _ Hpos Em) as (P1 & P2 & P3). repeat (split; [assumption|]). split; [reflexivity|].
  unfold aligned_deallocate, kokkos_free. cbn [blocks existsb fst]. rewrite Z.eqb_refl. cbn [orb]. eexists. split; [reflexivity|]. cbn [blocks filter fst].
  rewrite Z.eqb_refl. cbn [negb].
  assert (A : forall l : list (Z * Z), (forall b m, In (b, m) l -> b <> p) -> filter (fun b => negb (fst b =? p)) l = l).
  { clear. intros l. induction l as [|[b m] l IH]; intros H; auto. cbn [filter fst].
    replace (b =? p) with false by (specialize (H b m (or_introl eq_refl)); lia). cbn [negb]. f_equal. apply IH. intros b' m' Hi. apply (H b' m'). now right. }
  apply A. intros b m Hi. specialize (P3 b m Hi). specialize (Hp b m Hi). unfold disjoint in P3. nia.
Qed.
Lemma aligned_overhead : forall malloc junk w sz n a w' overhead, well_behaved malloc -> 0 < sz -> 0 < n -> 0 < overhead ->
  aligned_allocate malloc junk overhead w sz n = Some (a, w') -> (forall b m, In (b, m) (blocks w) -> b <> a) ->
  aligned_deallocate junk w' a n = Undef.
Proof.
  intros malloc junk w sz n a w' k Hm Hs Hn Hk. unfold aligned_allocate. destruct (_ <? two64); [|discriminate].
  destruct (malloc _ _ _) as [p|] eqn:Em; [|discriminate]. intros E Hb. injection E as <- <-.
  unfold aligned_deallocate, kokkos_free. cbn [blocks existsb fst]. replace (p =? p + k) with false by lia. cbn [orb].
  replace (existsb _ (blocks w)) with false; [reflexivity|]. symmetry. apply Bool.not_true_is_false. intros H. apply existsb_exists in H as ([b m] & Hi & E).
  cbn [fst] in E. apply (Hb b m Hi). lia.
Qed.
Lemma aligned_overhead_undefined : exists malloc junk w a w', well_behaved malloc /\ blocks w = [] /\
  aligned_allocate malloc junk 8 w 24 3 = Some (a, w') /\ aligned_deallocate junk w' a 3 = Undef.
Proof. exists bump, (fun _ _ => 0), (init_heap (fun _ => 0)). do 2 eexists. split; [apply bump_ok|]. split; [reflexivity|]. split; vm_compute; reflexivity. Qed.
