(** C65: chunks are independent arrays.  The vocabulary of the statements is in HeapSpec. *)
From Verif Require Import Machine TypeSeqModel TaggedModel TaggedSpec DomainModel DomainSpec SpanModel SpanSpec HeapModel HeapSpec HeapProofs HeapTheorems.

(** Any program that creates, moves, assigns, destroys, slices and writes chunks runs without
    undefined behaviour, at every point of it the elements read what was written to them last, and
    the memory held is that of the arrays alive.  An exception of the allocator ends it between two
    statements. *)
Theorem C65_arrays : forall malloc junk m os st, well_behaved malloc -> history nothing os st ->
  exists w done rest st', run malloc junk (init_heap m) os = Ok (w, rest) /\ os = done ++ rest /\ history nothing done st' /\
    reads_agree st' w /\ memory_agrees st' w /\
    (rest = [] -> st' = st) /\ (rest = [] \/ exists t bl n, 0 < n /\ malloc t bl n = None).
Proof. exact arrays_independent. Qed.
Print Assumptions C65_arrays.
Theorem C65_all_returned : forall malloc junk m os st w, well_behaved malloc -> history nothing os st -> (forall x, has st x = None) ->
  run malloc junk (init_heap m) os = Ok (w, []) -> blocks w = [].
Proof. exact all_returned. Qed.
Print Assumptions C65_all_returned.
(** Without the bound on the bytes of an array ([fits]), writing one chunk changes another. *)
Theorem C65_huge_arrays_refuted : exists malloc junk m w d d' e e' v v',
  well_behaved malloc /\ dom_wf d /\ box_count d < 2 ^ 64 /\ in_box d e /\ dom_wf d' /\ in_box d' e' /\
  run malloc junk (init_heap m) [New 0 8 d; New 1 8 d'; Write 1 [e'] v'; Write 0 [e] v] = Ok (w, []) /\
  read_chunk w 1 [e'] = Ok v /\ v <> v'.
Proof. exact wrapped_sizes_overlap. Qed.
Print Assumptions C65_huge_arrays_refuted.
(** AlignedAllocator, for types whose array new-expression needs no overhead. *)
Theorem C65_aligned : forall malloc junk w sz n a w', well_behaved malloc -> positive_blocks w -> 0 < sz -> 0 < n ->
  aligned_allocate malloc junk 0 w sz n = Some (a, w') ->
  0 < a /\ a + sz * n <= 2 ^ 64 /\ (forall b m, In (b, m) (blocks w) -> disjoint a (sz * n) b m) /\
  blocks w' = (a, sz * n) :: blocks w /\
  exists w'', aligned_deallocate junk w' a n = Ok w'' /\ blocks w'' = blocks w.
Proof. exact aligned_round. Qed.
Print Assumptions C65_aligned.
(** With an overhead (non-trivial destructors), the pointer returned is not the one to give back. *)
Theorem C65_aligned_destructors_refuted : exists malloc junk w a w', well_behaved malloc /\ blocks w = [] /\
  aligned_allocate malloc junk 8 w 24 3 = Some (a, w') /\ aligned_deallocate junk w' a 3 = Undef.
Proof. exact aligned_overhead_undefined. Qed.
Print Assumptions C65_aligned_destructors_refuted.

(** A chunk and a view of its column; the chunk is moved and the view writes on; another chunk of
    another type lives through it. *)
Definition d65 : domain := [(1%nat, (5, 7)); (2%nat, (10, 13))].
Definition prog65 : list op :=
  [New 0 2 d65; New 1 1 [(3%nat, (0, 2))]; View 9 0 [SElem [(2%nat, 11)]]; Write 0 [[(1%nat, 6); (2%nat, 11)]] [1; 2]; Write 1 [[(3%nat, 1)]] [7];
   MoveCtor 2 0; WriteView 9 [[(1%nat, 6)]] [3; 4]; Write 2 [[(2%nat, 12)]; [(1%nat, 6)]] [5; 6]; Destroy 0; Destroy 1].
Example C65_ex : well_behaved bump /\ (exists st, history nothing prog65 st /\ has st 2 = Some (2, [1%nat; 2%nat], Some 0%nat) /\ sees st 9 = Some (0%nat, [SElem [(2%nat, 11)]]) /\
    exists a, arrays st 0 = Some a /\ latest (a_log a) [(1%nat, 6); (2%nat, 11)] = Some [3; 4]) /\
  match run bump (fun _ _ => 0) (init_heap (fun _ => 0)) prog65 with
  | Ok (w, []) => blocks w = [(16, 12)] /\ read_chunk w 2 [[(1%nat, 6); (2%nat, 11)]] = Ok [3; 4] /\ read_view w 9 [[(1%nat, 6)]] = Ok [3; 4] /\
                  read_chunk w 2 [[(1%nat, 6); (2%nat, 12)]] = Ok [5; 6] /\ read_chunk w 0 [[(1%nat, 6); (2%nat, 11)]] = Rejected
  | _ => False
  end.
Proof.
  assert (Hd : dom_wf d65) by (split; [repeat constructor; simpl; intuition discriminate | repeat constructor; simpl; lia]).
  assert (Hb : forall x y, 5 <= x < 7 -> 10 <= y < 13 -> in_box d65 [(1%nat, x); (2%nat, y)]).
  { intros x y Hx Hy. split; [split; [repeat constructor; simpl; intuition discriminate | intros q; simpl; tauto]|].
    intros q b f [E|[E|[]]]; injection E as <- <- <-; [exists x | exists y]; unfold val_of; simpl; auto. }
  split; [apply bump_ok|]. split; [|vm_compute; auto 10].
  eexists. split; [|split; [|split]].
  - unfold prog65. econstructor; [apply do_new; [reflexivity | split; [lia | split; [exact Hd | vm_compute; reflexivity]]]|].
    econstructor; [apply do_new; [reflexivity | split; [lia | split; [split; [repeat constructor; simpl; auto | repeat constructor; simpl; lia] | vm_compute; reflexivity]]]|].
    econstructor; [eapply do_view; [reflexivity | reflexivity |]|].
    { cbn [slices_ok a_dom]. split; auto. split; [repeat constructor; simpl; auto|]. intros q x [E|[]]. injection E as <- <-. exists 10, 13. split; [simpl; auto | lia]. }
    econstructor; [eapply do_write; [reflexivity | reflexivity | apply Hb; lia | reflexivity]|].
    econstructor; [eapply do_write; [reflexivity | reflexivity | | reflexivity]|].
    { cbn [a_dom]. split; [split; [repeat constructor; simpl; auto | intros q; simpl; tauto]|]. intros q b f [E|[]]. injection E as <- <- <-. exists 1. split; [now left | lia]. }
    econstructor; [eapply do_move; reflexivity|].
    econstructor; [eapply do_write_view; [reflexivity | reflexivity | reflexivity | | reflexivity]|].
    { cbn [a_dom]. split; [split; [repeat constructor; simpl; auto | intros q; simpl; tauto]|]. intros q b f [E|[]]. injection E as <- <- <-. exists 6. split; [now left | lia]. }
    econstructor; [eapply do_write; [reflexivity | reflexivity | | reflexivity]|].
    { cbn [a_dom]. split; [split; [repeat constructor; simpl; intuition discriminate | intros q; simpl; tauto]|].
      intros q b f [E|[E|[]]]; injection E as <- <- <-; [exists 6 | exists 12]; unfold val_of; simpl; auto with zarith. }
    econstructor; [eapply do_destroy; reflexivity|].
    econstructor; [eapply do_destroy; reflexivity|]. constructor.
  - reflexivity.
  - reflexivity.
  - eexists. split; [reflexivity|]. reflexivity.
Qed.
Example C65_aligned_ex : positive_blocks (init_heap (fun _ => 0)) /\
  exists a w', aligned_allocate bump (fun _ _ => 0) 0 (init_heap (fun _ => 0)) 24 3 = Some (a, w') /\ a = 16 /\ blocks w' = [(16, 72)].
Proof. split; [intros b m []|]. do 2 eexists. split; [vm_compute; reflexivity|]. split; reflexivity. Qed.
