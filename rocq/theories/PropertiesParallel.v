(** Properties C13 to C20 and C49. *)
From Coq Require Import SpecFloat Permutation.
From Verif Require Import Machine TypeSeqModel TaggedModel TaggedSpec DomainModel DomainSpec SpanModel SpanSpec KokkosModel KokkosSpec
  ChunkMemModel ChunkMemSpec ChunkMemProofs BlockModel BlockSpec BlockProofs BlockProofs2
  ReduceModel ReduceSpec ReduceProofs ReduceProofs2 ScanProofs2 ParModel ParSpec ParProofs ParProofs2 ParProofs3 ParallelLemmas.
Import BlockSpec.

(** * C13: ownership of buffers *)
Theorem C13_histories : forall os, legal (fun _ => false) os = true ->
  exists w, run_ops init_world os = Ok w /\
    (forall x y p, owns w x p -> owns w y p -> x = y) /\
    (forall p, is_live w p <-> exists x, owns w x p) /\
    (forall p, allocated w p <-> is_live w p \/ In p (freed w)) /\
    (forall p, is_live w p -> ~ In p (freed w)) /\
    NoDup (freed w) /\
    ((forall x, ~ alive w x) -> live w = [] /\ forall p, allocated w p -> In p (freed w)).
Proof. exact history_ok. Qed.
Print Assumptions C13_histories.
Theorem C13_moves : forall os w, legal (fun _ => false) os = true -> run_ops init_world os = Ok w ->
  (forall x y w', step w (MoveCtor x y) = Ok w' ->
     (forall p, owns w' x p <-> owns w y p) /\ (forall p, ~ owns w' y p) /\ live w' = live w) /\
  (forall x y w', x <> y -> step w (MoveAssign x y) = Ok w' ->
     (forall p, owns w' x p <-> owns w y p) /\ (forall p, ~ owns w' y p) /\
     (forall p, is_live w' p <-> is_live w p /\ ~ owns w x p)).
Proof. exact move_semantics. Qed.
Print Assumptions C13_moves.
(** Move assignment of a chunk to itself frees its buffer: the content is lost (nothing is freed twice). *)
Theorem C13_self_move_refuted : exists os w w' p, legal (fun _ => false) os = true /\ run_ops init_world os = Ok w /\
  owns w 0 p /\ step w (MoveAssign 0 0) = Ok w' /\ In p (freed w') /\ ~ owns w' 0 p.
Proof. exact self_move_frees. Qed.
Print Assumptions C13_self_move_refuted.
Example C13_ex : legal (fun _ => false) [Alloc 0 5 false; Alloc 1 7 false; MoveAssign 0 1; MoveCtor 2 0; Default 3; MoveAssign 3 2; Destroy 0; Destroy 2; Destroy 1; Destroy 3] = true /\
  match run_ops init_world [Alloc 0 5 false; Alloc 1 7 false; MoveAssign 0 1; MoveCtor 2 0; Default 3; MoveAssign 3 2; Destroy 0; Destroy 2; Destroy 1; Destroy 3] with Ok w => freed w = [1; 0]%nat | _ => False end.
Proof. split; vm_compute; reflexivity. Qed.

(** * C14: iteration over blocks *)
Theorem C14_blocks : forall d nbs, dom_wf d -> block_counts d nbs ->
  exists l : list domain,
    (forall (S : Type) (f : domain -> S -> S) (s : S), for_each_block d nbs f s = Ok (fold_left (fun s b => f b s) l s)) /\
    partition d l /\ balanced l /\ Z.of_nat (length l) = product (values nbs) /\
    ((forall q b f nb, In (q, (b, f)) d -> val_of nbs q nb -> nb <= f - b) -> Forall (fun b => box_count b <> 0) l).
Proof. exact for_each_block_ok. Qed.
Print Assumptions C14_blocks.
Theorem C14_total : forall d nb k, dom_wf d -> 0 <= k <= 62 -> nb = 2 ^ k ->
  nb <= max_blocks (map (fun p => snd (snd p) - fst (snd p)) d) ->
  exists l : list domain,
    (forall (S : Type) (f : domain -> S -> S) (s : S), for_each_block_total d nb f s = Ok (Some (fold_left (fun s b => f b s) l s))) /\
    partition d l /\ balanced l /\ Z.of_nat (length l) = nb /\ (box_count d <> 0 -> Forall (fun b => box_count b <> 0) l).
Proof. exact total_ok. Qed.
Print Assumptions C14_total.
Definition d57 : domain := [(1%nat, (3, 8)); (2%nat, (0, 7))].
Example C14_ex : dom_wf d57 /\ block_counts d57 [(1%nat, 2); (2%nat, 3)] /\
  for_each_block d57 [(1%nat, 2); (2%nat, 3)] (fun b l => l ++ [b]) [] =
    Ok [ [(1%nat, (3, 6)); (2%nat, (0, 3))]; [(1%nat, (3, 6)); (2%nat, (3, 5))]; [(1%nat, (3, 6)); (2%nat, (5, 7))];
         [(1%nat, (6, 8)); (2%nat, (0, 3))]; [(1%nat, (6, 8)); (2%nat, (3, 5))]; [(1%nat, (6, 8)); (2%nat, (5, 7))] ].
Proof.
  split; [split; [repeat constructor; simpl; intuition congruence | repeat constructor; simpl; lia]|].
  split; [split; [reflexivity|]; intros q nb [H|[H|[]]]; injection H as <- <-; lia|]. vm_compute. reflexivity.
Qed.

(** * C15: distribution of a total number of blocks *)
Theorem C15_distribution : forall nb sizes, 0 <= nb <= 2 ^ 62 ->
  (((exists k, 0 <= k /\ nb = 2 ^ k) /\ nb <= max_blocks sizes ->
     exists per, distribute_blocks nb sizes = Ok (Some per) /\ product per = nb /\ Forall2 (fun p s => 1 <= p <= Z.max 1 s) per sizes) /\
   (~ ((exists k, 0 <= k /\ nb = 2 ^ k) /\ nb <= max_blocks sizes) -> distribute_blocks nb sizes = Ok None)).
Proof. exact distribute_ok. Qed.
Print Assumptions C15_distribution.
Example C15_ex : distribute_blocks 16 [5; 7; 3] = Ok (Some [4; 4; 1]) /\ distribute_blocks 64 [5; 7; 3] = Ok None /\
  distribute_blocks 6 [5; 7; 3] = Ok None /\ max_blocks [5; 7; 3] = 32.
Proof. repeat split; vm_compute; reflexivity. Qed.

(** * C16: sequential transform_reduce *)
Theorem C16_any_order : forall (T : Type) (neutral : T) reduce d (f : tagged -> T) l,
  (forall a b c, reduce a (reduce b c) = reduce (reduce a b) c) -> (forall a b, reduce a b = reduce b a) ->
  (forall a, reduce neutral a = a) -> dom_wf d -> enumerates d l ->
  host_transform_reduce d neutral reduce f = Ok (fold_right (fun e acc => reduce (f e) acc) neutral l).
Proof. exact @serial_any_order. Qed.
Print Assumptions C16_any_order.
(** Without commutativity: in the order of host_for_each, each new value on the left. *)
Theorem C16_in_order : forall (T : Type) (neutral : T) reduce d (f : tagged -> T) l,
  (forall a b c, reduce a (reduce b c) = reduce (reduce a b) c) ->
  (forall a, reduce neutral a = a) -> (forall a, reduce a neutral = a) -> dom_wf d ->
  host_for_each d (fun e l => l ++ [e]) [] = Ok l ->
  host_transform_reduce d neutral reduce f = Ok (fold_left (fun acc e => reduce (f e) acc) l neutral).
Proof. exact @serial_in_order. Qed.
Print Assumptions C16_in_order.
(** With an initial value that is not neutral, the value enters once per row: 3, not 1, here. *)
Theorem C16_initial_value_refuted : host_transform_reduce d22 1 Z.add (fun _ => 0) = Ok 3.
Proof. exact not_neutral. Qed.
Print Assumptions C16_initial_value_refuted.
Example C16_ex : dom_wf d22 /\ enumerates d22 [[(1%nat, 1); (2%nat, 1)]; [(1%nat, 0); (2%nat, 1)]; [(1%nat, 1); (2%nat, 0)]; [(1%nat, 0); (2%nat, 0)]] /\
  host_transform_reduce d22 0 Z.add (fun e => fold_right (fun p acc => snd p + 10 * acc) 0 e) = Ok 22.
Proof.
  split; [exact d22_wf|]. split; [|vm_compute; reflexivity]. pose proof (trace_enum d22 d22_wf) as [H1 H2]. split.
  - repeat (constructor; [simpl; intuition congruence|]). constructor.
  - intros e. rewrite <- H2. vm_compute. tauto.
Qed.

(** * C17: parallel reductions *)
Theorem C17_reducers : forall r d neutral f s l, dom_wf d -> covers s (sizes_of d) -> enumerates d l -> r <> RBxor ->
  (forall e, 0 <= f e < 2 ^ 64) -> parallel_transform_reduce r d neutral f s = Ok (reduction r (map f l)).
Proof. exact parallel_reduce_exact. Qed.
Print Assumptions C17_reducers.
Theorem C17_bxor_rejected : forall d neutral f s, parallel_transform_reduce RBxor d neutral f s = Rejected.
Proof. exact bxor_rejected. Qed.
Print Assumptions C17_bxor_rejected.
Theorem C17_signed_sum : forall d f s l, dom_wf d -> covers s (sizes_of d) -> enumerates d l ->
  abs_sum (map f l) < 2 ^ 63 -> parallel_sum_signed d f s = Ok (fold_right Z.add 0 (map f l)).
Proof. exact signed_sum_exact. Qed.
Print Assumptions C17_signed_sum.
(** The reduction over the other dimensions, stored in a chunk. *)
Theorem C17_into_chunk : forall r d out f sch m l, dom_wf d -> span_wf out -> no_aliasing out -> r <> RBxor ->
  box_count (s_dom out) < 2 ^ 64 ->
  (forall q b fe, In (q, (b, fe)) (s_dom out) -> In (q, (b, fe)) d) ->
  enumerates (without d (ddims (s_dom out))) l ->
  (forall e1 e2, 0 <= f e1 e2 < 2 ^ 64) ->
  (forall e, in_box (s_dom out) e -> covers (sch e) (sizes_of (without d (ddims (s_dom out))))) ->
  exists m', parallel_transform_reduce_to r d out f sch m = Ok m' /\
    (forall e, dims e = ddims (s_dom out) -> in_box (s_dom out) e -> span_read m' out [e] = Ok (reduction r (map (f e) l))) /\
    (forall a, outside out a -> m' a = m a).
Proof. exact reduce_to_exact. Qed.
Print Assumptions C17_into_chunk.
(** With doubles the result depends on the schedule. *)
Theorem C17_floating_sum_refuted : exists s1 s2 x y, covers s1 (sizes_of d3) /\ covers s2 (sizes_of d3) /\
  run_reduce double_add double_add (S754_zero false) d3 three_doubles s1 = Ok x /\
  run_reduce double_add double_add (S754_zero false) d3 three_doubles s2 = Ok y /\ x <> y.
Proof. exact float_schedules. Qed.
Print Assumptions C17_floating_sum_refuted.
(** A signed sum that fits overflows under some schedules. *)
Theorem C17_signed_sum_refuted : exists s1 s2, covers s1 (sizes_of d3) /\ covers s2 (sizes_of d3) /\
  parallel_sum_signed d3 three_ints s1 = Undef /\ parallel_sum_signed d3 three_ints s2 = Ok (2 ^ 63 - 1).
Proof. exact signed_schedules. Qed.
Print Assumptions C17_signed_sum_refuted.
Example C17_ex : dom_wf d22 /\ covers (Join (Leaf [[1; 1]; [0; 0]]) (Join (Leaf []) (Leaf [[0; 1]; [1; 0]]))) (sizes_of d22) /\
  parallel_transform_reduce RMax d22 77 (fun e => fold_right (fun p acc => snd p + 10 * acc) 0 e)
    (Join (Leaf [[1; 1]; [0; 0]]) (Join (Leaf []) (Leaf [[0; 1]; [1; 0]]))) = Ok 11 /\
  without d22 [1%nat] = [(2%nat, (0, 2))].
Proof.
  split; [exact d22_wf|]. split; [|split; vm_compute; reflexivity].
  unfold covers. apply NoDup_Permutation.
  - repeat (constructor; [simpl; intuition congruence|]). constructor.
  - vm_compute. repeat (constructor; [simpl; intuition congruence|]). constructor.
  - intros x. vm_compute. tauto.
Qed.

(** * C18: parallel scans *)
Theorem C18_scan : forall ty r q out b fe f g x m, span_wf out -> no_aliasing out -> In (q, (b, fe)) (s_dom out) -> r <> RBxor ->
  (forall ib es, 0 <= g ib es < 2 ^ 64) ->
  (forall ib y m', in_box (without (s_dom out) [q]) ib -> b <= y < fe -> same_inputs ty out m m' ib [(q, y)] -> f m' ib [(q, y)] = g ib [(q, y)]) ->
  (forall ib, in_box (without (s_dom out) [q]) ib -> scan_contract (x ib) (fe - b)) ->
  exists m', parallel_transform_scan ty r q out f x m = Ok m' /\
  (forall ib y, dims ib = ddims (without (s_dom out) [q]) -> in_box (without (s_dom out) [q]) ib -> b <= y < fe ->
     span_read m' out [ib; [(q, y)]] = Ok (reduction r (map (fun z => g ib [(q, z)]) (upto (match ty with Inclusive => true | Exclusive => false end) b y)))) /\
  (forall a, outside out a -> m' a = m a).
Proof. exact scan_full. Qed.
Print Assumptions C18_scan.
(** An exclusive scan in place (the functor reads the cell being scanned) is wrong: the cell is
    overwritten before the functor reads it.  5 and 7 are scanned to 0 and 0 instead of 0 and 5. *)
Theorem C18_exclusive_in_place_refuted : exists m', parallel_transform_scan Exclusive RSum 1%nat chunk2 own_cell one_chunk mem57 = Ok m' /\
  span_read m' chunk2 [[]; [(1%nat, 1)]] = Ok 0 /\
  reduction RSum (map (fun z => own_cell mem57 [] [(1%nat, z)]) (upto false 0 1)) = 5.
Proof. exact in_place_wrong. Qed.
Print Assumptions C18_exclusive_in_place_refuted.
Definition split_exec (_ : tagged) : scan_exec := mk_scan_exec [([0; 1], SLeaf []); ([2], SJoin (SLeaf [0]) (SLeaf [1]))] [1; 0; 0]%nat.
Definition chunk23 : span := mk_span (mk_mdspan 100 LRight [2; 3]) [(1%nat, (0, 2)); (2%nat, (5, 8))].
Example C18_ex : span_wf chunk23 /\ (forall ib, scan_contract (split_exec ib) (8 - 5)) /\
  rbind (parallel_transform_scan Exclusive RSum 2%nat chunk23 (fun _ ib es => 2 ^ 63 + fold_right (fun p acc => snd p + acc) 0 (ib ++ es)) split_exec (fun _ => 0))
    (fun m => span_read m chunk23 [[(1%nat, 1); (2%nat, 7)]]) = Ok 13.
Proof.
  split; [|split; [|vm_compute; reflexivity]].
  - split; [split; [repeat constructor; simpl; intuition congruence | repeat constructor; simpl; lia]|]. split; [reflexivity|]. vm_compute. reflexivity.
  - intros ib. split; [reflexivity|]. split; [cbn; auto|]. intros [|[|[|k]]]; reflexivity.
Qed.

(** * C19: parallel loops *)
(** The functor is called once per element of the domain. *)
Theorem C19_called_once : forall d, dom_wf d ->
  exists l, rbind (extents d) (fun ex => map_res (policy_elem d) (policy_indices (values ex))) = Ok l /\ enumerates d l.
Proof. exact called_once. Qed.
Print Assumptions C19_called_once.
(** Whatever the interleaving of the calls, a functor without races leaves the memory host_for_each leaves. *)
Theorem C19_for_each : forall (V : Type) d (f : tagged -> prog V) R W m, dom_wf d -> race_free d f R W ->
  exists mh, host_for_each d (fun e m => run_alone (f e) m) m = Ok mh /\
    (exists sched m', parallel_for_each d (fun e => Ok (f e)) sched m = Ok m') /\
    (forall sched m', parallel_for_each d (fun e => Ok (f e)) sched m = Ok m' -> forall a, m' a = mh a).
Proof. exact @for_each_any_schedule. Qed.
Print Assumptions C19_for_each.
Theorem C19_transform : forall (V : Type) dst (f : V -> V) m, span_wf dst -> no_aliasing dst ->
  (exists sched m', parallel_transform dst f sched m = Ok m') /\
  forall sched m', parallel_transform dst f sched m = Ok m' ->
    (forall e v, in_box (s_dom dst) e -> span_read m dst [e] = Ok v -> span_read m' dst [e] = Ok (f v)) /\
    (forall a, ~ cell_of dst a -> m' a = m a).
Proof. exact @transform_ok. Qed.
Print Assumptions C19_transform.
Theorem C19_fill : forall (V : Type) dst (x : V) g m, span_wf dst -> no_aliasing dst -> room dst g ->
  (exists sched m', parallel_fill dst x g sched m = Ok m') /\
  forall sched m', parallel_fill dst x g sched m = Ok m' ->
    (forall e, in_box (s_dom dst) e -> span_read m' dst [e] = Ok x) /\
    (forall a, ~ cell_of dst a -> m' a = m a).
Proof. exact @fill_ok. Qed.
Print Assumptions C19_fill.
Example C19_ex : span_wf chunk2 /\ room chunk2 [0; 0] /\
  rbind (parallel_transform chunk2 (fun v => 2 * v + 1) [1; 0; 0; 1]%nat mem57) (fun m => Ok (m 100, m 101, m 102)) = Ok (11, 15, 0) /\
  rbind (parallel_fill chunk2 9 [0; 0] [1; 0]%nat mem57) (fun m => Ok (m 100, m 101, m 102)) = Ok (9, 9, 0) /\
  rbind (parallel_for_each (s_dom chunk2) (fun e => rbind (span_access chunk2 [e]) (fun a => Ok (PRead (a - 50) (fun v => PWrite a v PRet)))) [0; 1; 1; 0]%nat mem57)
    (fun m => Ok (m 100, m 101, m 102)) = Ok (0, 0, 0).
Proof.
  split; [split; [split; [repeat constructor; simpl; intuition congruence | repeat constructor; simpl; lia]|split; [reflexivity | vm_compute; reflexivity]]|].
  split; [split; [reflexivity | simpl; lia]|]. repeat split; vm_compute; reflexivity.
Qed.

(** * C20: copies *)
Theorem C20_copy : forall (V : Type) dst src g1 g2 (m : memory V), span_wf dst -> span_wf src -> no_aliasing dst -> sub_domain (s_dom src) (s_dom dst) ->
  box_count (s_dom src) < 2 ^ 64 -> room dst g1 -> room src g2 -> disjoint_spans dst src ->
  (exists sched m', parallel_copy dst src g1 g2 sched m = Ok m') /\
  forall sched m', parallel_copy dst src g1 g2 sched m = Ok m' ->
    (forall e e', in_box (s_dom dst) e -> in_box (s_dom src) e' -> agree_on (s_dom src) e' e -> span_read m' dst [e] = span_read m src [e']) /\
    (forall a, ~ cell_of dst a -> m' a = m a).
Proof. exact @copy_ok. Qed.
Print Assumptions C20_copy.
Theorem C20_deepcopy : forall (V : Type) dst src g1 g2 (m : memory V), span_wf dst -> span_wf src -> no_aliasing dst -> s_dom dst = s_dom src ->
  box_count (s_dom dst) < 2 ^ 64 -> room dst g1 -> room src g2 -> may_copy dst src ->
  (exists sched m', parallel_deepcopy dst src g1 g2 sched m = Ok m') /\
  forall sched m', parallel_deepcopy dst src g1 g2 sched m = Ok m' ->
    (forall e, in_box (s_dom dst) e -> span_read m' dst [e] = span_read m src [e]) /\
    (forall a, ~ cell_of dst a -> m' a = m a).
Proof. exact @deepcopy_ok. Qed.
Print Assumptions C20_deepcopy.
(** Transposed broadcast: dst over (2, 1, 3), src over (1, 2). *)
Definition dst_213 : span := mk_span (mk_mdspan 200 LRight [3; 2; 2]) [(2%nat, (5, 8)); (1%nat, (0, 2)); (3%nat, (0, 2))].
Example C20_ex : span_wf dst_213 /\ sub_domain (s_dom chunk23) (s_dom dst_213) /\ room dst_213 [0; 0; 0; 0; 0; 0] /\
  (rbind (parallel_copy dst_213 chunk23 [0; 0; 0; 0; 0; 0] [0; 0; 0; 0] [0; 1; 2; 3; 11; 10; 9; 8; 7; 6; 5; 4; 4; 5; 6; 7; 8; 9; 10; 11; 0; 1; 2; 3]%nat (fun a => a))
    (fun m => rbind (span_read m dst_213 [[(1%nat, 1); (2%nat, 7)]; [(3%nat, 0)]]) (fun x => rbind (span_read m dst_213 [[(3%nat, 1); (1%nat, 0); (2%nat, 6)]]) (fun y => Ok (x, y)))) = Ok (105, 101)).
Proof.
  split; [split; [split; [repeat constructor; simpl; intuition congruence | repeat constructor; simpl; lia]|split; [reflexivity | vm_compute; reflexivity]]|].
  split; [intros q b f [H|[H|[]]]; injection H as <- <- <-; simpl; auto|]. split; [split; [reflexivity | simpl; lia]|]. vm_compute. reflexivity.
Qed.

(** * C49: mirrors *)
Theorem C49_mirror : forall (V : Type) src fresh g1 g2 (m : memory V), span_wf src -> m_lay (s_md src) = LRight -> box_count (s_dom src) < 2 ^ 64 -> fresh_for src fresh ->
  room src g1 -> room src g2 ->
  exists c, create_mirror src fresh = Ok c /\ create_mirror_view false src fresh = Ok c /\ create_mirror_view true src fresh = Ok src /\
    s_dom c = s_dom src /\ m_lay (s_md c) = LRight /\ span_wf c /\ no_aliasing c /\ disjoint_spans c src /\
    (exists sched m', create_mirror_and_copy src fresh g1 g2 sched m = Ok (c, m')) /\
    (forall sched, create_mirror_view_and_copy true src fresh g1 g2 sched m = Ok (src, m)) /\
    (forall sched, create_mirror_view_and_copy false src fresh g1 g2 sched m = create_mirror_and_copy src fresh g1 g2 sched m) /\
    forall sched c' m', create_mirror_and_copy src fresh g1 g2 sched m = Ok (c', m') ->
      c' = c /\ (forall e, in_box (s_dom src) e -> span_read m' c [e] = span_read m src [e]) /\
      (forall a, ~ (fresh <= a < fresh + box_count (s_dom src)) -> m' a = m a).
Proof. exact @mirror_ok. Qed.
Print Assumptions C49_mirror.
Theorem C49_layout_right : forall (V : Type) src fresh g1 g2 (m : memory V), span_wf src -> box_count (s_dom src) < 2 ^ 64 -> fresh_for src fresh ->
  room src g1 -> room src g2 ->
  (exists sched c m', create_layout_right_view_and_copy src fresh g1 g2 sched m = Ok (c, m')) /\
  forall sched c m', create_layout_right_view_and_copy src fresh g1 g2 sched m = Ok (c, m') ->
    s_dom c = s_dom src /\ m_lay (s_md c) = LRight /\ span_wf c /\ (m_lay (s_md src) = LRight -> c = src) /\
    (m_lay (s_md src) <> LRight -> disjoint_spans c src /\ forall a, cell_of c a -> fresh <= a < fresh + box_count (s_dom src)) /\
    (forall e, in_box (s_dom src) e -> span_read m' c [e] = span_read m src [e] /\ span_read m' src [e] = span_read m src [e]).
Proof. exact @layout_right_ok. Qed.
Print Assumptions C49_layout_right.
Definition chunk2_left : span := mk_span (mk_mdspan 100 LLeft [2; 3]) [(1%nat, (0, 2)); (2%nat, (5, 8))].
Example C49_ex : m_lay (s_md chunk23) = LRight /\ room chunk23 [0; 0; 0; 0] /\
  rbind (create_mirror_and_copy chunk23 300 [0; 0; 0; 0] [0; 0; 0; 0] [0; 0; 1; 1; 2; 2; 3; 4; 5; 3; 4; 5]%nat (fun a => a))
    (fun p => span_read (snd p) (fst p) [[(1%nat, 1); (2%nat, 6)]]) = Ok 104 /\
  rbind (create_layout_right_view_and_copy chunk2_left 300 [0; 0; 0; 0] [0; 0; 0; 0] [0; 0; 1; 1; 2; 2; 3; 4; 5; 3; 4; 5]%nat (fun a => a))
    (fun p => span_read (snd p) (fst p) [[(1%nat, 1); (2%nat, 6)]]) = Ok 103.
Proof. split; [reflexivity|]. split; [split; [reflexivity | simpl; lia]|]. split; vm_compute; reflexivity. Qed.
