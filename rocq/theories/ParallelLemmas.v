(** Witnesses for the parallel algorithms. *)
From Coq Require Import SpecFloat Permutation.
From Verif Require Import Machine MachineProofs TypeSeqModel TaggedModel TaggedSpec TaggedProofs
  DomainModel DomainSpec DomainProofs ListAux DomainProofs2 SpanModel SpanSpec SpanProofs StorageProofs KokkosModel KokkosSpec KokkosProofs
  ChunkMemModel ChunkMemSpec BlockModel BlockSpec
  ReduceModel ReduceSpec ReduceProofs ReduceProofs2 ParModel ParSpec ParProofs ParProofs2 ParProofs3.

Lemma self_move_frees : exists os w w' p, legal (fun _ => false) os = true /\ run_ops init_world os = Ok w /\
  owns w 0 p /\ step w (MoveAssign 0 0) = Ok w' /\ In p (freed w') /\ ~ owns w' 0 p.
Proof.
  exists [Alloc 0 5 false]. do 2 eexists. exists 0%nat. split; [reflexivity|]. split; [vm_compute; reflexivity|].
  split; [eexists; split; reflexivity|]. split; [vm_compute; reflexivity|]. split; [now left|].
  intros (c & H1 & H2). vm_compute in H1. injection H1 as <-. discriminate.
Qed.

Definition d22 : domain := [(1%nat, (0, 2)); (2%nat, (0, 2))].
Lemma d22_wf : dom_wf d22.
Proof. split; [repeat constructor; simpl; intuition congruence|]. repeat constructor; simpl; lia. Qed.
(** A value that is not neutral is added once for every row and once more. *)
Lemma not_neutral : host_transform_reduce d22 1 Z.add (fun _ => 0) = Ok 3.
Proof. vm_compute. reflexivity. Qed.

Definition d3 : domain := [(1%nat, (0, 3))].
Lemma d3_wf : dom_wf d3.
Proof. split; [repeat constructor; simpl; intuition congruence|]. repeat constructor; simpl; lia. Qed.
(** double: 2^53, 1, 1. *)
Definition f_big : spec_float := S754_finite false 4503599627370496 1.
Definition f_one : spec_float := S754_finite false 4503599627370496 (-52).
Definition three_doubles (e : tagged) : spec_float := match e with [(_, 0)] => f_big | _ => f_one end.
Definition double_add := SFadd 53 1024.
Lemma float_schedules : exists s1 s2 x y, covers s1 (sizes_of d3) /\ covers s2 (sizes_of d3) /\
  run_reduce double_add double_add (S754_zero false) d3 three_doubles s1 = Ok x /\
  run_reduce double_add double_add (S754_zero false) d3 three_doubles s2 = Ok y /\ x <> y.
Proof.
  exists (Leaf [[0]; [1]; [2]]), (Join (Leaf [[0]]) (Leaf [[1]; [2]])). do 2 eexists.
  split; [apply Permutation_refl|]. split; [apply Permutation_refl|]. split; [vm_compute; reflexivity|]. split; [vm_compute; reflexivity|]. discriminate.
Qed.
Definition three_ints (e : tagged) : Z := match e with [(_, 0)] => 2 ^ 63 - 1 | [(_, 1)] => 1 | _ => -1 end.
Lemma signed_schedules : exists s1 s2, covers s1 (sizes_of d3) /\ covers s2 (sizes_of d3) /\
  parallel_sum_signed d3 three_ints s1 = Undef /\ parallel_sum_signed d3 three_ints s2 = Ok (2 ^ 63 - 1).
Proof.
  exists (Leaf [[0]; [1]; [2]]), (Join (Leaf [[0]]) (Leaf [[1]; [2]])).
  split; [apply Permutation_refl|]. split; [apply Permutation_refl|]. split; vm_compute; reflexivity.
Qed.

(** A two-element chunk holding 5 and 7, scanned in place. *)
Definition chunk2 : span := mk_span (mk_mdspan 100 LRight [2]) [(1%nat, (0, 2))].
Definition mem57 : memory Z := fun a => if a =? 100 then 5 else if a =? 101 then 7 else 0.
Definition own_cell (m : memory Z) (ib es : tagged) : Z := match span_read m chunk2 [ib; es] with Ok v => v | _ => 0 end.
Definition one_chunk (_ : tagged) : scan_exec := mk_scan_exec [([0; 1], SLeaf [])] [0%nat; 0%nat].
Lemma one_chunk_ok ib : scan_contract (one_chunk ib) 2.
Proof.
  split; [reflexivity|]. split; [cbn; auto|]. intros [|[|k]]; reflexivity.
Qed.
Lemma in_place_wrong : exists m', parallel_transform_scan Exclusive RSum 1%nat chunk2 own_cell one_chunk mem57 = Ok m' /\
  span_read m' chunk2 [[]; [(1%nat, 1)]] = Ok 0 /\
  reduction RSum (map (fun z => own_cell mem57 [] [(1%nat, z)]) (upto false 0 1)) = 5.
Proof. eexists. split; [vm_compute; reflexivity|]. split; vm_compute; reflexivity. Qed.
Lemma in_place_inclusive : exists m', parallel_transform_scan Inclusive RSum 1%nat chunk2 own_cell one_chunk mem57 = Ok m' /\
  span_read m' chunk2 [[]; [(1%nat, 1)]] = Ok 12.
Proof. eexists. split; [vm_compute; reflexivity|]. vm_compute; reflexivity. Qed.
