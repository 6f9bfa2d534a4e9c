(** C67: what PDI sees of the chunks exposed to it, and the program examples/pdi_event.cpp.  The
    vocabulary is in ExposeSpec, PdiSpec and SpanSpec. *)
From Coq Require Import String.
From Verif Require Import Machine TypeSeqModel TaggedModel TaggedSpec DomainModel DomainSpec SpanModel SpanSpec ParModel ParSpec
  PdiModel PdiSpec ExposeModel ExposeSpec ExposeTheorems.
Local Open Scope Z_scope.

(** Among any other [with] calls of the event: if the elements are packed, PDI sees the extents of the
    domain and the values of the chunk in the order of its elements when the event is raised, once;
    afterwards PDI is as before. *)
Theorem C67_seen : forall (V : Type) ev l1 l2 name a s wr w0 (m : memory V), span_wf s -> packed s ->
  (forall k, owned w0 k = None) -> (forall n k b, ~ In (Own k, b) (shared w0 n)) ->
  Forall acceptable (l1 ++ l2) -> Forall extents_fit (l1 ++ l2) -> apart name l2 ->
  match a with Some a => acc_in a = true -> wr = true | None => True end ->
  exists d before after w1 w2 vals, exposed s wr = Ok d /\
    event_life ev (l1 ++ (name, a, d) :: l2) = Ok (before ++ [PDI_event ev] ++ after) /\
    (forall n, ~ In (PDI_event n) (before ++ after)) /\ steps w0 before w1 /\ steps w1 after w2 /\ same_world w2 w0 /\
    pdi_sees w1 m name (sizes (s_dom s)) vals (match a with Some a => a | None => if wr then read_write else read_only end) /\
    values_of m s vals.
Proof. exact @expose_reads. Qed.
Print Assumptions C67_seen.
(** and only if: no other chunk is seen right whatever its values. *)
Theorem C67_seen_iff : forall s wr ev name, span_wf s -> (reads_well s wr ev name <-> packed s).
Proof. exact expose_iff. Qed.
Print Assumptions C67_seen_iff.
(** Every chunk is packed, in any number of dimensions, ... *)
Theorem C67_chunk : forall ptr d s, dom_wf d -> box_count d < 2 ^ 64 -> span_of_ptr LRight ptr d = Ok s ->
  span_wf s /\ s_dom s = d /\ packed s.
Proof. exact chunk_packed. Qed.
Print Assumptions C67_chunk.
(** ... and so is what is left of it when the leading dimensions are fixed and the next one restricted. *)
Theorem C67_leading_slices : forall lead rest q b f b' f' e ptr s, let d := lead ++ (q, (b, f)) :: rest in
  dom_wf d -> box_count d < 2 ^ 64 -> elem_ok d e -> (forall t, In t (dims e) <-> In t (ddims lead)) ->
  b <= b' <= f' -> f' <= f -> span_of_ptr LRight ptr d = Ok s ->
  exists s', run_slices s [SElem e; SDom [(q, (b', f'))]] = Ok s' /\ span_wf s' /\ s_dom s' = (q, (b', f')) :: rest /\ packed s'.
Proof. exact leading_packed. Qed.
Print Assumptions C67_leading_slices.
(** What PDI writes to an array it may write becomes the values of the chunk and changes nothing else. *)
Theorem C67_written : forall (V : Type) s (m : memory V) vals, span_wf s -> packed s -> Z.of_nat (length vals) = elements (sizes (s_dom s)) ->
  values_of (overwrite m (m_ptr (s_md s)) vals) s vals /\
  forall a, ~ cell_of s a -> overwrite m (m_ptr (s_md s)) vals a = m a.
Proof. exact @expose_writes. Qed.
Print Assumptions C67_written.
(** Finding: the layout is not looked at.  A column, or some of the columns, of a matrix with at least
    two rows and two columns, and a matrix stored by columns, are accepted and seen wrong. *)
Theorem C67_column_refuted : forall qx qy x0 x1 y0 y1 ptr, qx <> qy -> let d := [(qx, (x0, x1)); (qy, (y0, y1))] in
  dom_wf d -> box_count d < 2 ^ 64 -> forall j s, x0 + 2 <= x1 -> y0 <= j < y1 -> y0 + 2 <= y1 -> span_of_ptr LRight ptr d = Ok s ->
  exists s', run_slices s [SElem [(qy, j)]] = Ok s' /\ span_wf s' /\ s_dom s' = [(qx, (x0, x1))] /\
    forall wr ev name, ~ reads_well s' wr ev name.
Proof. exact column_seen_wrong. Qed.
Print Assumptions C67_column_refuted.
Theorem C67_columns_refuted : forall qx qy x0 x1 y0 y1 ptr, qx <> qy -> let d := [(qx, (x0, x1)); (qy, (y0, y1))] in
  dom_wf d -> box_count d < 2 ^ 64 -> forall j0 j1 s, x0 + 2 <= x1 -> y0 <= j0 -> j0 < j1 -> j1 <= y1 -> j1 - j0 < y1 - y0 ->
  span_of_ptr LRight ptr d = Ok s ->
  exists s', run_slices s [SDom [(qy, (j0, j1))]] = Ok s' /\ span_wf s' /\ s_dom s' = [(qx, (x0, x1)); (qy, (j0, j1))] /\
    forall wr ev name, ~ reads_well s' wr ev name.
Proof. exact columns_seen_wrong. Qed.
Print Assumptions C67_columns_refuted.
Theorem C67_layout_left_refuted : forall qx qy x0 x1 y0 y1 ptr, qx <> qy -> let d := [(qx, (x0, x1)); (qy, (y0, y1))] in
  dom_wf d -> box_count d < 2 ^ 64 -> forall s, x0 + 2 <= x1 -> y0 + 2 <= y1 -> span_of_ptr LLeft ptr d = Ok s ->
  forall wr ev name, ~ reads_well s wr ev name.
Proof. exact left_seen_wrong. Qed.
Print Assumptions C67_layout_left_refuted.
(** Finding: PDI may then write elements that are not in the slice: here it is given a column. *)
Definition d22 : domain := [(1%nat, (5, 7)); (2%nat, (10, 12))].
Theorem C67_write_outside_refuted : exists s s' d, dom_wf d22 /\ span_of_ptr LRight 100 d22 = Ok s /\
  run_slices s [SElem [(2%nat, 10)]] = Ok s' /\ exposed s' true = Ok d /\ Forall acceptable [("column"%string, Some PDI_INOUT, d)] /\
  let m' := overwrite (fun _ => 0) (m_ptr (s_md s')) [7; 8] in
  span_read m' s [[(1%nat, 5); (2%nat, 11)]] = Ok 8 /\ span_read m' s' [[(1%nat, 6)]] = Ok 0.
Proof. exact write_outside. Qed.
Print Assumptions C67_write_outside_refuted.

(** The program examples/pdi_event.cpp, with any front, extents and value: for every interleaving PDI
    sees, read only, an array of these extents filled with the value; afterwards PDI is as before. *)
Theorem C67_program : forall (V : Type) p x0 y0 nx ny (v : V) g m w0, 0 <= x0 -> 0 <= y0 -> 0 <= nx < 2 ^ 63 -> 0 <= ny < 2 ^ 63 ->
  x0 + nx < 2 ^ 64 -> y0 + ny < 2 ^ 64 -> nx * ny < 2 ^ 64 -> length g = 4%nat ->
  (forall k, owned w0 k = None) -> (forall n k b, ~ In (Own k, b) (shared w0 n)) ->
  (exists sched r, pdi_event_main p x0 y0 nx ny v g sched m = Ok r) /\
  forall sched m' calls, pdi_event_main p x0 y0 nx ny v g sched m = Ok (m', calls) ->
  exists before after w1 w2, calls = before ++ [PDI_event "some_event"] ++ after /\ (forall n, ~ In (PDI_event n) (before ++ after)) /\
    steps w0 before w1 /\ steps w1 after w2 /\ same_world w2 w0 /\
    pdi_sees w1 m' "pdi_chunk_label" [nx; ny] (repeat v (Z.to_nat (nx * ny))) read_only /\
    (forall a, ~ (p <= a < p + nx * ny) -> m' a = m a).
Proof. exact @program_sees. Qed.
Print Assumptions C67_program.

Example C67_ex : exists s s', span_of_ptr LRight 100 [(1%nat, (5, 7)); (2%nat, (10, 13)); (3%nat, (0, 4))] = Ok s /\
  run_slices s [SElem [(1%nat, 6)]; SDom [(2%nat, (11, 13))]] = Ok s' /\ s_dom s' = [(2%nat, (11, 13)); (3%nat, (0, 4))] /\
  array_at (fun a => a) (m_ptr (s_md s')) (sizes (s_dom s')) = [116; 117; 118; 119; 120; 121; 122; 123] /\
  span_read (fun a => a) s' [[(3%nat, 2)]; [(2%nat, 12)]] = Ok 122 /\
  apart "a" [("b"%string, None, Arithmetic 7 50 false)].
Proof.
  eexists. eexists. split; [vm_compute; reflexivity|]. split; [vm_compute; reflexivity|]. split; [vm_compute; reflexivity|].
  split; [vm_compute; reflexivity|]. split; [vm_compute; reflexivity|].
  intros c n [<-|[]] [<-|[]]. repeat split; discriminate.
Qed.
Example C67_run : exists m calls, pdi_event_main 100 7 11 3 5 3 [0; 0; 0; 0] (rev (seq 0 15)) (fun _ => 0) = Ok (m, calls) /\
  map m [99; 100; 107; 114; 115] = [0; 3; 3; 3; 0] /\ length calls = 11%nat /\
  nth_error calls 4 = Some (PDI_share "pdi_chunk_label" (User 100) PDI_OUT).
Proof. eexists. eexists. split; [vm_compute; reflexivity|]. split; [vm_compute; reflexivity|]. split; vm_compute; reflexivity. Qed.
