(** Specification of chunks as independent arrays.  An array is created by the constructor of a
    chunk, follows the moves of the chunk, is written through chunks and views, and ends with the
    chunk that has it. *)
From Verif Require Import Machine TypeSeqModel TaggedModel TaggedSpec DomainModel DomainSpec SpanModel SpanSpec HeapModel.

(** What the system may do: memory handed out is not null, fits the address space and overlaps no
    block in use. *)
Definition disjoint (a n b m : Z) : Prop := a + n <= b \/ b + m <= a.
Definition well_behaved (malloc : nat -> list (Z * Z) -> Z -> option Z) : Prop :=
  forall t bl n a, 0 < n -> malloc t bl n = Some a ->
    0 < a /\ a + n <= 2 ^ 64 /\ forall b m, In (b, m) bl -> disjoint a n b m.

(** An array: the size of its elements, its domain, the writes (latest first), and whether a chunk
    has it. *)
Record array := mk_array { a_sz : Z; a_dom : domain; a_log : list (tagged * list Z); a_live : bool }.
(** Arrays are numbered in the order of their creation.  A chunk has an element type, dimensions
    and possibly an array; a view is an array and slicings. *)
Record store := mk_store { arrays : nat -> option array; created : nat;
  has : nat -> option (Z * type_seq * option nat); sees : nat -> option (nat * list slice) }.
Definition nothing : store := mk_store (fun _ => None) 0 (fun _ => None) (fun _ => None).

Definition with_chunk (st : store) (x : nat) c : store := mk_store (arrays st) (created st) (upd (has st) x c) (sees st).
Definition ended (st : store) (o : option nat) : store :=
  match o with
  | None => st
  | Some i => match arrays st i with
              | Some a => mk_store (upd (arrays st) i (Some (mk_array (a_sz a) (a_dom a) (a_log a) false))) (created st) (has st) (sees st)
              | None => st
              end
  end.
Definition written (st : store) (i : nat) (a : array) (e : tagged) (v : list Z) : store :=
  mk_store (upd (arrays st) i (Some (mk_array (a_sz a) (a_dom a) ((e, v) :: a_log a) (a_live a)))) (created st) (has st) (sees st).

(** [fits sz d]: the number of bytes of the array is representable. *)
Definition fits (sz : Z) (d : domain) : Prop := 0 < sz /\ dom_wf d /\ sz * box_count d < 2 ^ 64.

(** What each statement does to the arrays. *)
Inductive does : store -> op -> store -> Prop :=
| do_new st x sz d : has st x = None -> fits sz d ->
    does st (New x sz d)
      (mk_store (upd (arrays st) (created st) (Some (mk_array sz d [] true))) (S (created st))
                (upd (has st) x (Some (sz, ddims d, Some (created st)))) (sees st))
| do_default st x sz d : has st x = None ->
    does st (Default x sz d) (with_chunk st x (Some (sz, ddims d, None)))
| do_move st x y sz ts o : has st x = None -> has st y = Some (sz, ts, o) ->
    does st (MoveCtor x y) (with_chunk (with_chunk st x (Some (sz, ts, o))) y (Some (sz, ts, None)))
| do_assign st x y sz ts o o' : x <> y -> has st x = Some (sz, ts, o) -> has st y = Some (sz, ts, o') ->
    does st (MoveAssign x y) (with_chunk (with_chunk (ended st o) x (Some (sz, ts, o'))) y (Some (sz, ts, None)))
| do_assign_self st x sz ts o : has st x = Some (sz, ts, o) ->
    does st (MoveAssign x x) (with_chunk (ended st o) x (Some (sz, ts, None)))
| do_destroy st x sz ts o : has st x = Some (sz, ts, o) ->
    does st (Destroy x) (with_chunk (ended st o) x None)
| do_write st x sz ts i a es v : has st x = Some (sz, ts, Some i) -> arrays st i = Some a ->
    in_box (a_dom a) (concat es) -> Z.of_nat (length v) = a_sz a ->
    does st (Write x es v) (written st i a (concat es) v)
| do_view st u x sls sz ts i a : has st x = Some (sz, ts, Some i) -> arrays st i = Some a -> slices_ok (a_dom a) sls ->
    does st (View u x sls) (mk_store (arrays st) (created st) (has st) (upd (sees st) u (Some (i, sls))))
| do_write_view st u i sls a es v : sees st u = Some (i, sls) -> arrays st i = Some a -> a_live a = true ->
    in_box (left_domain (a_dom a) sls) (concat es) -> Z.of_nat (length v) = a_sz a ->
    does st (WriteView u es v) (written st i a (concat (es ++ fixed_elems sls)) v).
Inductive history : store -> list op -> store -> Prop :=
| h_nil st : history st [] st
| h_cons st o st' os st'' : does st o st' -> history st' os st'' -> history st (o :: os) st''.

(** Every element reads the value written to it last, through the chunk that has the array and
    through every view of it. *)
Definition reads_agree (st : store) (w : heap) : Prop :=
  (forall x sz ts i a es v, has st x = Some (sz, ts, Some i) -> arrays st i = Some a ->
     in_box (a_dom a) (concat es) -> latest (a_log a) (concat es) = Some v -> read_chunk w x es = Ok v) /\
  (forall u i sls a es v, sees st u = Some (i, sls) -> arrays st i = Some a -> a_live a = true ->
     in_box (left_domain (a_dom a) sls) (concat es) -> latest (a_log a) (concat (es ++ fixed_elems sls)) = Some v ->
     read_view w u es = Ok v).
(** The memory held is one block of exactly the right size for each array with elements that a
    chunk has. *)
Definition memory_agrees (st : store) (w : heap) : Prop :=
  NoDup (blocks w) /\
  (forall b m, In (b, m) (blocks w) -> exists x sz ts i a h, has st x = Some (sz, ts, Some i) /\ arrays st i = Some a /\
     chunks w x = Some h /\ h_base h = b /\ m = a_sz a * box_count (a_dom a)) /\
  (forall x sz ts i a, has st x = Some (sz, ts, Some i) -> arrays st i = Some a -> 0 < box_count (a_dom a) ->
     exists h, chunks w x = Some h /\ In (h_base h, a_sz a * box_count (a_dom a)) (blocks w)) /\
  (forall b m b' m', In (b, m) (blocks w) -> In (b', m') (blocks w) -> (b, m) <> (b', m') -> disjoint b m b' m').
(** Every block in use has at least one byte. *)
Definition positive_blocks (w : heap) : Prop := forall b m, In (b, m) (blocks w) -> 0 < m.
