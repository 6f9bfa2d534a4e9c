(** Specification of parallel kernels: footprints, absence of races, overlap of chunks. *)
From Verif Require Export TaggedSpec DomainSpec ParModel ReduceSpec SpanSpec KokkosSpec.

(** A call only reads addresses of [R] and only reads or writes addresses of [W]. *)
Inductive within {V} (R W : Z -> Prop) : prog V -> Prop :=
| W_ret : within R W PRet
| W_read a k : R a \/ W a -> (forall v, within R W (k v)) -> within R W (PRead a k)
| W_write a v p : W a -> within R W p -> within R W (PWrite a v p).
(** The functor [f] touches, at element e, only the addresses R e and W e, and what a call writes no
    other call reads or writes. *)
Definition race_free {V} (d : domain) (f : tagged -> prog V) (R W : tagged -> Z -> Prop) : Prop :=
  (forall e, in_box d e -> within (R e) (W e) (f e)) /\
  (forall e a, W e a \/ ~ W e a) /\
  (forall e e' a, dims e = ddims d -> dims e' = ddims d -> in_box d e -> in_box d e' -> e <> e' -> W e a -> ~ R e' a /\ ~ W e' a).
(** [a] is the address of an element of the chunk. *)
Definition cell_of (s : span) (a : Z) : Prop := exists e, in_box (s_dom s) e /\ span_access s [e] = Ok a.
Definition disjoint_spans (s t : span) : Prop := forall a, cell_of s a -> ~ cell_of t a.
(** Storage for the extents and strides of a Kokkos view. *)
Definition room (s : span) (garbage : list Z) : Prop := (length garbage = 2 * length (s_dom s))%nat /\ Z.of_nat (length (s_dom s)) < 2 ^ 62.
(** The dimensions of src are dimensions of dst, with the same elements. *)
Definition sub_domain (ds dd : domain) : Prop := forall q b f, In (q, (b, f)) ds -> In (q, (b, f)) dd.
(** [e] and [e'] agree on the dimensions of the domain. *)
Definition agree_on (d : domain) (e e' : tagged) : Prop := forall q x, In q (ddims d) -> (val_of e q x <-> val_of e' q x).
(** A chunk is copied onto another one that shares no element with it, or onto itself. *)
Definition may_copy (dst src : span) : Prop := disjoint_spans dst src \/ dst = src.
(** The allocator returns addresses that no element of src has. *)
Definition fresh_for (src : span) (fresh : Z) : Prop := forall a, cell_of src a -> ~ (fresh <= a < fresh + box_count (s_dom src)).
