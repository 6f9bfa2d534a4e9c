(** Chunks handed to PDI: the part of src/ddc/pdi.hpp that looks at the chunk, and the program
    examples/pdi_event.cpp. *)
From Coq Require Import String.
From Verif Require Export Machine DomainModel SpanModel ParModel PdiModel.
Local Open Scope Z_scope.

(** pdi.hpp:73-90: [data.domain().extents()] and [data.data_handle()] (chunk_common.hpp,
    [data_handle]); nothing else of the chunk is used.  [writable]: [is_writable_chunk_v]. *)
Definition exposed (s : span) (writable : bool) : res data :=
  rbind (extents (s_dom s)) (fun ex => Ok (Chunk (values ex) (m_ptr (s_md s)) writable)).

(** examples/pdi_event.cpp:23-79, with any front, extents and value instead of (7, 11), (3, 5) and 3.
    [p] is the address given by the allocator, [sched] the interleaving of the calls of the kernel of
    [parallel_fill], [garbage] the strides Kokkos leaves unset.  [span_cview] (chunk.hpp:332-337) has
    the mdspan and the domain of the chunk and constant elements.  The result is the memory when the
    event exists and the calls of its life.  [PDI_init], [PDI_finalize] and the configuration are PDI's. *)
Definition pdi_event_main (p x0 y0 nx ny : Z) {V} (value : V) (garbage : list Z) (sched : list nat) (m : memory V)
  : res (memory V * list call) :=
  rbind (mk_domain [(0%nat, x0); (1%nat, y0)] [(0%nat, nx); (1%nat, ny)]) (fun ddom_xy =>
  rbind (span_of_ptr LRight p ddom_xy) (fun chunk =>
  rbind (parallel_fill chunk value garbage sched m) (fun m =>
  rbind (exposed chunk false) (fun d =>
  rbind (event_life "some_event" [("pdi_chunk_label"%string, None, d)]) (fun calls => Ok (m, calls)))))).
