(** Programs that use the library: a sequence of kernels on one memory.  Used by the models of the programs of
    examples/. *)
From Verif Require Export LoopModel ParModel.

(** External: the memory, and how the calls of each kernel still to be launched will be interleaved. *)
Record machine (V : Type) := mk_machine { p_mem : memory V; p_sched : list (list nat) }.
Arguments mk_machine {V}. Arguments p_mem {V}. Arguments p_sched {V}.
(** External: the launch of a kernel and the fence after it (parallel_for_each.hpp:80-132,
    parallel_deepcopy.hpp:21-51).  A list of interleavings that ends before the program is not an execution of
    the program ([Rejected]). *)
Definition launch {V} (k : list nat -> memory V -> res (memory V)) (s : machine V) : res (machine V) :=
  match p_sched s with [] => Rejected | c :: r => m <- k c (p_mem s) ;; Ok (mk_machine m r) end.
(** The values of a chunk in the order of its elements: what print_content.hpp shows and what a reduction
    reads. *)
Definition contents {V} (m : memory V) (s : span) : res (list V) :=
  rbind (host_for_each (s_dom s) (fun e acc => l <- acc ;; v <- span_read m s [e] ;; Ok (l ++ [v])) (Ok [])) id.

(** trivial_space.hpp:19-22 [init_trivial_bounded_space]; the reference element is 0 (discrete_element.hpp:153-156). *)
Definition init_trivial_bounded_space (q : tag) (n : Z) : res domain := mk_domain [(q, 0)] [(q, n)].
(** trivial_space.hpp:28-32 [init_trivial_half_bounded_space]. *)
Definition init_trivial_half_bounded_space (q : tag) : tagged := [(q, 0)].
