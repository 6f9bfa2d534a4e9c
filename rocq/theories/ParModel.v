(** Model of src/ddc/parallel_for_each.hpp, parallel_transform.hpp, parallel_fill.hpp,
    parallel_copy.hpp, parallel_deepcopy.hpp and create_mirror.hpp. *)
From Verif Require Export Machine TypeSeqModel TaggedModel DomainModel SpanModel KokkosModel ReduceModel.

(** External: what one call of a user functor does to memory, as a sequence of atomic reads and
    writes; what follows a read depends on the value read.  Registers and control flow of the
    functor are in the continuation. *)
Inductive prog (V : Type) :=
| PRet
| PRead (a : Z) (k : V -> prog V)
| PWrite (a : Z) (v : V) (p : prog V).
Arguments PRet {V}.
Arguments PRead {V} a k.
Arguments PWrite {V} a v p.
(** A call that runs with nothing else happening. *)
Fixpoint run_alone {V} (p : prog V) (m : memory V) : memory V :=
  match p with
  | PRet => m
  | PRead a k => run_alone (k (m a)) m
  | PWrite a v p' => run_alone p' (mem_write m a v)
  end.
(** External: one access of one call. *)
Definition step1 {V} (p : prog V) (m : memory V) : prog V * memory V :=
  match p with
  | PRet => (PRet, m)
  | PRead a k => (k (m a), m)
  | PWrite a v p' => (p', mem_write m a v)
  end.
(** External: Kokkos::parallel_for runs all the calls, interleaved in any way; [sched] lists which call
    makes the next step.  A call that is over does nothing. *)
Fixpoint set_prog {V} (ps : list (prog V)) (k : nat) (p : prog V) : list (prog V) :=
  match ps, k with [], _ => [] | _ :: r, O => p :: r | x :: r, S k' => x :: set_prog r k' p end.
(** External: the calls run in the order given by the schedule, access by access. *)
Fixpoint interleave_calls {V} (sched : list nat) (ps : list (prog V)) (m : memory V) : list (prog V) * memory V :=
  match sched with
  | [] => (ps, m)
  | k :: s => match nth_error ps k with
              | None => interleave_calls s ps m
              | Some p => let (p', m') := step1 p m in interleave_calls s (set_prog ps k p') m'
              end
  end.
(** Auxiliary: whether a call has returned. *)
Definition is_ret {V} (p : prog V) : bool := match p with PRet => true | _ => false end.
(** The kernel ends when every call is over; an interleaving that stops earlier is not an execution
    of the kernel ([Rejected]). *)
Definition kernel {V} (ps : list (prog V)) (sched : list nat) (m : memory V) : res (memory V) :=
  let (ps', m') := interleave_calls sched ps m in if forallb is_ret ps' then Ok m' else Rejected.

(** parallel_for_each.hpp:42-52 [ForEachKokkosLambdaAdapter::operator()], 59-70 [for_each_kokkos],
    80-132 [parallel_for_each]. *)
Definition for_each_calls {V} (d : domain) (f : tagged -> res (prog V)) : res (list (prog V)) :=
  rbind (extents d) (fun ex =>
  map_res (fun ids => rbind (policy_elem d ids) f) (policy_indices (values ex))).
(** See parallel_for_each.hpp:42-52, 59-70, 80-132. *)
Definition parallel_for_each {V} (d : domain) (f : tagged -> res (prog V)) (sched : list nat) (m : memory V) : res (memory V) :=
  rbind (for_each_calls d f) (fun ps => kernel ps sched m).

(** parallel_transform.hpp:40-44 [TransformKokkosLambdaAdapter::operator()], 56-66
    [parallel_transform]: m_chunk(i) is read, then assigned. *)
Definition parallel_transform {V} (dst : span) (f : V -> V) (sched : list nat) (m : memory V) : res (memory V) :=
  parallel_for_each (s_dom dst) (fun e =>
    rbind (span_access dst [e]) (fun a => Ok (PRead a (fun v => PWrite a (f v) PRet)))) sched m.

(** External: Kokkos::deep_copy(view, value): every element of the view is written. *)
Definition view_fill {V} (v : kview) (x : V) (sched : list nat) (m : memory V) : res (memory V) :=
  rbind (map_res (fun ids => rbind (kview_access v ids) (fun a => Ok (PWrite a x PRet))) (md_indices (v_ext v))) (fun ps =>
  kernel ps sched m).
(** External: Kokkos::deep_copy(dst, src): throws unless the extents are equal; element by element
    copy, in any order. *)
Definition view_copy {V} (dst src : kview) (sched : list nat) (m : memory V) : res (memory V) :=
  if list_eqb (v_ext dst) (v_ext src) then
    rbind (map_res (fun ids => rbind (kview_access src ids) (fun a => rbind (kview_access dst ids) (fun b =>
             Ok (PRead a (fun v : V => PWrite b v PRet))))) (md_indices (v_ext dst))) (fun ps =>
    kernel ps sched m)
  else Rejected.
(** parallel_fill.hpp:20-40 [parallel_fill]. *)
Definition parallel_fill {V} (dst : span) (x : V) (garbage : list Z) (sched : list nat) (m : memory V) : res (memory V) :=
  view_fill (allocation_kokkos_view (s_md dst) garbage) x sched m.
(** parallel_deepcopy.hpp:21-51 [parallel_deepcopy]; the assertion is part of the model. *)
Definition parallel_deepcopy {V} (dst src : span) (g1 g2 : list Z) (sched : list nat) (m : memory V) : res (memory V) :=
  rbind (dom_eq (s_dom dst) (s_dom src)) (fun ok => if ok then
    view_copy (allocation_kokkos_view (s_md dst) g1) (allocation_kokkos_view (s_md src) g2) sched m
  else Undef).
(** parallel_copy.hpp:42-55 [CopyKokkosLambdaAdapter::operator()]. *)
Definition copy_call {V} (dst src : span) (ids : list Z) : res (prog V) :=
  match ddims (s_dom dst) with
  | [] => rbind (span_access src []) (fun a => rbind (span_access dst []) (fun b =>
          Ok (PRead a (fun v => PWrite b v PRet))))
  | ts => let ddst := combine ts ids in
          rbind (construct (ddims (s_dom src)) [ddst]) (fun dsrc =>
          rbind (span_access_vec src [dsrc]) (fun a => rbind (span_access_vec dst [ddst]) (fun b =>
          Ok (PRead a (fun v => PWrite b v PRet)))))
  end.
(** parallel_copy.hpp:74-107 [parallel_copy]: the types of the domains are their dimension lists. *)
Fixpoint tags_eqb (a b : type_seq) : bool :=
  match a, b with [], [] => true | x :: a', y :: b' => Nat.eqb x y && tags_eqb a' b' | _, _ => false end.
(** See parallel_copy.hpp:74-107. *)
Definition parallel_copy {V} (dst src : span) (g1 g2 : list Z) (sched : list nat) (m : memory V) : res (memory V) :=
  rbind (dom_select (ddims (s_dom src)) (s_dom dst)) (fun dd =>
  rbind (dom_eq dd (s_dom src)) (fun ok => if ok then
    if tags_eqb (ddims (s_dom dst)) (ddims (s_dom src)) then
      view_copy (allocation_kokkos_view (s_md dst) g1) (allocation_kokkos_view (s_md src) g2) sched m
    else
      rbind (extents (s_dom dst)) (fun ex =>
      rbind (map_res (copy_call dst src) (policy_indices (values ex))) (fun ps => kernel ps sched m))
  else Undef)).

(** create_mirror.hpp:46-61 [create_mirror]: a new Chunk over the domain; [fresh] is the address its
    allocator returned.  Memory spaces share one address space here. *)
Definition create_mirror (src : span) (fresh : Z) : res span :=
  match m_lay (s_md src) with LRight => span_of_ptr LRight fresh (s_dom src) | _ => Rejected end.
(** create_mirror.hpp:75-89 [create_mirror_and_copy]. *)
Definition create_mirror_and_copy {V} (src : span) (fresh : Z) (g1 g2 : list Z) (sched : list nat) (m : memory V) : res (span * memory V) :=
  rbind (create_mirror src fresh) (fun c => rbind (parallel_deepcopy c src g1 g2 sched m) (fun m' => Ok (c, m'))).
(** create_mirror.hpp:103-122 [create_mirror_view]. *)
Definition create_mirror_view (accessible : bool) (src : span) (fresh : Z) : res span :=
  match m_lay (s_md src) with LRight => if accessible then Ok src else create_mirror src fresh | _ => Rejected end.
(** create_mirror.hpp:136-152 [create_mirror_view_and_copy]. *)
Definition create_mirror_view_and_copy {V} (accessible : bool) (src : span) (fresh : Z) (g1 g2 : list Z) (sched : list nat) (m : memory V) :
    res (span * memory V) :=
  match m_lay (s_md src) with
  | LRight => if accessible then Ok (src, m) else create_mirror_and_copy src fresh g1 g2 sched m
  | _ => Rejected
  end.
(** create_mirror.hpp:28-39 [detail::create_layout_right_view_and_copy]. *)
Definition create_layout_right_view_and_copy {V} (src : span) (fresh : Z) (g1 g2 : list Z) (sched : list nat) (m : memory V) :
    res (span * memory V) :=
  match m_lay (s_md src) with
  | LRight => Ok (src, m)
  | _ => rbind (span_of_ptr LRight fresh (s_dom src)) (fun c =>
         rbind (parallel_deepcopy c src g1 g2 sched m) (fun m' => Ok (c, m')))
  end.
