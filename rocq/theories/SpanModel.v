(** Model of src/ddc/chunk_common.hpp, src/ddc/chunk_span.hpp, src/ddc/detail/kokkos.hpp and of the
    part of Kokkos' mdspan they use.  Pointers are element addresses in Z. *)
From Verif Require Export Machine TypeSeqModel TaggedModel DomainModel StridedModel SparseModel.

(** The mdspan layouts accepted by chunk_span.hpp:48-52. *)
Inductive layout := LRight | LLeft | LStride (strides : list Z).
(** External: [Kokkos::mdspan], a pointer, a layout and extents. *)
Record mdspan := mk_mdspan { m_ptr : Z; m_lay : layout; m_ext : list Z }.

(** External: Kokkos layout_right / layout_left / layout_stride mappings (index type size_t), as
    specified by [mdspan.layout].  Unsigned arithmetic wraps at each step. *)
Fixpoint off_right (acc : Z) (ext is : list Z) : Z :=
  match ext, is with n :: ext', i :: is' => off_right (u64_add (u64_mul acc n) i) ext' is' | _, _ => acc end.
(** External: the offset of an index in [Kokkos::layout_left]. *)
Fixpoint off_left (ext is : list Z) : Z :=
  match ext, is with n :: ext', i :: is' => u64_add i (u64_mul n (off_left ext' is')) | _, _ => 0 end.
(** External: the offset of an index in [Kokkos::layout_stride]. *)
Fixpoint off_stride (st is : list Z) : Z :=
  match st, is with s :: st', i :: is' => u64_add (u64_mul i s) (off_stride st' is') | _, _ => 0 end.
(** External: the mapping of the layout. *)
Definition map_offset (l : layout) (ext is : list Z) : Z :=
  match l with LRight => off_right 0 ext is | LLeft => off_left ext is | LStride st => off_stride st is end.
(** External: the strides of [Kokkos::layout_right]. *)
Fixpoint strides_right (ext : list Z) : list Z :=
  match ext with [] => [] | _ :: r => fold_right u64_mul 1 r :: strides_right r end.
(** External: the strides of [Kokkos::layout_left]. *)
Fixpoint strides_left (acc : Z) (ext : list Z) : list Z :=
  match ext with [] => [] | n :: r => acc :: strides_left (u64_mul acc n) r end.
(** External: the strides of the layout. *)
Definition map_strides (l : layout) (ext : list Z) : list Z :=
  match l with LRight => strides_right ext | LLeft => strides_left 1 ext | LStride st => st end.
(** mdspan::size(): product of the extents. *)
Definition md_size (m : mdspan) : Z := fold_left u64_mul (m_ext m) 1.

(** External: the precondition of an access to an mdspan. *)
Fixpoint all_in_range (ext is : list Z) : bool :=
  match ext, is with
  | [], [] => true
  | n :: ext', i :: is' => (0 <=? i) && (i <? n) && all_in_range ext' is'
  | _, _ => false
  end.
(** mdspan::operator[]: the address of the element; indices outside of the extents are undefined. *)
Definition md_access (m : mdspan) (is : list Z) : res Z :=
  if all_in_range (m_ext m) is then Ok (m_ptr m + map_offset (m_lay m) (m_ext m) is) else Undef.

(** External: Kokkos::submdspan with integral, pair and full_extent slice specifiers
    ([mdspan.sub.map]).  The result keeps the strides of the kept dimensions: Kokkos may return
    layout_right, layout_left or a padded layout (converted to layout_stride at
    chunk_span.hpp:289-299, 334-344) but always with these strides. *)
Inductive slicer := Fixed (i : Z) | Pair (a b : Z) | Full.
(** External: the first index selected by a slicer of [Kokkos::submdspan]. *)
Definition first_of (s : slicer) : Z := match s with Fixed i => i | Pair a _ => a | Full => 0 end.
(** External: the precondition of [Kokkos::submdspan]. *)
Fixpoint slicers_ok (ext : list Z) (sl : list slicer) : bool :=
  match ext, sl with
  | [], [] => true
  | n :: ext', s :: sl' =>
      (match s with Fixed i => (0 <=? i) && (i <? n) | Pair a b => (0 <=? a) && (a <=? b) && (b <=? n) | Full => true end)
      && slicers_ok ext' sl'
  | _, _ => false
  end.
(** External: the extents of the result of [Kokkos::submdspan]. *)
Fixpoint sub_ext (ext : list Z) (sl : list slicer) : list Z :=
  match ext, sl with
  | n :: ext', s :: sl' =>
      match s with Fixed _ => sub_ext ext' sl' | Pair a b => (b - a) :: sub_ext ext' sl' | Full => n :: sub_ext ext' sl' end
  | _, _ => []
  end.
(** External: the strides of the result of [Kokkos::submdspan]. *)
Fixpoint sub_strides (st : list Z) (sl : list slicer) : list Z :=
  match st, sl with
  | s :: st', c :: sl' => match c with Fixed _ => sub_strides st' sl' | _ => s :: sub_strides st' sl' end
  | _, _ => []
  end.
(** External: [Kokkos::submdspan]. *)
Definition submdspan (m : mdspan) (sl : list slicer) : res mdspan :=
  if slicers_ok (m_ext m) sl
  then Ok (mk_mdspan (m_ptr m + map_offset (m_lay m) (m_ext m) (map first_of sl))
                     (LStride (sub_strides (map_strides (m_lay m) (m_ext m)) sl))
                     (sub_ext (m_ext m) sl))
  else Undef.

(** chunk_common.hpp:84-88: the members [m_allocation_mdspan] and [m_domain]. *)
Record span := mk_span { s_md : mdspan; s_dom : domain }.

(** chunk_common.hpp:122-128, 211-221 [ChunkCommon(ptr, domain)] ([ptr] assumed non-null). *)
Definition span_of_ptr (l : layout) (ptr : Z) (d : domain) : res span :=
  rbind (extents d) (fun ex => Ok (mk_span (mk_mdspan ptr l (map u64 (values ex))) d)).
(** chunk_span.hpp:231-243 [ChunkSpan(allocation_mdspan, domain)] with its KOKKOS_ASSERT. *)
Fixpoint list_eqb (a b : list Z) : bool :=
  match a, b with [], [] => true | x :: a', y :: b' => (x =? y) && list_eqb a' b' | _, _ => false end.
(** See chunk_span.hpp:231-243. *)
Definition span_of_mdspan (m : mdspan) (d : domain) : res span :=
  rbind (extents d) (fun ex => if list_eqb (m_ext m) (map u64 (values ex)) then Ok (mk_span m d) else Undef).

(** chunk_span.hpp:358-368, chunk.hpp:196-210, 228-242 [operator()(delems...)]. *)
Definition span_access (s : span) (es : list tagged) : res Z :=
  rbind (contains (s_dom s) es) (fun ok => if ok then
    rbind (distance_from_front (s_dom s) es) (fun v => md_access (s_md s) (values v))
  else Undef).
(** chunk_span.hpp:374-384 [operator()(dvects...)]. *)
Definition span_access_vec (s : span) (vs : list tagged) : res Z :=
  if Nat.eqb (length (s_dom s)) (sum_sizes vs)
  then rbind (construct (ddims (s_dom s)) vs) (fun v => md_access (s_md s) (values v))
  else Rejected.

(** chunk_span.hpp:102-112 [get_slicer_for<QueryDDim>(DiscreteVector)]. *)
Definition slicer_vec (c : tagged) (q : tag) : res slicer :=
  if in_tags_v q (dims c) then rbind (get q c) (fun x => Ok (Fixed x)) else Ok Full.
(** chunk_span.hpp:114-130 [get_slicer_for<QueryDDim>(domain, origin)]: differences of elements
    converted to size_t. *)
Definition slicer_dom (c origin : domain) (q : tag) : res slicer :=
  if in_tags_v q (ddims c) then
    rbind (dom_select [q] c) (fun cs => rbind (dom_select [q] origin) (fun os =>
    rbind (get q (front cs)) (fun cf => rbind (get q (back cs)) (fun cb =>
    rbind (get q (front os)) (fun o =>
    Ok (Pair (u64_sub cf o) (u64_sub (u64_add cb 1) o)))))))
  else Ok Full.

(** chunk_span.hpp:272-307 [operator[](DiscreteVector)]. *)
Definition vec_below (v ex : tagged) : res bool :=
  rbind (map_res (fun q => rbind (get q v) (fun x => rbind (get q ex) (fun n => Ok (x <? n)))) (dims v))
        (fun l => Ok (forallb id l)).
(** See chunk_span.hpp:272-307. *)
Definition span_slice_vec (s : span) (v : tagged) : res span :=
  rbind (extents (s_dom s)) (fun ex => rbind (vec_below v ex) (fun ok => if ok then
    rbind (map_res (slicer_vec v) (ddims (s_dom s))) (fun sl =>
    rbind (submdspan (s_md s) sl) (fun m =>
    rbind (dom_select (type_seq_remove (ddims (s_dom s)) (dims v)) (s_dom s)) (fun d =>
    span_of_mdspan m d)))
  else Undef)).
(** chunk_span.hpp:309-318 [operator[](DiscreteElement)]. *)
Definition span_slice_elem (s : span) (e : tagged) : res span :=
  rbind (dom_select (dims e) (s_dom s)) (fun qd => rbind (contains qd [e]) (fun ok => if ok then
    rbind (distance_from_front qd [e]) (fun v => span_slice_vec s v)
  else Undef)).
(** chunk_span.hpp:320-352 [operator[](DiscreteDomain)]. *)
Definition span_slice_dom (s : span) (o : domain) : res span :=
  rbind (dom_select (ddims o) (s_dom s)) (fun qd =>
  rbind (contains qd [front o]) (fun c1 => rbind (contains qd [back o]) (fun c2 =>
  if dom_empty o || (c1 && c2) then
    rbind (map_res (slicer_dom o (s_dom s)) (ddims (s_dom s))) (fun sl =>
    rbind (submdspan (s_md s) sl) (fun m => rbind (restrict_with (s_dom s) o) (fun d =>
    span_of_mdspan m d)))
  else Undef))).

(** A slicing expression is a sequence of the two kinds of [operator[]]. *)
Inductive slice := SElem (e : tagged) | SDom (o : domain).
(** Auxiliary: one of the three slicing operators. *)
Definition apply_slice (s : span) (sl : slice) : res span :=
  match sl with SElem e => span_slice_elem s e | SDom o => span_slice_dom s o end.
(** Auxiliary: slicing operators applied one after the other. *)
Fixpoint run_slices (s : span) (sls : list slice) : res span :=
  match sls with [] => Ok s | sl :: r => rbind (apply_slice s sl) (fun s' => run_slices s' r) end.

(** Memory: one value per address; a write through the reference returned by [operator()]. *)
Definition memory (V : Type) := Z -> V.
(** Auxiliary: one write in memory. *)
Definition mem_write {V} (m : memory V) (a : Z) (v : V) : memory V := fun x => if x =? a then v else m x.
(** Assignment through operator() (chunk_span.hpp:358-368). *)
Definition span_write {V} (m : memory V) (s : span) (es : list tagged) (v : V) : res (memory V) :=
  rbind (span_access s es) (fun a => Ok (mem_write m a v)).
(** Reading through operator() (chunk_span.hpp:358-368). *)
Definition span_read {V} (m : memory V) (s : span) (es : list tagged) : res V :=
  rbind (span_access s es) (fun a => Ok (m a)).
(** A sequence of writes, each through its own slicing of [s] (chunk_span.hpp:309-368). *)
Fixpoint run_writes {V} (m : memory V) (s : span) (ws : list (list slice * list tagged * V)) : res (memory V) :=
  match ws with
  | [] => Ok m
  | (sls, es, v) :: r =>
      rbind (run_slices s sls) (fun s' => rbind (span_write m s' es v) (fun m' => run_writes m' s r))
  end.

(** chunk_common.hpp:122-128 and chunk_span.hpp:358-368 for a StridedDiscreteDomain support
    (strided_discrete_domain.hpp extents/contains/distance_from_front). *)
Definition strided_span_mdspan (l : layout) (ptr : Z) (d : sdomain) : mdspan :=
  mk_mdspan ptr l (map (fun p => u64 (sn (snd p))) d).
(** See chunk_common.hpp:122-128; chunk_span.hpp:358-368. *)
Definition strided_access (m : mdspan) (d : sdomain) (es : list tagged) : res Z :=
  rbind (s_contains d es) (fun ok => if ok then
    rbind (s_distance d es) (fun v => md_access m (values v)) else Undef).
(** The same for a SparseDiscreteDomain support. *)
Definition sparse_span_mdspan (l : layout) (ptr : Z) (d : spdomain) : mdspan :=
  mk_mdspan ptr l (map (fun p => Z.of_nat (length (snd p))) d).
(** See chunk_common.hpp:122-128; chunk_span.hpp:358-368. *)
Definition sparse_access (m : mdspan) (d : spdomain) (es : list tagged) : res Z :=
  rbind (sp_contains d es) (fun ok => if ok then
    rbind (sp_distance d es) (fun v => md_access m (values v)) else Undef).
