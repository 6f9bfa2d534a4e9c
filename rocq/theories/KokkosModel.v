(** Model of src/ddc/detail/kokkos.hpp: conversions between mdspan and Kokkos::View. *)
From Verif Require Export Machine SpanModel.

(** External: a Kokkos::View of some layout, seen through data(), extent(r), stride(r). *)
Inductive klayout := KRight | KLeft | KStride.
(** External: [Kokkos::View], a pointer, a layout, extents and strides. *)
Record kview := mk_kview { v_data : Z; v_lay : klayout; v_ext : list Z; v_str : list Z }.
(** External: element address of a view. *)
Fixpoint k_dot (is st : list Z) : Z := match is, st with i :: is', s :: st' => i * s + k_dot is' st' | _, _ => 0 end.
(** External: the address of an element of a [Kokkos::View]. *)
Definition kview_access (v : kview) (is : list Z) : res Z :=
  if all_in_range (v_ext v) is then Ok (v_data v + k_dot is (v_str v)) else Undef.
(** External: constructing an unmanaged view from a pointer and a LayoutRight/LayoutLeft of the
    extents (dense strides), or a LayoutStride(N0, S0, N1, S1, ...). *)
Inductive karg := AExtents (right : bool) (ext : list Z) | AStride (interleaved : list Z).
(** Auxiliary: the extents in an interleaved list of extents and strides. *)
Fixpoint evens (l : list Z) : list Z := match l with x :: _ :: r => x :: evens r | [x] => [x] | [] => [] end.
(** Auxiliary: the strides in an interleaved list of extents and strides. *)
Definition odds (l : list Z) : list Z := match l with [] => [] | _ :: r => evens r end.
(** External: the constructor of [Kokkos::View] from a pointer and a layout. *)
Definition make_view (ptr : Z) (a : karg) : kview :=
  match a with
  | AExtents true ext => mk_kview ptr KRight ext (strides_right ext)
  | AExtents false ext => mk_kview ptr KLeft ext (strides_left 1 ext)
  | AStride l => mk_kview ptr KStride (evens l) (odds l)
  end.

(** kokkos.hpp:128-158 [build_kokkos_layout], [make_layout_stride]: the strided case writes extent
    and stride of dimension [k] at positions (k,0) and (k,1) of a row-major array of shape (rank, 2),
    then passes the array in order. *)
Fixpoint set_nth (l : list Z) (k : nat) (x : Z) : list Z :=
  match l, k with [], _ => [] | _ :: r, O => x :: r | y :: r, S k' => y :: set_nth r k' x end.
(** See kokkos.hpp:128-158. *)
Definition store2 (rank : nat) (st : list Z) (k : nat) (c : Z) (x : Z) : list Z :=
  set_nth st (Z.to_nat (off_right 0 [Z.of_nat rank; 2] [Z.of_nat k; c])) x.
(** See kokkos.hpp:128-158. *)
Fixpoint fill_storage (rank k : nat) (ext str : list Z) (st : list Z) : list Z :=
  match ext, str with
  | e :: ext', s :: str' => fill_storage rank (S k) ext' str' (store2 rank (store2 rank st k 0 e) k 1 s)
  | _, _ => st
  end.
(** See kokkos.hpp:128-158. *)
Definition build_kokkos_layout (m : mdspan) (garbage : list Z) : karg :=
  match m_lay m with
  | LRight => AExtents true (m_ext m)
  | LLeft => AExtents false (m_ext m)
  | LStride st => AStride (fill_storage (length (m_ext m)) 0 (m_ext m) st garbage)
  end.
(** chunk_span.hpp:405-416 [allocation_kokkos_view]; [garbage] is the uninitialised std::array of
    2*rank entries. *)
Definition allocation_kokkos_view (m : mdspan) (garbage : list Z) : kview :=
  make_view (m_ptr m) (build_kokkos_layout m garbage).

(** External: View::span_is_contiguous(): the number of cells spanned equals the number of elements. *)
Fixpoint k_span (ext st : list Z) : Z :=
  match ext, st with n :: ext', s :: st' => (n - 1) * s + k_span ext' st' | _, _ => 1 end.
(** External: [Kokkos::View::span_is_contiguous]. *)
Definition span_is_contiguous (v : kview) : bool :=
  let size := fold_right Z.mul 1 (v_ext v) in
  if size =? 0 then true else k_span (v_ext v) (v_str v) =? size.
(** kokkos.hpp:160-171 [is_kokkos_layout_compatible]. *)
Definition is_kokkos_layout_compatible (v : kview) : bool :=
  match v_lay v with KStride => true | _ => span_is_contiguous v end.
(** kokkos.hpp:173-193 [build_mdspan]; a failed KOKKOS_ASSERT is [Undef]. *)
Definition build_mdspan (v : kview) : res mdspan :=
  if is_kokkos_layout_compatible v then
    Ok (mk_mdspan (v_data v)
          (match v_lay v with KRight => LRight | KLeft => LLeft | KStride => LStride (v_str v) end) (v_ext v))
  else Undef.
