(** C11, C12, C50: storage of chunks, slicing, conversion to and from Kokkos views.  The vocabulary
    of the statements is in DomainSpec, SpanSpec and KokkosSpec. *)
From Verif Require Import Machine TypeSeqModel TaggedModel TaggedSpec DomainModel DomainSpec
  StridedModel StridedSpec SparseModel SparseSpec SpanModel SpanSpec KokkosModel KokkosSpec
  SpanProofs StorageProofs KokkosProofs.

(** * C11 *)
Theorem C11_bijection : forall l ptr d, dom_wf d -> box_count d < 2 ^ 64 -> (l = LRight \/ l = LLeft) ->
  exists s, span_of_ptr l ptr d = Ok s /\
    (forall es, in_box d (concat es) -> exists a, span_access s es = Ok a /\ ptr <= a < ptr + dom_size d) /\
    (forall es es' a, in_box d (concat es) -> in_box d (concat es') ->
        span_access s es = Ok a -> span_access s es' = Ok a -> same_values (concat es) (concat es')) /\
    (forall a, ptr <= a < ptr + dom_size d -> exists e, in_box d e /\ span_access s [e] = Ok a).
Proof. exact alloc_bijection. Qed.
Print Assumptions C11_bijection.

Theorem C11_address : forall ptr d, dom_wf d -> box_count d < 2 ^ 64 ->
  exists sr sl, span_of_ptr LRight ptr d = Ok sr /\ span_of_ptr LLeft ptr d = Ok sl /\
  forall es X, in_box d (concat es) -> (forall q, In q (ddims d) -> val_of (concat es) q (X q)) ->
    span_access sr es = Ok (ptr + row_major d X) /\ span_access sl es = Ok (ptr + col_major d X).
Proof. exact address_exact. Qed.
Print Assumptions C11_address.

(** The elements met by a sequential loop are at ptr, ptr+1, ptr+2, ... *)
Theorem C11_iteration_order : forall ptr d, dom_wf d -> box_count d < 2 ^ 64 ->
  exists s l, span_of_ptr LRight ptr d = Ok s /\ host_for_each d (fun e l => l ++ [e]) [] = Ok l /\
    map (fun e => span_access s [e]) l = map (fun k => Ok (ptr + k)) (zrange (dom_size d)).
Proof. exact iteration_order. Qed.
Print Assumptions C11_iteration_order.

Theorem C11_strided_order : forall ptr d, sdom_wf d -> Forall (fun p => 0 < sn (snd p)) d ->
  fold_right (fun p acc => sn (snd p) * acc) 1 d < 2 ^ 64 ->
  exists l, s_host_for_each d (fun e l => l ++ [e]) [] = Ok l /\
    map (fun e => strided_access (strided_span_mdspan LRight ptr d) d [e]) l = map (fun k => Ok (ptr + k)) (zrange (s_size d)).
Proof. exact strided_order. Qed.
Print Assumptions C11_strided_order.

Theorem C11_sparse_order : forall ptr d, spdom_wf d -> sp_count d < 2 ^ 64 ->
  exists l, sp_host_for_each d (fun e l => l ++ [e]) [] = Ok l /\
    map (fun e => sparse_access (sparse_span_mdspan LRight ptr d) d [e]) l = map (fun k => Ok (ptr + k)) (zrange (sp_size d)).
Proof. exact sparse_order. Qed.
Print Assumptions C11_sparse_order.

Theorem C11_access_by_vector : forall s v, span_wf s -> offset_in_range (s_dom s) v ->
  exists e a, dom_at (s_dom s) v = Ok e /\ in_box (s_dom s) e /\ span_access s [e] = Ok a /\ span_access_vec s [v] = Ok a.
Proof. exact access_by_vector. Qed.
Print Assumptions C11_access_by_vector.

Definition d23 : domain := [(1%nat, (5, 7)); (2%nat, (10, 13))].
Example C11_ex : dom_wf d23 /\ box_count d23 = 6 /\
  rbind (span_of_ptr LRight 100 d23) (fun s => span_access s [[(2%nat, 11)]; [(1%nat, 6)]]) = Ok 104 /\
  rbind (span_of_ptr LLeft 100 d23) (fun s => span_access s [[(1%nat, 6); (2%nat, 11)]]) = Ok 103 /\
  rbind (span_of_ptr LRight 100 d23) (fun s => span_access s [[(2%nat, 13)]; [(1%nat, 6)]]) = Undef.
Proof.
  split; [split; [repeat constructor; simpl; intuition discriminate | repeat constructor; simpl; lia]|].
  repeat split; vm_compute; reflexivity.
Qed.
Example C11_strided_ex : sdom_wf [(1%nat, {| sb := 10; sn := 4; ss := 3 |})] /\
  strided_access (strided_span_mdspan LRight 100 [(1%nat, {| sb := 10; sn := 4; ss := 3 |})])
     [(1%nat, {| sb := 10; sn := 4; ss := 3 |})] [[(1%nat, 16)]] = Ok 102.
Proof. split; [split; repeat constructor; simpl; unfold sdim_wf; simpl; intuition lia | vm_compute; reflexivity]. Qed.
Example C11_sparse_ex : spdom_wf [(1%nat, [2; 5; 9; 40])] /\
  sparse_access (sparse_span_mdspan LRight 100 [(1%nat, [2; 5; 9; 40])]) [(1%nat, [2; 5; 9; 40])] [[(1%nat, 40)]] = Ok 103.
Proof. split; [split; [repeat constructor; simpl; auto | repeat constructor; simpl; lia] | vm_compute; reflexivity]. Qed.

(** * C12 *)
(** Any sequence of slicings by elements and sub-domains: the resulting span covers the expected
    domain and designates the same cells as the original at the same elements. *)
Theorem C12_slices : forall sls s, span_wf s -> slices_ok (s_dom s) sls ->
  exists s', run_slices s sls = Ok s' /\ span_wf s' /\ s_dom s' = left_domain (s_dom s) sls /\
    forall es, in_box (s_dom s') (concat es) ->
      in_box (s_dom s) (concat (es ++ fixed_elems sls)) /\
      exists a, span_access s' es = Ok a /\ span_access s (es ++ fixed_elems sls) = Ok a.
Proof. exact slices_compose. Qed.
Print Assumptions C12_slices.

(** Any sequence of writes, each through its own slicing: every element of the original reads the
    latest value written to it or its initial value; the memory of no element is untouched. *)
Theorem C12_writes : forall (V : Type) s (ws : list (list slice * list tagged * V)), span_wf s -> no_aliasing s ->
  Forall (write_ok (s_dom s)) ws -> forall m : memory V,
  exists m', run_writes m s ws = Ok m' /\
    (forall es, in_box (s_dom s) (concat es) ->
       span_read m' s es = match latest (rev (map target ws)) (concat es) with Some v => Ok v | None => span_read m s es end) /\
    (forall a, (forall e, in_box (s_dom s) e -> span_access s [e] <> Ok a) -> m' a = m a).
Proof. exact @writes_refine. Qed.
Print Assumptions C12_writes.

Theorem C12_no_aliasing : forall l ptr d, dom_wf d -> box_count d < 2 ^ 64 -> (l = LRight \/ l = LLeft) ->
  forall s sls s', span_of_ptr l ptr d = Ok s -> slices_ok d sls -> run_slices s sls = Ok s' ->
  span_wf s' /\ no_aliasing s'.
Proof. exact chunk_slices_no_aliasing. Qed.
Print Assumptions C12_no_aliasing.

Definition d234 : domain := [(1%nat, (5, 7)); (2%nat, (10, 13)); (3%nat, (0, 4))].
Definition two_slices : list slice := [SDom [(3%nat, (1, 3))]; SElem [(2%nat, 11)]].
Example C12_ex : dom_wf d234 /\ slices_ok d234 two_slices /\
  left_domain d234 two_slices = [(1%nat, (5, 7)); (3%nat, (1, 3))] /\
  rbind (span_of_ptr LRight 100 d234) (fun s => rbind (run_slices s two_slices) (fun s' =>
    span_access s' [[(3%nat, 2)]; [(1%nat, 6)]])) = Ok (100 + 12 + 4 + 2) /\
  rbind (span_of_ptr LLeft 100 d234) (fun s => rbind (run_slices s two_slices) (fun s' =>
    span_access s' [[(3%nat, 2)]; [(1%nat, 6)]])) = Ok (100 + 1 + 2 + 2 * 6) /\
  rbind (span_of_ptr LLeft 100 d234) (fun s => rbind (run_slices s two_slices) (fun s' =>
    span_access s' [[(3%nat, 3)]; [(1%nat, 6)]])) = Undef.
Proof.
  split; [split; [repeat constructor; simpl; intuition discriminate | repeat constructor; simpl; lia]|].
  split; [|repeat split; vm_compute; reflexivity].
  cbn [slices_ok two_slices]. split; [|split; [|exact I]].
  - split; [split; [repeat constructor; simpl; intuition discriminate | repeat constructor; simpl; lia]|].
    split; [intros q; simpl; intuition|]. intros q b f b' f' H [H'|[]]. injection H' as <- <- <-.
    destruct H as [H|[H|[H|[]]]]; try discriminate. injection H as <- <-. lia.
  - split; [repeat constructor; simpl; intuition discriminate|]. intros q x [H|[]]. injection H as <- <-.
    exists 10, 13. split; [vm_compute; auto | lia].
Qed.

(** * C50 *)
Theorem C50_span_to_view_and_back : forall m garbage, mdspan_wf m -> Z.of_nat (length (m_ext m)) < 2 ^ 62 ->
  (length garbage = 2 * length (m_ext m))%nat ->
  let v := allocation_kokkos_view m garbage in
  (forall is, kview_access v is = md_access m is) /\ build_mdspan v = Ok m.
Proof. exact view_of_span. Qed.
Print Assumptions C50_span_to_view_and_back.

(** A right or left view, possibly padded, is accepted exactly when the dense mdspan it would be
    turned into has the same addresses. *)
Theorem C50_accepted_iff_same_addresses : forall v, padded_view v -> v_lay v <> KStride ->
  (exists m, build_mdspan v = Ok m) <->
  (forall is, kview_access v is = md_access (mk_mdspan (v_data v) (match v_lay v with KLeft => LLeft | _ => LRight end) (v_ext v)) is).
Proof. exact view_to_mdspan. Qed.
Print Assumptions C50_accepted_iff_same_addresses.

Theorem C50_strided_view : forall v, v_lay v = KStride -> length (v_str v) = length (v_ext v) -> Forall (fun x => 0 <= x) (v_str v) ->
  k_span (v_ext v) (v_str v) <= 2 ^ 64 ->
  exists m, build_mdspan v = Ok m /\ forall is, md_access m is = kview_access v is.
Proof. exact strided_view_to_mdspan. Qed.
Print Assumptions C50_strided_view.

Example C50_ex : mdspan_wf (mk_mdspan 100 (LStride [1; 7]) [3; 4]) /\
  kview_access (allocation_kokkos_view (mk_mdspan 100 (LStride [1; 7]) [3; 4]) [0; 0; 0; 0]) [2; 3] = Ok 123 /\
  padded_view (mk_kview 0 KLeft [3; 4] [1; 5]) /\ build_mdspan (mk_kview 0 KLeft [3; 4] [1; 5]) = Undef /\
  padded_view (mk_kview 0 KLeft [3; 4] [1; 3]) /\ build_mdspan (mk_kview 0 KLeft [3; 4] [1; 3]) = Ok (mk_mdspan 0 LLeft [3; 4]).
Proof.
  split; [split; [repeat constructor; simpl; lia|]; split; [reflexivity|]; split; [repeat constructor; simpl; lia | intros _; vm_compute; reflexivity]|].
  split; [vm_compute; reflexivity|].
  split; [split; [repeat constructor; simpl; lia|]; split; [vm_compute; reflexivity | repeat constructor; simpl; lia]|].
  split; [vm_compute; reflexivity|].
  split; [split; [repeat constructor; simpl; lia|]; split; [vm_compute; reflexivity | repeat constructor; simpl; lia]|].
  vm_compute; reflexivity.
Qed.
