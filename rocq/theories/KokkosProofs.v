From Verif Require Import Machine MachineProofs ListAux TypeSeqModel TaggedModel TaggedSpec DomainModel DomainSpec
  SpanModel SpanSpec SpanProofs StorageProofs KokkosModel KokkosSpec.
Open Scope Z_scope.

Lemma k_dot_dot is st : k_dot is st = dot is st.
Proof. reflexivity. Qed.
Lemma dense_right_eq ext : dense_right ext = zstr_right ext.
Proof. induction ext as [|n r IH]; [reflexivity|]. cbn [dense_right zstr_right]. now rewrite IH. Qed.
Lemma dense_left_eq ext : forall a, dense_left a ext = zstr_left a ext.
Proof. induction ext as [|n r IH]; intros a; [reflexivity|]. cbn [dense_left zstr_left]. now rewrite IH. Qed.

(** Interleaving. *)
Fixpoint interleave (ext str : list Z) : list Z :=
  match ext, str with e :: ext', s :: str' => e :: s :: interleave ext' str' | _, _ => [] end.
Lemma evens_interleave ext : forall str, length str = length ext -> evens (interleave ext str) = ext /\ odds (interleave ext str) = str.
Proof.
  induction ext as [|e ext IH]; intros [|s str] H; try discriminate; [split; reflexivity|].
  cbn [length] in H. destruct (IH str ltac:(lia)) as [I1 I2]. cbn [interleave evens odds]. rewrite I1. split; auto.
  destruct (interleave ext str) as [|x r]; cbn [evens odds] in *; now rewrite I2.
Qed.
Lemma set_nth_app pre x y r : set_nth (pre ++ x :: r) (length pre) y = pre ++ y :: r.
Proof. induction pre as [|z pre IH]; [reflexivity|]. cbn [app length set_nth]. now rewrite IH. Qed.
Lemma store_offset rank k c : Z.of_nat rank < 2 ^ 62 -> (k < rank)%nat -> 0 <= c < 2 ->
  off_right 0 [Z.of_nat rank; 2] [Z.of_nat k; c] = 2 * Z.of_nat k + c.
Proof.
  intros Hr Hk Hc. rewrite off_right_mod by (auto; lia). cbn [zstr_right dot]. unfold prod. cbn [fold_right].
  rewrite Z.mod_small; lia.
Qed.
Lemma fill_storage_ok rank : Z.of_nat rank < 2 ^ 62 -> forall ext str pre post,
  length str = length ext -> (length post = 2 * length ext)%nat ->
  forall k, (length pre = 2 * k)%nat -> (k + length ext <= rank)%nat ->
  fill_storage rank k ext str (pre ++ post) = pre ++ interleave ext str.
Proof.
  intros Hr. induction ext as [|e ext IH]; intros [|s str] pre post H1 H2 k H3 H4; try discriminate; cbn [length] in *.
  - destruct post; [|discriminate]. reflexivity.
  - destruct post as [|x [|y post]]; try (simpl in H2; lia). cbn [fill_storage interleave].
    unfold store2. rewrite !store_offset by (auto; lia).
    replace (Z.to_nat (2 * Z.of_nat k + 0)) with (length pre) by lia. rewrite set_nth_app.
    replace (pre ++ e :: y :: post) with ((pre ++ [e]) ++ y :: post) by now rewrite <- app_assoc.
    replace (Z.to_nat (2 * Z.of_nat k + 1)) with (length (pre ++ [e])) by (rewrite app_length; cbn [length]; lia).
    rewrite set_nth_app. replace ((pre ++ [e]) ++ s :: post) with ((pre ++ [e; s]) ++ post) by (rewrite <- !app_assoc; reflexivity).
    rewrite IH; [now rewrite <- app_assoc | lia | simpl in H2; lia | rewrite app_length; simpl; lia | lia].
Qed.
Lemma mdspan_offsets m : mdspan_wf m -> forall is, in_rng (m_ext m) is ->
  map_offset (m_lay m) (m_ext m) is = dot is (map_strides (m_lay m) (m_ext m)).
Proof.
  intros [Hn Hl] is Hi. assert (Hp := in_rng_pos _ _ Hi). destruct (m_lay m) as [| |st]; cbn [map_offset map_strides].
  - rewrite off_right_mod by (try apply in_rng_len; auto; lia). rewrite Z.mul_0_l, Z.add_0_l. rewrite strides_right_exact by auto.
    apply Z.mod_small. assert (G := dot_right_bound _ _ Hi). unfold prod in *. lia.
  - rewrite strides_left_exact by (auto; try lia; rewrite Z.mul_1_l; auto). assert (G := dot_left_bound _ _ Hi).
    assert (E := off_left_mod (m_ext m) is (in_rng_len _ _ Hi) (in_rng_nonneg _ _ Hi)). unfold prod in *.
    rewrite !Z.mod_small in E; auto; try lia. apply off_left_range.
  - destruct Hl as (H1 & H2 & H3). apply off_stride_exact; auto; [eapply in_rng_nonneg; eauto|].
    assert (G := dot_le_max _ _ st Hi H2). specialize (H3 Hp). lia.
Qed.
Lemma k_span_max ext : forall st, length st = length ext -> Forall (fun n => 0 < n) ext -> k_span ext st = 1 + max_offset ext st.
Proof.
  induction ext as [|n r IH]; intros [|s st] HL HP; try discriminate; [reflexivity|]. inversion HP as [|? ? P1 P2]; subst. cbn [k_span max_offset].
  cbn [length] in HL. rewrite IH by (auto; lia). rewrite Z.max_r by lia. lia.
Qed.
Lemma view_of_span m garbage : mdspan_wf m -> Z.of_nat (length (m_ext m)) < 2 ^ 62 ->
  (length garbage = 2 * length (m_ext m))%nat ->
  let v := allocation_kokkos_view m garbage in
  (forall is, kview_access v is = md_access m is) /\ build_mdspan v = Ok m.
Proof.
  intros Hm Hr Hg v. assert (Hm' := Hm). destruct Hm' as [Hn Hl].
  assert (Hv : v_data v = m_ptr m /\ v_ext v = m_ext m /\ v_str v = map_strides (m_lay m) (m_ext m) /\
               v_lay v = match m_lay m with LRight => KRight | LLeft => KLeft | LStride _ => KStride end).
  { unfold v, allocation_kokkos_view, build_kokkos_layout. destruct (m_lay m) as [| |st]; cbn [make_view v_data v_ext v_str v_lay map_strides]; auto.
    destruct Hl as (H1 & _). assert (F := fill_storage_ok (length (m_ext m)) Hr (m_ext m) st [] garbage H1 Hg 0%nat eq_refl ltac:(lia)).
    cbn [app] in F. rewrite F. destruct (evens_interleave (m_ext m) st H1) as [-> ->]. auto. }
  destruct Hv as (V1 & V2 & V3 & V4). split.
  - intros is. unfold kview_access, md_access. rewrite V1, V2, V3. destruct (all_in_range (m_ext m) is) eqn:E; auto.
    apply all_in_range_spec in E. rewrite k_dot_dot. now rewrite mdspan_offsets.
  - unfold build_mdspan. assert (C : is_kokkos_layout_compatible v = true).
    { unfold is_kokkos_layout_compatible, span_is_contiguous. rewrite V2, V3, V4.
      destruct (m_lay m) as [| |st]; auto; cbn [map_strides]; destruct (Z.eqb_spec (fold_right Z.mul 1 (m_ext m)) 0) as [|Hz]; auto; apply Z.eqb_eq;
       assert (Hp : Forall (fun n => 0 < n) (m_ext m)) by
        (apply Forall_forall; intros n Hi; rewrite Forall_forall in Hn; specialize (Hn n Hi);
         destruct (Z.eq_dec n 0) as [->|]; [|lia]; exfalso; apply Hz; clear -Hi; induction (m_ext m) as [|x l IH]; [destruct Hi|]; destruct Hi as [->|Hi]; cbn [fold_right]; [reflexivity | rewrite (IH Hi); ring]).
      - rewrite strides_right_exact by auto. assert (G := max_right _ Hp).
        rewrite k_span_max; auto; [unfold prod in *; lia|]. clear. induction (m_ext m); simpl; auto.
      - rewrite strides_left_exact by (auto; try lia; rewrite Z.mul_1_l; auto). assert (G := max_left _ Hp).
        rewrite k_span_max; auto; [unfold prod in *; lia|]. clear. generalize 1. induction (m_ext m); intros; simpl; auto. }
    rewrite C, V1, V2, V3, V4. destruct m as [p l e]; cbn [m_ptr m_lay m_ext]. destruct l; reflexivity.
Qed.

(** From a view. *)
Lemma dot_diff ext : forall st c, Forall2 Z.le c st -> length c = length ext -> Forall (fun n => 0 < n) ext ->
  k_span ext c <= k_span ext st /\
  (k_span ext c = k_span ext st -> forall is, in_rng ext is -> dot is c = dot is st) /\
  (k_span ext c <> k_span ext st -> exists is, in_rng ext is /\ dot is c <> dot is st).
Proof.
  intros st c Hf. revert ext. induction Hf as [|x y c st Hxy Hf IH]; intros [|n r] HL HP; try discriminate.
  - split; [reflexivity|]. split; [auto|]. intros []; auto.
  - inversion HP as [|? ? P1 P2]; subst. cbn [length] in HL. destruct (IH r ltac:(lia) P2) as (I1 & I2 & I3). cbn [k_span].
    assert ((n - 1) * x <= (n - 1) * y) by nia. split; [lia|]. split.
    + intros E is Hi. inversion Hi as [|? i ? is' B1 B2]; subst. cbn [dot].
      rewrite I2 by (auto; lia). assert ((n - 1) * x = (n - 1) * y) by lia. destruct (Z.eq_dec n 1); [assert (i = 0) by lia; subst; reflexivity|].
      assert (x = y) by nia. now subst.
    + intros E. destruct (Z.eq_dec (k_span r c) (k_span r st)) as [Ee|Ee].
      * assert ((n - 1) * x <> (n - 1) * y) by lia.
        exists ((n - 1) :: map (fun _ => 0) r). split.
        { constructor; [lia|]. clear -P2. induction P2; constructor; auto. lia. }
        cbn [dot]. rewrite (I2 Ee). { lia. } clear -P2. induction P2; constructor; auto. lia.
      * destruct (I3 Ee) as (is & Hi & Hd). exists (0 :: is). split; [constructor; auto; lia|]. cbn [dot]. lia.
Qed.
Lemma view_to_mdspan v : padded_view v -> v_lay v <> KStride ->
  (exists m, build_mdspan v = Ok m) <->
  (forall is, kview_access v is = md_access (mk_mdspan (v_data v) (match v_lay v with KLeft => LLeft | _ => LRight end) (v_ext v)) is).
Proof.
  intros (Hp & Hc & Hf) Hl. set (l := match v_lay v with KLeft => LLeft | _ => LRight end).
  set (c := match v_lay v with KLeft => dense_left 1 (v_ext v) | _ => dense_right (v_ext v) end) in *.
  assert (Hcl : length c = length (v_ext v)).
  { unfold c. destruct (v_lay v); rewrite ?dense_right_eq, ?dense_left_eq; try (clear; induction (v_ext v); simpl; auto; fail).
    clear. generalize 1. induction (v_ext v); intros; simpl; auto. }
  assert (Hwf : mdspan_wf (mk_mdspan (v_data v) l (v_ext v))).
  { split; cbn [m_ext m_lay]; [eapply Forall_impl; [|exact Hp]; intros; cbn beta in *; lia|]. unfold l. destruct (v_lay v); auto. }
  assert (Hms : map_strides l (v_ext v) = c).
  { unfold l, c. destruct (v_lay v); cbn [map_strides]; rewrite ?dense_right_eq, ?dense_left_eq;
      try (apply strides_right_exact; auto); apply strides_left_exact; auto; try lia; rewrite Z.mul_1_l; auto. }
  assert (Hk : k_span (v_ext v) c = fold_right Z.mul 1 (v_ext v)).
  { rewrite k_span_max by auto. unfold c. assert (G1 := max_right _ Hp). assert (G2 := max_left _ Hp). unfold prod in *.
    destruct (v_lay v); rewrite ?dense_right_eq, ?dense_left_eq; lia. }
  destruct (dot_diff (v_ext v) (v_str v) c Hf Hcl Hp) as (_ & D1 & D2).
  assert (Hpos := prod_pos _ Hp). unfold prod in Hpos.
  assert (Hacc : forall is, in_rng (v_ext v) is -> md_access (mk_mdspan (v_data v) l (v_ext v)) is = Ok (v_data v + dot is c)).
  { intros is Hi. unfold md_access. cbn [m_ext m_ptr m_lay]. rewrite (proj2 (all_in_range_spec _ _) Hi).
    assert (G := mdspan_offsets _ Hwf is Hi). cbn [m_ext m_lay] in G. now rewrite G, Hms. }
  assert (Hcomp : is_kokkos_layout_compatible v = (k_span (v_ext v) (v_str v) =? k_span (v_ext v) c)).
  { unfold is_kokkos_layout_compatible, span_is_contiguous. rewrite Hk. destruct (v_lay v); try congruence;
     destruct (Z.eqb_spec (fold_right Z.mul 1 (v_ext v)) 0); auto; lia. }
  unfold build_mdspan. rewrite Hcomp. split.
  - destruct (Z.eqb_spec (k_span (v_ext v) (v_str v)) (k_span (v_ext v) c)) as [E|E]; [|intros [m Hm]; discriminate].
    intros _ is. unfold kview_access. destruct (all_in_range (v_ext v) is) eqn:Ea.
    + apply all_in_range_spec in Ea. rewrite Hacc by auto. rewrite k_dot_dot, D1; auto.
    + unfold md_access. cbn [m_ext]. now rewrite Ea.
  - intros H. destruct (Z.eqb_spec (k_span (v_ext v) (v_str v)) (k_span (v_ext v) c)) as [E|E]; [eauto|].
    exfalso. destruct D2 as (is & Hi & Hd); [congruence|]. specialize (H is). rewrite Hacc in H by auto.
    unfold kview_access in H. rewrite (proj2 (all_in_range_spec _ _) Hi), k_dot_dot in H. injection H as H. lia.
Qed.
Lemma strided_view_to_mdspan v : v_lay v = KStride -> length (v_str v) = length (v_ext v) -> Forall (fun x => 0 <= x) (v_str v) ->
  k_span (v_ext v) (v_str v) <= 2 ^ 64 ->
  exists m, build_mdspan v = Ok m /\ forall is, md_access m is = kview_access v is.
Proof.
  intros Hl Hlen Hs Hk. unfold build_mdspan, is_kokkos_layout_compatible. rewrite Hl. eexists. split; [reflexivity|].
  intros is. unfold md_access, kview_access. cbn [m_ext m_ptr m_lay map_offset]. destruct (all_in_range (v_ext v) is) eqn:E; auto.
  apply all_in_range_spec in E. rewrite k_dot_dot. do 2 f_equal. apply off_stride_exact; auto; [eapply in_rng_nonneg; eauto|].
  assert (G := dot_le_max _ _ _ E Hs). assert (Hp := in_rng_pos _ _ E).
  rewrite k_span_max in Hk by auto. lia.
Qed.
