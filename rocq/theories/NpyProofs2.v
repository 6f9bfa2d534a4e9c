From Coq Require Import Ascii String.
From Verif Require Import ListAux TaggedSpec TaggedProofs DomainSpec DomainProofs DomainProofs2 SpanSpec SpanProofs StorageProofs ParSpec ParProofs2 ParProofs3 NpyModel NpySpec NpyProofs.
Open Scope list_scope.
Open Scope char_scope.
Open Scope Z_scope.

(** * Object representations *)
Lemma le_bytes_length n x : length (le_bytes n x) = n.
Proof. revert x. induction n; intros x; cbn [le_bytes length]; auto. Qed.
Lemma unsigned_le_bytes n x : unsigned_le (le_bytes n x) = x mod 2 ^ (8 * Z.of_nat n).
Proof.
  revert x. induction n as [|n IH]; intros x; cbn [le_bytes unsigned_le].
  - cbn. now rewrite Z.mod_1_r.
  - rewrite IH, code_byte by (apply Z.mod_pos_bound; lia).
    replace (8 * Z.of_nat (S n)) with (8 + 8 * Z.of_nat n) by lia. rewrite Z.pow_add_r by lia. change (2 ^ 8) with 256.
    rewrite Z.rem_mul_r by (try apply Z.pow_pos_nonneg; lia). reflexivity.
Qed.
Lemma bits_mod n x : bits n x -> x mod 2 ^ (8 * Z.of_nat n) = x.
Proof. intros H. apply Z.mod_small. exact H. Qed.
Definition part (native : endian) (n : nat) (x : Z) : bytes := match native with Big => rev (le_bytes n x) | _ => le_bytes n x end.
Lemma part_length native n x : length (part native n x) = n.
Proof. unfold part. destruct native; rewrite ?rev_length; apply le_bytes_length. Qed.
(** The order character agrees with the representation, or there is one byte only. *)
Definition order_ok (native : endian) (o : ascii) (n : nat) : Prop :=
  match native with Little => Ascii.eqb o ">" = false | Big => Ascii.eqb o ">" = true \/ n = 1%nat | Mixed => n = 1%nat /\ Ascii.eqb o ">" = false end.
Lemma unsigned_part native o n x : order_ok native o n -> unsigned o (part native n x) = x mod 2 ^ (8 * Z.of_nat n).
Proof.
  unfold unsigned, part, order_ok. destruct native.
  - intros ->. apply unsigned_le_bytes.
  - intros [-> | ->].
    + rewrite rev_involutive. apply unsigned_le_bytes.
    + rewrite <- unsigned_le_bytes. destruct (Ascii.eqb o ">"); reflexivity.
  - intros [-> ->]. apply unsigned_le_bytes.
Qed.
Lemma order_native native t n : (native <> Mixed \/ sizeof t = 1%nat) -> (n = sizeof t \/ (sizeof t <> 1%nat)) ->
  order_ok native (d_order (convert_to_npy_dtype native t)) n.
Proof.
  intros H Hn. unfold convert_to_npy_dtype, get_byte_order, order_ok. cbn [d_order].
  destruct (Z.eqb_spec (Z.of_nat (sizeof t)) 1) as [E|E].
  - assert (n = 1%nat) by lia. destruct native; auto.
  - destruct native; auto. destruct H as [H|H]; [congruence|lia].
Qed.
Lemma object_length native t v : has_type t v -> length (object_bytes native t v) = sizeof t.
Proof.
  intros H. unfold object_bytes. destruct t, v as [|x [|y [|z v]]]; try (destruct H; fail); cbn [flat_map sizeof];
    rewrite ?app_length; cbn [length]; rewrite ?(part_length native _ _ : length (match native with Big => _ | _ => _ end) = _); try lia; cbn in H; try contradiction.
Qed.
Lemma decode_round native t v : ctype_ok t -> has_type t v -> (native <> Mixed \/ sizeof t = 1%nat) ->
  decode (d_order (convert_to_npy_dtype native t)) (d_kind (convert_to_npy_dtype native t)) (object_bytes native t v) = v.
Proof.
  intros Ht H Hn. set (o := d_order _). 
  assert (Ho : forall n, (n = sizeof t \/ sizeof t <> 1%nat) -> order_ok native o n) by (intros n; now apply order_native).
  unfold decode, object_bytes. destruct t as [| |n|n|n|n], v as [|x [|y [|z v]]]; try (destruct H; fail); cbn [has_type] in H; try contradiction;
    cbn [d_kind convert_to_npy_dtype npy_kind Ascii.eqb eqb flat_map sizeof]; rewrite ?app_nil_r;
    try change (match native with Big => rev (le_bytes ?n x) | _ => le_bytes ?n x end) with (part native n x).
  - f_equal. change (unsigned o (part native 1 x) = x). rewrite unsigned_part by (apply Ho; now left). apply bits_mod. unfold bits. cbn. lia.
  - f_equal. change (unsigned o (part native 1 x) = x). rewrite unsigned_part by (apply Ho; now left). now apply bits_mod.
  - f_equal. change (signed o (part native n x) = x). unfold signed. rewrite part_length, unsigned_part by (apply Ho; now left).
    cbn in Ht. assert (Hp : 2 ^ (8 * Z.of_nat n) = 2 * 2 ^ (8 * Z.of_nat n - 1)) by (rewrite <- Z.pow_succ_r by lia; f_equal; lia).
    rewrite Hp. set (h := 2 ^ (8 * Z.of_nat n - 1)) in *. assert (0 < h) by (apply Z.pow_pos_nonneg; lia).
    destruct (Z_lt_le_dec x 0).
    + assert (E : x mod (2 * h) = x + 2 * h) by (symmetry; apply Z.mod_unique with (q := -1); lia). rewrite E.
      replace (x + 2 * h <? h) with false by lia. lia.
    + rewrite Z.mod_small by lia. replace (x <? h) with true by lia. reflexivity.
  - f_equal. change (unsigned o (part native n x) = x). rewrite unsigned_part by (apply Ho; now left). now apply bits_mod.
  - f_equal. change (unsigned o (part native n x) = x). rewrite unsigned_part by (apply Ho; now left). now apply bits_mod.
  - change (match native with Big => rev (le_bytes n x) | _ => le_bytes n x end) with (part native n x).
    change (match native with Big => rev (le_bytes n y) | _ => le_bytes n y end) with (part native n y).
    rewrite app_length, !part_length. replace (Nat.div2 (n + n)) with n by (rewrite <- (Nat.div2_double n) at 1; f_equal; lia).
    rewrite firstn_app, skipn_app, part_length, Nat.sub_diag. cbn [firstn skipn]. rewrite app_nil_r.
    rewrite <- (part_length native n x) at 1. rewrite firstn_all. rewrite <- (part_length native n x) at 2. rewrite skipn_all. cbn [app].
    cbn in Ht. rewrite !unsigned_part by (apply Ho; cbn [sizeof]; lia). now rewrite !bits_mod by tauto.
Qed.

(** * Positions *)
Lemma c_position_right d X idx : Forall2 (fun p i => X (fst p) = fst (snd p) + i) d idx ->
  c_position (map ext1 d) idx = row_major d X.
Proof.
  induction 1 as [|[q [b f]] i d idx H H2 IH]; [reflexivity|]. cbn [fst snd] in H. cbn [map c_position row_major].
  change (fold_right Z.mul 1 (map ext1 d)) with (prod (map ext1 d)). rewrite prod_box, IH, H. f_equal. f_equal. lia.
Qed.
Lemma fold_mul_mod l a : fold_left u64_mul l a mod 2 ^ 64 = (a * prod l) mod 2 ^ 64.
Proof.
  revert a. induction l as [|x l IH]; intros a; cbn [fold_left].
  - unfold prod. cbn [fold_right]. now rewrite Z.mul_1_r.
  - rewrite IH. unfold u64_mul, u64. change two64 with (2 ^ 64). rewrite Zmult_mod_idemp_l.
    unfold prod. cbn [fold_right]. f_equal. ring.
Qed.
Lemma fold_mul_exact l : prod l < 2 ^ 64 -> 0 <= prod l -> fold_left u64_mul l 1 mod 2 ^ 64 = prod l.
Proof. intros H1 H2. rewrite fold_mul_mod, Z.mul_1_l. apply Z.mod_small. lia. Qed.

Lemma map_seq_firstn {B} (f : nat -> B) n k l : (k + l <= n)%nat ->
  firstn l (skipn k (map f (seq 0 n))) = map f (seq k l).
Proof.
  intros H. rewrite skipn_map, firstn_map. f_equal.
  assert (G : forall j i, (j + l <= i)%nat -> forall b, firstn l (skipn j (seq b i)) = seq (b + j) l).
  { induction j as [|j IH]; intros i Hi b.
    - cbn [skipn]. rewrite Nat.add_0_r. replace i with (l + (i - l))%nat by lia. rewrite seq_app, firstn_app, seq_length, Nat.sub_diag. cbn [firstn].
      rewrite app_nil_r. apply firstn_all2. rewrite seq_length. lia.
    - destruct i as [|i]; [lia|]. cbn [seq skipn]. rewrite IH by lia. f_equal. lia. }
  rewrite G by lia. reflexivity.
Qed.
(** The bytes of the item at a given position. *)
Lemma item_bytes native t m ptr pos : 0 <= pos -> (0 < sizeof t)%nat -> has_type t (m (ptr + pos)) ->
  map (fun k => byte_at native t m ptr (Z.of_nat k)) (seq (Z.to_nat (pos * Z.of_nat (sizeof t))) (sizeof t)) = object_bytes native t (m (ptr + pos)).
Proof.
  intros Hp Hs Ht. assert (Hl := object_length native t _ Ht).
  apply nth_ext with (d := byte 0) (d' := byte 0); [rewrite map_length, seq_length; now symmetry|].
  intros i. rewrite map_length, seq_length. intros Hi.
  rewrite (nth_indep _ (byte 0) (byte_at native t m ptr (Z.of_nat 0))) by (rewrite map_length, seq_length; exact Hi).
  rewrite (map_nth (fun k => byte_at native t m ptr (Z.of_nat k))). rewrite seq_nth by exact Hi.
  unfold byte_at. set (s := Z.of_nat (sizeof t)) in *.
  replace (Z.of_nat (Z.to_nat (pos * s) + i)) with (Z.of_nat i + pos * s) by nia.
  rewrite Z.mod_add, Z.div_add by lia. rewrite Z.mod_small, Z.div_small by lia.
  rewrite Nat2Z.id. reflexivity.
Qed.
Lemma raw_length native t md m : prod (m_ext md) * Z.of_nat (sizeof t) < 2 ^ 64 -> 0 <= prod (m_ext md) -> (0 < sizeof t)%nat ->
  Z.to_nat (u64_mul (fold_left u64_mul (v_shape (to_np_array_view native t md m)) 1) (d_size (v_dtype (to_np_array_view native t md m))))
  = Z.to_nat (prod (m_ext md) * Z.of_nat (sizeof t)).
Proof.
  intros H H0 Hs. cbn [to_np_array_view v_shape v_dtype d_size convert_to_npy_dtype]. f_equal. unfold u64_mul at 1, u64. change two64 with (2 ^ 64).
  rewrite <- Zmult_mod_idemp_l. rewrite fold_mul_exact by nia. apply Z.mod_small. nia.
Qed.
Lemma dtype_native_ok native t : ctype_ok t -> dtype_ok (convert_to_npy_dtype native t).
Proof.
  intros H. unfold dtype_ok, convert_to_npy_dtype, get_byte_order. cbn [d_order d_kind d_size]. split; [|split].
  - destruct (_ =? 1); [cbn; tauto|]. destruct native; cbn; tauto.
  - destruct t; cbn; tauto.
  - destruct t; cbn [sizeof] in *; cbn in H; lia.
Qed.
Lemma sizeof_pos t : ctype_ok t -> (0 < sizeof t <= 32)%nat.
Proof. destruct t; cbn; lia. Qed.
Lemma exts_u64 d : dom_wf d -> Forall (fun n => 0 <= n < 2 ^ 64) (map ext1 d).
Proof.
  intros [_ H]. apply Forall_map. eapply Forall_impl; [|exact H]. intros p Hp. unfold ext1. cbn beta in Hp. lia.
Qed.

(** The array read back from a chunk in layout_right. *)
Lemma save_right native t m s b : span_wf s -> m_lay (s_md s) = LRight -> ctype_ok t -> (native <> Mixed \/ sizeof t = 1%nat) ->
  box_count (s_dom s) * Z.of_nat (sizeof t) < 2 ^ 64 ->
  (forall e v, in_box (s_dom s) e -> span_read m s [e] = Ok v -> has_type t v) ->
  save_view (to_np_array_view native t (s_md s) m) = Ok b ->
  exists a, read_npy b = Some a /\ np_shape a = map ext1 (s_dom s) /\ np_fortran a = false /\ np_kind a = kind_of t /\ np_size a = Z.of_nat (sizeof t) /\
    forall e idx, in_box (s_dom s) e -> index_of (s_dom s) e idx -> span_read m s [e] = Ok (np_item a idx).
Proof.
  intros Hw Hl Ht Hn Hc Hty Hb. destruct s as [[ptr lay ext] d]. destruct Hw as (Hd & He & Hbox). cbn [s_md s_dom m_lay m_ext] in *. subst lay.
  change (map (fun p => snd (snd p) - fst (snd p)) d) with (map ext1 d) in He. subst ext.
  set (v := to_np_array_view native t _ m) in *.
  assert (Hpos := sizeof_pos t Ht). assert (Hnn := box_count_nonneg d Hd).
  assert (Hprod : prod (map ext1 d) = box_count d) by apply prod_box.
  assert (Hlen : length (raw_data v) = Z.to_nat (box_count d * Z.of_nat (sizeof t))).
  { unfold raw_data. rewrite map_length, seq_length. unfold v. rewrite raw_length; cbn [m_ext]; rewrite ?Hprod; auto; lia. }
  assert (R := read_saved v b (dtype_native_ok native t Ht) (exts_u64 d Hd)).
  assert (Hv1 : v_shape v = map ext1 d) by reflexivity. assert (Hv2 : d_size (v_dtype v) = Z.of_nat (sizeof t)) by reflexivity.
  rewrite Hv1, Hv2 in R. change (fold_right Z.mul 1 (map ext1 d)) with (prod (map ext1 d)) in R. rewrite Hprod in R.
  specialize (R Hc Hb). rewrite Hlen in R. specialize (R ltac:(nia)).
  eexists. split; [exact R|]. cbn [np_shape np_fortran np_kind np_size]. split; [reflexivity|]. split; [reflexivity|].
  split; [destruct t; reflexivity|]. split; [reflexivity|].
  intros e idx Hbx Hidx.
  assert (Hw : span_wf (mk_span (mk_mdspan ptr LRight (map ext1 d)) d)) by (split; [exact Hd|]; split; [reflexivity|]; exact Hbox).
  destruct (address_exact ptr d Hd Hbox) as (sr & sl & Er & _ & Ha). rewrite span_of_ptr_ok in Er by auto. injection Er as <-.
  assert (Hbe : in_box d (concat [e])) by (cbn [concat]; now rewrite app_nil_r).
  destruct (Ha [e] (vf e) Hbe) as [Ea _].
  { intros q Hq. cbn [concat]. rewrite app_nil_r. destruct (dims_val e q) as [x Hx]; [destruct Hbx as [[_ K] _]; now apply K|].
    rewrite (vf_val e q x); auto. apply Hbx. }
  assert (Hrng : 0 <= row_major d (vf e) < box_count d).
  { destruct (alloc_bijection LRight ptr d Hd Hbox (or_introl eq_refl)) as (s' & Es & B1 & _). rewrite span_of_ptr_ok in Es by auto. injection Es as <-.
    destruct (B1 [e] Hbe) as (a' & Ea' & Hr). pose proof (eq_trans (eq_sym Ea) Ea') as K. injection K as <-. rewrite dom_size_exact in Hr by auto. lia. }
  assert (Er : span_read m (mk_span (mk_mdspan ptr LRight (map ext1 d)) d) [e] = Ok (m (ptr + row_major d (vf e)))).
  { unfold span_read. etransitivity; [apply (f_equal (fun z => rbind z _)); exact Ea|]. reflexivity. }
  assert (Htv := Hty e _ Hbx Er). etransitivity; [exact Er|]. f_equal. unfold np_item. cbn [np_fortran np_shape np_order np_kind np_size np_data].
  change (v_fortran v) with false. cbn iota.
  assert (Ep : c_position (map ext1 d) idx = row_major d (vf e)).
  { apply c_position_right. assert (Hnd : NoDup (dims e)) by apply Hbx. clear -Hidx Hnd. unfold index_of in Hidx.
    induction Hidx as [|p i d idx Hpi _ IH]; constructor; auto. now apply vf_val. }
  rewrite Ep. rewrite Nat2Z.id.
  unfold raw_data. unfold v. rewrite raw_length; cbn [m_ext]; rewrite ?Hprod; auto; [|lia].
  rewrite map_seq_firstn by nia. cbn [v_data to_np_array_view m_ptr]. rewrite item_bytes by (auto; lia).
  symmetry. exact (decode_round native t _ Ht Htv Hn).
Qed.

Lemma save_npy_reads native t host src fresh1 fresh2 g1 g2 g3 g4 (m : memory value) : span_wf src -> ctype_ok t -> (native <> Mixed \/ sizeof t = 1%nat) ->
  box_count (s_dom src) * Z.of_nat (sizeof t) < 2 ^ 64 ->
  (forall e v, in_box (s_dom src) e -> span_read m src [e] = Ok v -> has_type t v) ->
  fresh_for src fresh1 -> fresh_for src fresh2 -> (fresh1 + box_count (s_dom src) <= fresh2 \/ fresh2 + box_count (s_dom src) <= fresh1) ->
  room src g1 -> room src g2 -> room src g3 -> room src g4 ->
  (exists s1 s2, save_npy native t host src fresh1 fresh2 g1 g2 g3 g4 s1 s2 m <> Undef) /\
  forall s1 s2 b, save_npy native t host src fresh1 fresh2 g1 g2 g3 g4 s1 s2 m = Ok b ->
  exists a, read_npy b = Some a /\ np_shape a = map (fun p => snd (snd p) - fst (snd p)) (s_dom src) /\ np_fortran a = false /\
    np_kind a = kind_of t /\ np_size a = Z.of_nat (sizeof t) /\
    forall e idx, in_box (s_dom src) e -> index_of (s_dom src) e idx -> span_read m src [e] = Ok (np_item a idx).
Proof.
  intros Hw Ht Hn Hc Hty Hf1 Hf2 Hf12 Hg1 Hg2 Hg3 Hg4.
  assert (Hbox : box_count (s_dom src) < 2 ^ 64).
  { assert (K := sizeof_pos t Ht). assert (K2 := box_count_nonneg _ (proj1 Hw)). nia. }
  destruct (layout_right_ok src fresh1 g1 g2 m Hw Hbox Hf1 Hg1 Hg2) as [(s1 & c & m1 & E1) H1].
  (* the second copy *)
  assert (H2 : forall s1 c m1, create_layout_right_view_and_copy src fresh1 g1 g2 s1 m = Ok (c, m1) ->
    s_dom c = s_dom src /\ span_wf c /\ m_lay (s_md c) = LRight /\ (forall e, in_box (s_dom src) e -> span_read m1 c [e] = span_read m src [e]) /\
    exists c2, m_lay (s_md c2) = LRight /\ span_wf c2 /\ s_dom c2 = s_dom src /\
     (exists s2 r, create_mirror_view_and_copy host c fresh2 g3 g4 s2 m1 = Ok r) /\
     forall s2 c' m2, create_mirror_view_and_copy host c fresh2 g3 g4 s2 m1 = Ok (c', m2) ->
       c' = c2 /\ forall e, in_box (s_dom src) e -> span_read m2 c2 [e] = span_read m src [e]).
  { intros t1 c1 n1 E. destruct (H1 t1 c1 n1 E) as (Ed & El & Wc & Esame & Edis & Er).
    split; [exact Ed|]. split; [exact Wc|]. split; [exact El|]. split; [intros e He; apply Er, He|].
    assert (Hfr : fresh_for c1 fresh2).
    { intros a Ha. rewrite Ed. destruct (m_lay (s_md src)) eqn:Els.
      - rewrite (Esame eq_refl) in Ha. now apply Hf2.
      - destruct (Edis ltac:(discriminate)) as [_ K]. specialize (K a Ha). lia.
      - destruct (Edis ltac:(discriminate)) as [_ K]. specialize (K a Ha). lia. }
    assert (R3 : room c1 g3) by (destruct Hg3; split; rewrite Ed; auto). assert (R4 : room c1 g4) by (destruct Hg4; split; rewrite Ed; auto).
    destruct (mirror_ok c1 fresh2 g3 g4 n1 Wc El ltac:(now rewrite Ed) Hfr R3 R4) as (c2 & _ & _ & _ & D2 & L2 & W2 & _ & _ & (s2 & m2 & X) & T & F & Hc2).
    destruct host.
    - exists c1. split; [exact El|]. split; [exact Wc|]. split; [exact Ed|]. split; [exists [], (c1, n1); apply T|].
      intros u c' m' K. rewrite T in K. injection K as <- <-. split; [reflexivity|]. intros e He. apply Er, He.
    - exists c2. split; [exact L2|]. split; [exact W2|]. split; [congruence|]. split; [exists s2, (c2, m2); rewrite F; exact X|].
      intros u c' m' K. rewrite F in K. destruct (Hc2 u c' m' K) as (-> & K2 & _). split; [reflexivity|].
      intros e He. rewrite K2 by (now rewrite Ed). apply Er, He. }
  assert (H3 : forall t0 mm, save_view (to_np_array_view native t t0 mm) <> Undef).
  { intros t0 mm. rewrite save_view_ok. destruct (_ <? 65536); discriminate. }
  split.
  - destruct (H2 s1 c m1 E1) as (_ & _ & _ & _ & c2 & _ & _ & _ & (s2 & [c' m2] & E2) & _).
    exists s1, s2. unfold save_npy. rewrite E1. cbn [rbind fst snd]. rewrite E2. cbn [rbind fst snd]. apply H3.
  - intros t1 t2 b Hb. unfold save_npy in Hb. destruct (create_layout_right_view_and_copy src fresh1 g1 g2 t1 m) as [[c0 m0]| |] eqn:E; try discriminate.
    cbn [rbind fst snd] in Hb. destruct (H2 t1 c0 m0 E) as (Ed & Wc & Lc & _ & c2 & L2 & W2 & D2 & _ & K).
    destruct (create_mirror_view_and_copy host c0 fresh2 g3 g4 t2 m0) as [[c' m2]| |] eqn:E2; try discriminate. cbn [rbind fst snd] in Hb.
    destruct (K t2 c' m2 E2) as (-> & Hr).
    destruct (save_right native t m2 c2 b W2 L2 Ht Hn) as (a & A1 & A2 & A3 & A4 & A5 & A6).
    { now rewrite D2. }
    { intros e v He Hv. rewrite D2 in He. apply (Hty e v He). now rewrite <- Hr. }
    { exact Hb. }
    exists a. split; [exact A1|]. split; [rewrite A2, D2; reflexivity|]. split; [exact A3|]. split; [exact A4|]. split; [exact A5|].
    intros e idx He Hi. rewrite <- Hr by exact He. rewrite D2 in A6. now apply A6.
Qed.

(** * Geometry *)
Lemma header_geometry v b : save_view v = Ok b -> exists lo hi data,
  b = map byte [147; 78; 85; 77; 80; 89; 1; 0] ++ [lo; hi] ++ header_bytes v ++ data /\
  code lo + 256 * code hi = Z.of_nat (length (header_bytes v)) /\
  (Z.of_nat (length (map byte [147; 78; 85; 77; 80; 89; 1; 0] ++ [lo; hi] ++ header_bytes v))) mod 16 = 0 /\
  data = raw_data v.
Proof.
  intros H. rewrite save_view_ok in H. destruct (Z.ltb_spec (non_padded_header_len v + padding v) 65536) as [Hlt|]; [|discriminate].
  assert (Hinj : forall x y : bytes, Ok x = Ok y -> x = y) by (intros x y E; now injection E). apply Hinj in H. subst b. clear Hinj.
  assert (Hp := padding_range v). assert (0 < non_padded_header_len v) by (unfold non_padded_header_len; lia).
  eexists. eexists. exists (raw_data v). split; [reflexivity|]. split; [rewrite le_field by lia; now rewrite header_bytes_length|].
  split; [|reflexivity]. cbn [map app length]. rewrite !Nat2Z.inj_succ, header_bytes_length.
  replace (Z.succ _) with (10 + (non_padded_header_len v + padding v)) by lia. apply padding_aligns.
Qed.
Lemma rejected_iff v L : (Z.of_nat (length (header_dict v)) < L -> (10 + L) mod 16 = 0 ->
    (forall K, Z.of_nat (length (header_dict v)) < K -> (10 + K) mod 16 = 0 -> L <= K) -> save_view v = Rejected <-> 65535 < L).
Proof.
  intros H1 H2 H3. assert (Hp := padding_range v).
  assert (E : L = non_padded_header_len v + padding v).
  { assert (A := padding_aligns v). assert (L <= non_padded_header_len v + padding v) by (apply H3; [unfold non_padded_header_len; lia | exact A]).
    unfold non_padded_header_len in *. Z.to_euclidean_division_equations. lia. }
  rewrite save_view_ok, <- E. destruct (Z.ltb_spec L 65536); split; intros; try discriminate; try lia. reflexivity.
Qed.
Lemma geometry_exact v b : save_view v = Ok b -> exists lo hi k,
  b = map byte [147; 78; 85; 77; 80; 89; 1; 0] ++ [lo; hi] ++ (header_dict v ++ repeat " " k ++ [byte 10]) ++ raw_data v /\
  code lo + 256 * code hi = Z.of_nat (length (header_dict v ++ repeat " " k ++ [byte 10])) /\
  (10 + (code lo + 256 * code hi)) mod 16 = 0 /\ (k <= 15)%nat.
Proof.
  intros H. destruct (header_geometry v b H) as (lo & hi & data & E1 & E2 & E3 & ->). exists lo, hi, (Z.to_nat (padding v)).
  split; [exact E1|]. split; [exact E2|]. assert (Hp := padding_range v). split; [|lia].
  cbn [map app length] in E3. rewrite !Nat2Z.inj_succ in E3. rewrite E2. rewrite <- E3. f_equal. unfold header_bytes. lia.
Qed.
