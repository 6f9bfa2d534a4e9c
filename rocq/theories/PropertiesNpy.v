(** C22, C23: files written by save_npy.  The reader is in NpySpec. *)
From Coq Require Import Ascii String.
From Verif Require Import Machine TaggedModel TaggedSpec DomainModel DomainSpec SpanModel SpanSpec ParModel ParSpec NpyModel NpySpec NpyProofs NpyProofs2.
Open Scope list_scope.
Open Scope char_scope.
Open Scope Z_scope.

(** * C22 *)
Theorem C22_round_trip : forall native t host src fresh1 fresh2 g1 g2 g3 g4 (m : memory value),
  span_wf src -> ctype_ok t -> (native <> Mixed \/ sizeof t = 1%nat) ->
  box_count (s_dom src) * Z.of_nat (sizeof t) < 2 ^ 64 ->
  (forall e v, in_box (s_dom src) e -> span_read m src [e] = Ok v -> has_type t v) ->
  fresh_for src fresh1 -> fresh_for src fresh2 -> (fresh1 + box_count (s_dom src) <= fresh2 \/ fresh2 + box_count (s_dom src) <= fresh1) ->
  room src g1 -> room src g2 -> room src g3 -> room src g4 ->
  (exists s1 s2, save_npy native t host src fresh1 fresh2 g1 g2 g3 g4 s1 s2 m <> Undef) /\
  forall s1 s2 b, save_npy native t host src fresh1 fresh2 g1 g2 g3 g4 s1 s2 m = Ok b ->
  exists a, read_npy b = Some a /\ np_shape a = map (fun p => snd (snd p) - fst (snd p)) (s_dom src) /\ np_fortran a = false /\
    np_kind a = kind_of t /\ np_size a = Z.of_nat (sizeof t) /\
    forall e idx, in_box (s_dom src) e -> index_of (s_dom src) e idx -> span_read m src [e] = Ok (np_item a idx).
Proof. exact save_npy_reads. Qed.
Print Assumptions C22_round_trip.
(** A view with either order flag decodes to its own description and bytes. *)
Theorem C22_view : forall v b, dtype_ok (v_dtype v) -> Forall (fun n => 0 <= n < 2 ^ 64) (v_shape v) ->
  fold_right Z.mul 1 (v_shape v) * d_size (v_dtype v) < 2 ^ 64 -> save_view v = Ok b ->
  Z.of_nat (length (raw_data v)) = fold_right Z.mul 1 (v_shape v) * d_size (v_dtype v) ->
  read_npy b = Some (mk_np (d_order (v_dtype v)) (d_kind (v_dtype v)) (d_size (v_dtype v)) (v_fortran v) (v_shape v) (raw_data v)).
Proof. exact read_saved. Qed.
Print Assumptions C22_view.
(** A 2 x 3 column-major chunk of 16-bit integers. *)
Definition left23 : span := mk_span (mk_mdspan 100 LLeft [2; 3]) [(1%nat, (0, 2)); (2%nat, (5, 8))].
Example C22_ex : span_wf left23 /\ fresh_for left23 300 /\ fresh_for left23 400 /\
  match save_npy Little (CSigned 2) false left23 300 400 [0; 0; 0; 0] [0; 0; 0; 0] [0; 0; 0; 0] [0; 0; 0; 0]
    [0; 0; 1; 1; 2; 2; 3; 4; 5; 3; 4; 5]%nat [5; 5; 4; 4; 0; 0; 1; 1; 2; 2; 3; 3]%nat (fun a => [103 - a]) with
  | Ok b => match read_npy b with
            | Some a => np_shape a = [2; 3] /\ np_order a = "<" /\ map (np_item a) [[0; 0]; [0; 1]; [0; 2]; [1; 0]; [1; 1]; [1; 2]] = [[3]; [1]; [-1]; [2]; [0]; [-2]]
            | None => False
            end
  | _ => False
  end.
Proof.
  split; [split; [split; [repeat constructor; simpl; intuition lia | repeat constructor; simpl; lia]|]; split; [reflexivity | reflexivity]|].
  assert (K : forall a, cell_of left23 a -> 100 <= a < 106).
  { intros a (e & [_ Hb] & Ea). unfold span_access in Ea. destruct (contains _ _) as [[|]| |]; try discriminate. cbn [rbind] in Ea.
    destruct (distance_from_front _ _) as [v| |]; try discriminate. cbn [rbind] in Ea. unfold md_access in Ea.
    destruct (all_in_range (m_ext (s_md left23)) (values v)) eqn:Er; [|discriminate]. injection Ea as <-.
    destruct (values v) as [|i [|j [|k l]]]; cbn in Er; try (rewrite ?Bool.andb_false_r in Er; discriminate).
    cbn [s_md left23 m_ptr m_lay m_ext map_offset off_left].
    assert (0 <= i < 2 /\ 0 <= j < 3) as [Hi Hj] by lia. clear Er Hb.
    assert (i = 0 \/ i = 1) as [-> | ->] by lia; (assert (j = 0 \/ j = 1 \/ j = 2) as [-> | [-> | ->]] by lia); vm_compute; split; congruence. }
  split; [intros a Ha; specialize (K a Ha); cbn; lia|]. split; [intros a Ha; specialize (K a Ha); cbn; lia|].
  vm_compute. repeat split.
Qed.

(** * C23 *)
Theorem C23_geometry : forall v b, save_view v = Ok b -> exists lo hi k,
  b = map byte [147; 78; 85; 77; 80; 89; 1; 0] ++ [lo; hi] ++ (header_dict v ++ repeat " " k ++ [byte 10]) ++ raw_data v /\
  code lo + 256 * code hi = Z.of_nat (length (header_dict v ++ repeat " " k ++ [byte 10])) /\
  (10 + (code lo + 256 * code hi)) mod 16 = 0 /\ (k <= 15)%nat.
Proof. exact geometry_exact. Qed.
Print Assumptions C23_geometry.
(** L is the least length of a header, newline included, that aligns the data. *)
Theorem C23_throws_iff_too_long : forall v L, Z.of_nat (length (header_dict v)) < L -> (10 + L) mod 16 = 0 ->
  (forall K, Z.of_nat (length (header_dict v)) < K -> (10 + K) mod 16 = 0 -> L <= K) ->
  save_view v = Rejected <-> 65535 < L.
Proof. exact (fun v L H1 H2 H3 => rejected_iff v L H1 H2 H3). Qed.
Print Assumptions C23_throws_iff_too_long.
Definition long_view (n : Z) : npy_view := mk_view (fun _ => "x") (mk_dtype "|" "b" 1) (repeat 1 (Z.to_nat n)) false.
Example C23_ex : save_view (long_view 30000) = Rejected /\
  match save_view (long_view 3) with Ok b => Z.of_nat (length b) = 81 | _ => False end.
Proof. split; vm_compute; reflexivity. Qed.
