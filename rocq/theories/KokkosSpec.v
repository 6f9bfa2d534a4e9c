From Verif Require Import Machine SpanModel SpanSpec KokkosModel.

(** An mdspan whose offsets fit in size_t. *)
Definition mdspan_wf (m : mdspan) : Prop :=
  Forall (fun n => 0 <= n) (m_ext m) /\
  match m_lay m with
  | LStride st => length st = length (m_ext m) /\ Forall (fun x => 0 <= x) st /\
                  (Forall (fun n => 0 < n) (m_ext m) -> max_offset (m_ext m) st < 2 ^ 64)
  | _ => fold_right Z.mul 1 (m_ext m) < 2 ^ 64
  end.
(** A non-empty view over right or left layout, possibly padded: every stride is at least the dense
    one. *)
Fixpoint dense_right (ext : list Z) : list Z :=
  match ext with [] => [] | _ :: r => fold_right Z.mul 1 r :: dense_right r end.
Fixpoint dense_left (acc : Z) (ext : list Z) : list Z :=
  match ext with [] => [] | n :: r => acc :: dense_left (acc * n) r end.
Definition padded_view (v : kview) : Prop :=
  Forall (fun n => 0 < n) (v_ext v) /\ fold_right Z.mul 1 (v_ext v) < 2 ^ 64 /\
  Forall2 Z.le (match v_lay v with KLeft => dense_left 1 (v_ext v) | _ => dense_right (v_ext v) end) (v_str v).
