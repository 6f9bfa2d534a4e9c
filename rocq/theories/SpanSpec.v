From Verif Require Import Machine TypeSeqModel TaggedModel TaggedSpec DomainModel DomainSpec SpanModel.

(** A span whose mdspan fits its domain, with non-negative strides and offsets in size_t. *)
Fixpoint max_offset (ext st : list Z) : Z :=
  match ext, st with n :: ext', s :: st' => Z.max 0 (n - 1) * s + max_offset ext' st' | _, _ => 0 end.
Definition span_wf (s : span) : Prop :=
  dom_wf (s_dom s) /\
  m_ext (s_md s) = map (fun p => snd (snd p) - fst (snd p)) (s_dom s) /\
  (match m_lay (s_md s) with
   | LStride st => length st = length (s_dom s) /\ Forall (fun x => 0 <= x) st /\
                   (Forall (fun n => 0 < n) (m_ext (s_md s)) -> max_offset (m_ext (s_md s)) st < 2 ^ 64)
   | _ => box_count (s_dom s) < 2 ^ 64
   end).

(** Slices that a program may apply to a domain, and the domain they leave. *)
Definition has_dim (ts : type_seq) (q : tag) : bool := if in_dec Nat.eq_dec q ts then true else false.
Definition elem_ok (d : domain) (e : tagged) : Prop :=
  NoDup (dims e) /\ forall q x, val_of e q x -> exists b f, In (q, (b, f)) d /\ b <= x < f.
Definition dom_ok (d o : domain) : Prop :=
  dom_wf o /\ incl (ddims o) (ddims d) /\
  (forall q b f b' f', In (q, (b, f)) d -> In (q, (b', f')) o -> b <= b' /\ f' <= f).
Definition left_dims (d : domain) (e : tagged) : domain :=
  filter (fun p => negb (has_dim (dims e) (fst p))) d.
Definition override (d o : domain) : domain :=
  map (fun p => match find (fun r => Nat.eqb (fst r) (fst p)) o with Some r => (fst p, snd r) | None => p end) d.
Fixpoint slices_ok (d : domain) (sls : list slice) : Prop :=
  match sls with
  | [] => True
  | SElem e :: r => elem_ok d e /\ slices_ok (left_dims d e) r
  | SDom o :: r => dom_ok d o /\ slices_ok (override d o) r
  end.
Fixpoint left_domain (d : domain) (sls : list slice) : domain :=
  match sls with
  | [] => d
  | SElem e :: r => left_domain (left_dims d e) r
  | SDom o :: r => left_domain (override d o) r
  end.
(** The elements fixed along the way (last first). *)
Fixpoint fixed_elems (sls : list slice) : list tagged :=
  match sls with [] => [] | SElem e :: r => fixed_elems r ++ [e] | SDom _ :: r => fixed_elems r end.

(** Row-major and column-major positions of an element of a box. *)
Fixpoint row_major (d : domain) (X : tag -> Z) : Z :=
  match d with [] => 0 | (q, (b, f)) :: r => (X q - b) * box_count r + row_major r X end.
Fixpoint col_major (d : domain) (X : tag -> Z) : Z :=
  match d with [] => 0 | (q, (b, f)) :: r => (X q - b) + (f - b) * col_major r X end.
(** No two elements share a cell. *)
Definition no_aliasing (s : span) : Prop :=
  forall e1 e2 a, in_box (s_dom s) e1 -> in_box (s_dom s) e2 ->
    span_access s [e1] = Ok a -> span_access s [e2] = Ok a -> same_values e1 e2.
(** Specification of writes: an association from elements to values, most recent first. *)
Definition same_values_b (a b : tagged) : bool :=
  forallb (fun p => existsb (fun r => Nat.eqb (fst p) (fst r) && (snd p =? snd r)) b) a.
Fixpoint latest {V} (ws : list (tagged * V)) (e : tagged) : option V :=
  match ws with [] => None | (e', v) :: r => if same_values_b e e' then Some v else latest r e end.
(** A write through a slicing is legal, and the element of the original span it designates. *)
Definition write_ok (d : domain) {V} (w : list slice * list tagged * V) : Prop :=
  slices_ok d (fst (fst w)) /\ in_box (left_domain d (fst (fst w))) (concat (snd (fst w))).
Definition target {V} (w : list slice * list tagged * V) : tagged * V :=
  (concat (snd (fst w) ++ fixed_elems (fst (fst w))), snd w).
