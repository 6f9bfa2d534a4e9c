(** What PDI sees of a chunk.  PDI takes an array to be stored with nothing between its elements, the
    last dimension fastest (the arrays of C). *)
From Coq Require Import String.
From Verif Require Import Machine TypeSeqModel TaggedModel TaggedSpec DomainModel DomainSpec SpanModel SpanSpec PdiModel PdiSpec ExposeModel.
Local Open Scope Z_scope.

(** The number of elements of an array of PDI. *)
Definition elements (extents : list Z) : Z := fold_right Z.mul 1 extents.
(** The array of these extents at an address. *)
Definition array_at {V} (m : memory V) (p : Z) (extents : list Z) : list V :=
  map (fun k => m (p + Z.of_nat k)) (seq 0 (Z.to_nat (elements extents))).
(** In the state [w] of PDI the latest array of a name has rank, extents, values and access. *)
Definition pdi_sees {V} (w : world) (m : memory V) (name : string) (extents : list Z) (vals : list V) (a : access) : Prop :=
  exists p i j r1 r2 r3,
    shared w (name ++ "_rank")%string = (Own i, read_only) :: r1 /\ owned w i = Some (Scalar (Z.of_nat (length extents))) /\
    shared w (name ++ "_extents")%string = (Own j, read_only) :: r2 /\ owned w j = Some (Array extents) /\
    shared w name = (User p, a) :: r3 /\ vals = array_at m p extents.
(** PDI replaces the values of an array. *)
Definition overwrite {V} (m : memory V) (p : Z) (vals : list V) : memory V :=
  fun a => if (p <=? a) && (a <? p + Z.of_nat (length vals)) then nth (Z.to_nat (a - p)) vals (m a) else m a.

(** The number of elements in each dimension. *)
Definition sizes (d : domain) : list Z := map (fun p => snd (snd p) - fst (snd p)) d.
(** The elements of a chunk are stored as PDI expects. *)
Definition packed (s : span) : Prop :=
  forall e X, in_box (s_dom s) e -> (forall q, In q (ddims (s_dom s)) -> val_of e q (X q)) ->
    span_access s [e] = Ok (m_ptr (s_md s) + row_major (s_dom s) X).
(** The values of a chunk in the order of its elements, last dimension fastest. *)
Definition values_of {V} (m : memory V) (s : span) (vals : list V) : Prop :=
  exists es, host_for_each (s_dom s) (fun e l => l ++ [e]) [] = Ok es /\
    Forall2 (fun e v => span_read m s [e] = Ok v) es vals.
(** Calls of [with] that share none of the names of another. *)
Definition names_of (c : string * option access * data) : list string :=
  match c with
  | (name, _, Chunk _ _ _) => [name ++ "_rank"; name ++ "_extents"; name]
  | (name, _, Arithmetic _ _ _) => [name]
  | (name, _, CString _ _) => [name ++ "_size"; name]
  end%string.
Definition apart (name : string) (l : list (string * option access * data)) : Prop :=
  forall c n, In c l -> In n (names_of c) -> n <> name /\ n <> (name ++ "_rank")%string /\ n <> (name ++ "_extents")%string.
(** PDI with nothing shared. *)
Definition no_pdi : world := mk_world (fun _ => []) (fun _ => None).
(** Exposing a chunk alone, whatever its values: at the event PDI sees its extents and its values. *)
Definition reads_well (s : span) (wr : bool) (ev name : string) : Prop :=
  forall m : memory Z, exists d before after w1 vals, exposed s wr = Ok d /\
    event_life ev [(name, None, d)] = Ok (before ++ [PDI_event ev] ++ after) /\ steps no_pdi before w1 /\
    pdi_sees w1 m name (sizes (s_dom s)) vals (if wr then read_write else read_only) /\ values_of m s vals.
