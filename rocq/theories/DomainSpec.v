(** Specification vocabulary for domains: a box of per-dimension half-open intervals. *)
From Coq Require Import Sorting.Sorted.
From Verif Require Import TaggedModel TaggedSpec DomainModel.

(** Domains a program can build from a front and non-negative extents without overflowing 64-bit
    positions: begin <= end, both in size_t, with extents representable in ptrdiff_t. *)
Definition dom_wf (d : domain) : Prop :=
  NoDup (ddims d) /\
  Forall (fun p => 0 <= fst (snd p) /\ fst (snd p) <= snd (snd p) < 2 ^ 64 /\
                   snd (snd p) - fst (snd p) < 2 ^ 63) d.

(** [e] is an element over the dimensions of [d] (in any order). *)
Definition elem_of_dims (d : domain) (e : tagged) : Prop :=
  NoDup (dims e) /\ (forall q, In q (dims e) <-> In q (ddims d)).

(** The box: in every dimension the value of [e] lies in [begin, end). *)
Definition in_box (d : domain) (e : tagged) : Prop :=
  elem_of_dims d e /\
  forall q b f, In (q, (b, f)) d -> exists x, val_of e q x /\ b <= x < f.

(** Number of elements of the box. *)
Definition box_count (d : domain) : Z :=
  fold_right (fun p acc => (snd (snd p) - fst (snd p)) * acc) 1 d.

(** Lexicographic order on value lists (last dimension fastest). *)
Fixpoint lex_lt (a b : list Z) : Prop :=
  match a, b with
  | x :: a', y :: b' => x < y \/ (x = y /\ lex_lt a' b')
  | _, _ => False
  end.

(** [x] is a position of [d] in dimension [q]. *)
Definition in_dim (d : domain) (q : tag) (x : Z) : Prop :=
  exists b f, In (q, (b, f)) d /\ b <= x < f.
(** [n] is a vector of cut sizes between 0 and the extents. *)
Definition cut_ok (d : domain) (n : tagged) : Prop :=
  vect_wf n /\ (forall q, In q (dims n) <-> In q (ddims d)) /\
  forall q b f y, In (q, (b, f)) d -> val_of n q y -> 0 <= y <= f - b.
(** [v] is an offset in [0, extents) in every dimension. *)
Definition offset_in_range (d : domain) (v : tagged) : Prop :=
  elem_of_dims d v /\ forall q b f, In (q, (b, f)) d -> exists x, val_of v q x /\ 0 <= x < f - b.
(** The entries of [e] whose dimension is in [ts]. *)
Definition proj (ts : type_seq) (e : tagged) : tagged :=
  filter (fun p => if in_dec Nat.eq_dec (fst p) ts then true else false) e.
