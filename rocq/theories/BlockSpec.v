(** Specification vocabulary for block iteration. *)
From Verif Require Import Machine TaggedModel TaggedSpec DomainModel DomainSpec.

(** The block [b] covers only elements of [d], and has the same type. *)
Definition sub_block (d b : domain) : Prop :=
  dom_wf b /\ ddims b = ddims d /\ forall e, in_box b e -> in_box d e.
(** Every element of [d] is in exactly one block of the list (one position of the list). *)
Definition partition (d : domain) (l : list domain) : Prop :=
  Forall (sub_block d) l /\
  forall e, in_box d e ->
    exists k, (exists b, nth_error l k = Some b /\ in_box b e) /\
    forall k' b', nth_error l k' = Some b' -> in_box b' e -> k' = k.
(** In every dimension the extents of any two blocks differ by at most one. *)
Definition balanced (l : list domain) : Prop :=
  forall b1 b2 q x1 y1 x2 y2, In b1 l -> In b2 l -> In (q, (x1, y1)) b1 -> In (q, (x2, y2)) b2 ->
    Z.abs ((y1 - x1) - (y2 - x2)) <= 1.
(** Each number of blocks is positive and one number is given for each dimension. *)
Definition block_counts (d : domain) (nbs : tagged) : Prop :=
  dims nbs = ddims d /\ forall q nb, val_of nbs q nb -> 0 < nb < 2 ^ 63.
Definition product (l : list Z) : Z := fold_right Z.mul 1 l.
(** The largest power of two that divides no dimension below one element. *)
Definition max_blocks (sizes : list Z) : Z := product (map (fun s => 2 ^ Z.log2 (Z.max 1 s)) sizes).
