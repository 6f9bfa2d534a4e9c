(** Specification vocabulary for tagged values: the value attached to a dimension. *)
From Verif Require Import TaggedModel.

(** [val_of e q x]: dimension [q] of [e] has value [x]. *)
Definition val_of (e : tagged) (q : tag) (x : Z) : Prop := In (q, x) e.
(** [e] and [f] have the same dimensions (in any order) and the same value in each. *)
Definition same_values (e f : tagged) : Prop := forall q x, val_of e q x <-> val_of f q x.
(** [val0 v q x]: displacement along [q], 0 when [q] is not a dimension of [v]. *)
Definition val0 (v : tagged) (q : tag) (x : Z) : Prop := val_of v q x \/ (~ In q (dims v) /\ x = 0).
