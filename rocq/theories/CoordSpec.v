(** Specification vocabulary for coordinates: the value along a dimension. *)
From Verif Require Import CoordModel.
Set Implicit Arguments.

(** [along c q x]: the coordinate [c] has the value [x] along the dimension [q]. *)
Definition along {A : arith} (c : coord A) (q : tag) (x : num A) : Prop := In (q, x) c.
(** The dimensions of a coordinate are distinct. *)
Definition coord_wf {A : arith} (c : coord A) : Prop := NoDup (cdims c).
(** The same dimensions, in any order. *)
Definition same_dims {A : arith} (c d : coord A) : Prop := forall q, In q (cdims c) <-> In q (cdims d).
(** The same dimensions, in any order, and the same value along each. *)
Definition same_coord {A : arith} (c d : coord A) : Prop := forall q x, along c q x <-> along d q x.
(** An operation of two coordinates that yields a coordinate. *)
Definition pointwise {A : arith} (op : num A -> num A -> num A) (l r s : coord A) : Prop :=
  cdims s = cdims l /\ forall q x y, along l q x -> along r q y -> along s q (op x y).
