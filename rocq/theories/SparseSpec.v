From Coq Require Import Sorting.Sorted.
From Verif Require Import TaggedModel SparseModel.

(** Every coordinate list is strictly increasing (the documented way to build a sparse domain). *)
Definition spdom_wf (d : spdomain) : Prop :=
  NoDup (spdims d) /\ Forall (fun p => StronglySorted Z.lt (snd p)) d.
Definition in_lists (d : spdomain) (xs : list Z) : Prop := Forall2 (fun p x => In x (snd p)) d xs.
(** Offsets in [0, extents). *)
Definition sp_in_range (d : spdomain) (v : list Z) : Prop :=
  Forall2 (fun p k => 0 <= k < Z.of_nat (length (snd p))) d v.
(** Number of elements. *)
Definition sp_count (d : spdomain) : Z := fold_right (fun p acc => Z.of_nat (length (snd p)) * acc) 1 d.
