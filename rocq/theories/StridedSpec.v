(** Specification of strided domains: arithmetic progressions. *)
From Verif Require Import TaggedModel StridedModel.

(** [x] is one of front, front + stride, ..., front + (extent - 1) * stride. *)
Definition progression (p : sdim) (x : Z) : Prop :=
  exists k, 0 <= k < sn p /\ x = sb p + k * ss p.

(** Domains whose positions fit in 64 bits, with a positive stride. *)
Definition sdim_wf (p : sdim) : Prop :=
  0 <= sb p < 2 ^ 64 /\ 0 <= sn p < 2 ^ 63 /\ 0 < ss p < 2 ^ 63 /\
  sn p * ss p < 2 ^ 63 /\ sb p + sn p * ss p < 2 ^ 64.
Definition sdom_wf (d : sdomain) : Prop := NoDup (sdims d) /\ Forall (fun p => sdim_wf (snd p)) d.

(** Elements of the domain, as value lists in the order of its dimensions. *)
Definition in_progressions (d : sdomain) (xs : list Z) : Prop :=
  Forall2 (fun p x => progression (snd p) x) d xs.
(** Offsets in [0, extents). *)
Definition s_in_range (d : sdomain) (v : list Z) : Prop := Forall2 (fun p k => 0 <= k < sn (snd p)) d v.
(** Cut sizes between 0 and the extent. *)
Definition cut1 (p : sdim) (k : Z) : Prop := sdim_wf p /\ 0 <= k <= sn p.
