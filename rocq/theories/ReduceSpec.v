(** Specification vocabulary for reductions and scans. *)
From Coq Require Import Permutation.
From Verif Require Import Machine TaggedModel TaggedSpec DomainModel DomainSpec SpanModel SpanSpec ReduceModel.

(** [l] lists the elements of [d], each exactly once, in any order. *)
Definition enumerates (d : domain) (l : list tagged) : Prop :=
  NoDup l /\ forall e, In e l <-> dims e = ddims d /\ in_box d e.
(** The extents of a domain. *)
Definition sizes_of (d : domain) : list Z := map (fun p => snd (snd p) - fst (snd p)) d.
(** Kokkos' contract: every index of the policy is given to exactly one leaf. *)
Definition covers (s : schedule) (sizes : list Z) : Prop := Permutation (leaves s) (policy_indices sizes).

(** The mathematical value of each reduction of a list of size_t values. *)
Definition reduction (r : reducer) (l : list Z) : Z :=
  match r with
  | RSum => fold_right Z.add 0 l mod 2 ^ 64
  | RProd => fold_right Z.mul 1 l mod 2 ^ 64
  | RLand => if forallb (fun x => negb (x =? 0)) l then 1 else 0
  | RLor => if existsb (fun x => negb (x =? 0)) l then 1 else 0
  | RBand => fold_right Z.land (2 ^ 64 - 1) l
  | RBor => fold_right Z.lor 0 l
  | RBxor => fold_right Z.lxor 0 l
  | RMin => fold_right Z.min (2 ^ 64 - 1) l
  | RMax => fold_right Z.max 0 l
  end.
Definition size_t_valued (f : tagged -> Z) : Prop := forall e, 0 <= f e < 2 ^ 64.

(** Kokkos' contract for scans over [0, n): consecutive chunks, starts computed from the indices
    before the chunk, every chunk's calls made to the end. *)
Fixpoint starts_ok (before : list Z) (cs : list (list Z * scan_tree)) : Prop :=
  match cs with
  | [] => True
  | (ids, t) :: r => scan_leaves t = before /\ starts_ok (before ++ ids) r
  end.
Definition scan_contract (x : scan_exec) (n : Z) : Prop :=
  concat (map fst (x_chunks x)) = zrange n /\
  starts_ok [] (x_chunks x) /\
  forall k, count_occ Nat.eq_dec (x_steps x) k = length (nth k (map fst (x_chunks x)) []).
(** The positions of dimension [q] of [d] up to [x]. *)
Definition upto (incl : bool) (b x : Z) : list Z :=
  map (Z.add b) (zrange (x - b + if incl then 1 else 0)).
(** The dimensions of [d] that are not in [ts]. *)
Definition without (d : domain) (ts : type_seq) : domain := filter (fun p => negb (has_dim ts (fst p))) d.
(** Address [a] holds no element of [out]. *)
Definition outside (out : span) (a : Z) : Prop := forall e, in_box (s_dom out) e -> span_access out [e] <> Ok a.
(** [m] and [m0] agree on what the functor may read: cells outside of [out] and, for inclusive scans,
    the very cell being computed. *)
Definition same_inputs (ty : scan_type) (out : span) (m0 m : memory Z) (ib es : tagged) : Prop :=
  forall a, outside out a \/ (ty = Inclusive /\ span_access out [ib; es] = Ok a) -> m a = m0 a.
