(** Model of src/ddc/sparse_discrete_domain.hpp. *)
From Verif Require Export Machine TypeSeqModel TaggedModel DomainModel StridedModel.

(** 138: one view of element identifiers per dimension. *)
Definition spdomain := list (tag * list Z).
(** Auxiliary: the dimensions of the domain. *)
Definition spdims (d : spdomain) : type_seq := map fst d.

(** 73-92 [lower_bound(first, last, value, std::less)] on a contiguous view: pointers are indices,
    [count / 2] is a division of a non-negative ptrdiff_t.  Dereferencing outside of the view is
    undefined.  [fuel] bounds the number of iterations; [None] if it is exhausted. *)
Fixpoint lower_bound_loop (fuel : nat) (l : list Z) (v : Z) (first count : nat) : option (res nat) :=
  if Nat.ltb 0 count then
    match fuel with
    | O => None
    | S fuel' =>
        let step := Nat.div2 count in
        let it := (first + step)%nat in
        match nth_error l it with
        | None => Some Undef
        | Some x => if x <? v then lower_bound_loop fuel' l v (it + 1) (count - (step + 1))
                    else lower_bound_loop fuel' l v first step
        end
    end
  else Some (Ok first).
(** See sparse_discrete_domain.hpp:73-92. *)
Definition lower_bound (l : list Z) (v : Z) : option (res nat) :=
  lower_bound_loop (length l) l v 0 (length l).

(** 94-99 [binary_search]. *)
Definition binary_search (l : list Z) (v : Z) : option (res bool) :=
  match lower_bound l v with
  | Some (Ok first) =>
      if Nat.eqb first (length l) then Some (Ok false)
      else match nth_error l first with
           | Some x => Some (Ok (negb (v <? x)))
           | None => Some Undef
           end
  | Some Undef => Some Undef
  | Some Rejected => Some Rejected
  | None => None
  end.
(** A non-terminating search has no outcome: it is reported as [Undef]. *)
Definition run {A} (o : option (res A)) : res A := match o with Some r => r | None => Undef end.

(** 272-290 [contains]. *)
Fixpoint sp_contains_loop (d : spdomain) (e : list Z) : res bool :=
  match d, e with
  | (_, l) :: d', i :: e' =>
      rbind (run (binary_search l i)) (fun r => if r then sp_contains_loop d' e' else Ok false)
  | _, _ => Ok true
  end.
(** See sparse_discrete_domain.hpp:272-290. *)
Definition sp_contains (d : spdomain) (es : list tagged) : res bool :=
  if Nat.eqb (length d) (sum_sizes es)
  then rbind (construct (spdims d) es) (fun e => sp_contains_loop d (values e))
  else Rejected.
(** 292-308 [distance_from_front]. *)
Definition sp_distance1 (p : tag * list Z) (i : Z) : res (tag * Z) :=
  rbind (run (lower_bound (snd p) i)) (fun k => Ok (fst p, Z.of_nat k)).
(** See sparse_discrete_domain.hpp:292-308. *)
Definition sp_distance (d : spdomain) (es : list tagged) : res tagged :=
  if Nat.eqb (length d) (sum_sizes es)
  then rbind (construct (spdims d) es) (fun e => map2_res sp_distance1 d (values e))
  else Rejected.
(** 266-270 [operator()(DiscreteVector)]: out-of-range subscript is undefined. *)
Definition sp_at1 (p : tag * list Z) (k : Z) : res (tag * Z) :=
  if k <? 0 then Undef else
  match nth_error (snd p) (Z.to_nat k) with Some x => Ok (fst p, x) | None => Undef end.
(** See sparse_discrete_domain.hpp:266-270. *)
Definition sp_at (d : spdomain) (v : list Z) : res tagged := map2_res sp_at1 d v.

(** 208-211 [size], 310-313 [empty]. *)
Definition sp_size (d : spdomain) : Z := fold_left (fun acc p => u64_mul acc (Z.of_nat (length (snd p)))) d 1.
(** See sparse_discrete_domain.hpp:208-211, 310-313. *)
Definition sp_empty (d : spdomain) : bool := sp_size d =? 0.

(** 61-71 [detail::equal] over [length l] entries. *)
Fixpoint sp_equal (l m : list Z) : bool :=
  match l, m with
  | [], _ => true
  | x :: l', y :: m' => if negb (x =? y) then false else sp_equal l' m'
  | _ :: _, [] => true (* not reached: sizes are compared before *)
  end.
(** 175-197 [operator==] when the tags are in the same order. *)
Fixpoint sp_eq_loop (d o : spdomain) : bool :=
  match d, o with
  | (_, l) :: d', (_, m) :: o' =>
      if negb (Nat.eqb (length l) (length m)) then false
      else if negb (sp_equal l m) then false else sp_eq_loop d' o'
  | _, _ => true
  end.
(** See sparse_discrete_domain.hpp:175-197. *)
Definition sp_eq (d o : spdomain) : bool :=
  if sp_empty d && sp_empty o then true else sp_eq_loop d o.

(** for_each.hpp:59-63 on a sparse domain (extents: sparse_discrete_domain.hpp:213-216). *)
Definition sp_host_for_each {S : Type} (d : spdomain) (f : tagged -> S -> S) (s : S) : res S :=
  for_each_serial (fun v => sp_at d (values v)) (spdims d) (map (fun p => Z.of_nat (length (snd p))) d) f [] (Ok s).
