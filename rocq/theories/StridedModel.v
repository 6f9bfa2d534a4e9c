(** Model of src/ddc/strided_discrete_domain.hpp. *)
From Verif Require Export Machine TypeSeqModel TaggedModel DomainModel.

(** strided_discrete_domain.hpp:88-92: front, extents and strides, one record per dimension. *)
Record sdim := mk_sdim { sb : Z; sn : Z; ss : Z }.
(** A domain: one triple for each dimension (strided_discrete_domain.hpp:88-92). *)
Definition sdomain := list (tag * sdim).
(** Auxiliary: the dimensions of the domain. *)
Definition sdims (d : sdomain) : type_seq := map fst d.

(** Vector arguments have type [DiscreteVector<DDims...>], i.e. the tags of the domain in the same
    order, so they are given as the array of their values.  [map2_res] runs a one-dimensional operation
    in every dimension (pack expansion). *)
Fixpoint map2_res {A B C} (f : A -> B -> res C) (l : list A) (m : list B) : res (list C) :=
  match l, m with
  | x :: l', y :: m' => rbind (f x y) (fun z => rbind (map2_res f l' m') (fun r => Ok (z :: r)))
  | [], [] => Ok []
  | _, _ => Rejected
  end.
(** Auxiliary: a function applied in each dimension. *)
Definition lift1 {B C} (f : sdim -> B -> res C) (d : sdomain) (v : list B) : res (list (tag * C)) :=
  map2_res (fun p k => rbind (f (snd p) k) (fun c => Ok (fst p, c))) d v.

(** 64-70 [prod] in one dimension: ptrdiff_t product. *)
Definition prod1 (a b : Z) : res Z := smul a b.
(** 216-220 [operator()]. *)
Definition s_at1 (p : sdim) (k : Z) : res Z := rbind (prod1 k (ss p)) (fun v => Ok (u64_add (sb p) v)).
(** 182-187 [back]. *)
Definition s_back1 (p : sdim) : res Z :=
  rbind (ssub (sn p) 1) (fun m => rbind (smul m (ss p)) (fun v => Ok (u64_add (sb p) v))).
(** 189-192 [take_first]. *)
Definition s_take_first1 (p : sdim) (k : Z) : res sdim := Ok (mk_sdim (sb p) k (ss p)).
(** 194-197 [take_last]. *)
Definition s_take_last1 (p : sdim) (k : Z) : res sdim :=
  rbind (ssub (sn p) k) (fun m => rbind (prod1 m (ss p)) (fun v => Ok (mk_sdim (u64_add (sb p) v) k (ss p)))).
(** 199-202 [remove_first]. *)
Definition s_remove_first1 (p : sdim) (k : Z) : res sdim :=
  rbind (prod1 k (ss p)) (fun v => rbind (ssub (sn p) k) (fun m => Ok (mk_sdim (u64_add (sb p) v) m (ss p)))).
(** 204-207 [remove_last]. *)
Definition s_remove_last1 (p : sdim) (k : Z) : res sdim :=
  rbind (ssub (sn p) k) (fun m => Ok (mk_sdim (sb p) m (ss p))).
(** 209-214 [remove]. *)
Definition s_remove1 (p : sdim) (k : Z * Z) : res sdim :=
  rbind (prod1 (fst k) (ss p)) (fun v => rbind (ssub (sn p) (fst k)) (fun m1 =>
  rbind (ssub m1 (snd k)) (fun m => Ok (mk_sdim (u64_add (sb p) v) m (ss p))))).

(** 228-233 the lambda [contains_1d]: [i], [b] are size_t, [n], [s] ptrdiff_t; the comparisons are
    unsigned, [%] by a zero stride is undefined, [&&] short-circuits. *)
Definition contains_1d (i b n s : Z) : res bool :=
  if i <? b then Ok false
  else rbind (ssub n 1) (fun m => rbind (smul m s) (fun v =>
       if i <? u64 (b + v + 1)
       then if u64 s =? 0 then Undef else Ok ((u64_sub i b) mod (u64 s) =? 0)
       else Ok false)).
(** See strided_discrete_domain.hpp:228-233. *)
Fixpoint s_contains_loop (d : sdomain) (e : list Z) : res bool :=
  match d, e with
  | (_, p) :: d', i :: e' =>
      rbind (contains_1d i (sb p) (sn p) (ss p)) (fun r => if r then s_contains_loop d' e' else Ok false)
  | _, _ => Ok true
  end.
(** 222-246 [contains(delems...)]. *)
Definition s_contains (d : sdomain) (es : list tagged) : res bool :=
  if Nat.eqb (length d) (sum_sizes es)
  then rbind (construct (sdims d) es) (fun e => s_contains_loop d (values e))
  else Rejected.

(** 248-261 [distance_from_front]: ptrdiff_t division (truncated), undefined for a zero stride or
    for the quotient 2^63.  The KOKKOS_ASSERT is the precondition "contains". *)
Definition sdiv (a b : Z) : res Z :=
  if b =? 0 then Undef else of_i64 (i64_ret (Z.quot a b)).
(** See strided_discrete_domain.hpp:248-261, 63. *)
Definition s_distance1 (p : sdim) (i : Z) : res Z := sdiv (i64 (u64_sub i (sb p))) (ss p).
(** See strided_discrete_domain.hpp:248-261, 63. *)
Definition s_distance (d : sdomain) (es : list tagged) : res (list (tag * Z)) :=
  if Nat.eqb (length d) (sum_sizes es)
  then rbind (construct (sdims d) es) (fun e => lift1 s_distance1 d (values e))
  else Rejected.

(** 216-220 in all dimensions; the argument is a [DiscreteVector<DDims...>]. *)
Definition s_at (d : sdomain) (v : list Z) : res tagged := lift1 s_at1 d v.
(** strided_discrete_domain.hpp:189-192 *)
Definition s_take_first (d : sdomain) (v : list Z) : res sdomain := lift1 s_take_first1 d v.
(** strided_discrete_domain.hpp:194-197 *)
Definition s_take_last (d : sdomain) (v : list Z) : res sdomain := lift1 s_take_last1 d v.
(** strided_discrete_domain.hpp:199-202 *)
Definition s_remove_first (d : sdomain) (v : list Z) : res sdomain := lift1 s_remove_first1 d v.
(** strided_discrete_domain.hpp:204-207 *)
Definition s_remove_last (d : sdomain) (v : list Z) : res sdomain := lift1 s_remove_last1 d v.
(** strided_discrete_domain.hpp:209-214 *)
Definition s_remove (d : sdomain) (v : list (Z * Z)) : res sdomain := lift1 s_remove1 d v.

(** 156-159 [size], 263-266 [empty]. *)
Definition s_size (d : sdomain) : Z := fold_left (fun acc p => u64_mul acc (u64 (sn (snd p)))) d 1.
(** See strided_discrete_domain.hpp:156-159, 263-266. *)
Definition s_empty (d : sdomain) : bool := s_size d =? 0.
(** 137-145 [operator==] between domains with the same tags in the same order. *)
Definition sdim_eqb (a b : sdim) : bool := (sb a =? sb b) && (sn a =? sn b) && (ss a =? ss b).
(** Auxiliary: a test on corresponding elements. *)
Fixpoint all2b {A B} (f : A -> B -> bool) (l : list A) (m : list B) : bool :=
  match l, m with x :: l', y :: m' => f x y && all2b f l' m' | [], [] => true | _, _ => false end.
(** See strided_discrete_domain.hpp:137-145. *)
Definition s_eq (d o : sdomain) : bool :=
  if s_empty d && s_empty o then true else all2b (fun p q => sdim_eqb (snd p) (snd q)) d o.

(** for_each.hpp:59-63 on a strided domain. *)
Definition s_host_for_each {S : Type} (d : sdomain) (f : tagged -> S -> S) (s : S) : res S :=
  for_each_serial (fun v => s_at d (values v)) (sdims d) (map (fun p => sn (snd p)) d) f [] (Ok s).
