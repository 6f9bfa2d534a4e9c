(** Model of src/ddc/discrete_domain.hpp and src/ddc/for_each.hpp. *)
From Verif Require Export Machine TypeSeqModel TaggedModel.

(** discrete_domain.hpp:81-83: [m_element_begin] and [m_element_end] have the same type
    [DiscreteElement<DDims...>], hence the same tags in the same order: one triple per dimension.
    The rank-0 specialisation (299-447) is the empty list: each of its members returns what the
    general definition returns on an empty pack. *)
Definition domain := list (tag * (Z * Z)).
(** Auxiliary: the dimensions of the domain. *)
Definition ddims (d : domain) : type_seq := map fst d.
(** See discrete_domain.hpp:81-83, 299-447. *)
Definition dom_begin (d : domain) : tagged := map (fun p => (fst p, fst (snd p))) d.
(** See discrete_domain.hpp:81-83, 299-447. *)
Definition dom_end (d : domain) : tagged := map (fun p => (fst p, snd (snd p))) d.

(** Pairing of a begin and an end of the same type. *)
Fixpoint dom_zip (b e : tagged) : domain :=
  match b, e with
  | (t, x) :: b', (_, y) :: e' => (t, (x, y)) :: dom_zip b' e'
  | _, _ => []
  end.

(** discrete_domain.hpp:105-111 [DiscreteDomain(element_begin, size)]. *)
Definition mk_domain (b n : tagged) : res domain :=
  rbind (elem_add b n) (fun e => Ok (dom_zip b e)).

(** discrete_domain.hpp:146-149 [extents]. *)
Definition extents (d : domain) : res tagged := elem_diff (dom_end d) (dom_begin d).

(** discrete_domain.hpp:151-156 [extent<Q>] for the dimension at hand: unsigned difference
    converted to [ptrdiff_t]. *)
Definition extent1 (p : tag * (Z * Z)) : Z := i64 (u64_sub (snd (snd p)) (fst (snd p))).
(** discrete_domain.hpp:141-144 [size]: left fold of unsigned products starting with 1UL; each
    [ptrdiff_t] operand is converted to [size_t]. *)
Definition dom_size (d : domain) : Z :=
  fold_left (fun acc p => u64_mul acc (u64 (extent1 p))) d 1.
(** discrete_domain.hpp:252-255 [empty]. *)
Definition dom_empty (d : domain) : bool := dom_size d =? 0.

(** discrete_domain.hpp:158-161 [front]. *)
Definition front (d : domain) : tagged := dom_begin d.
(** discrete_domain.hpp:163-166 [back]: end - 1 in each dimension (unsigned). *)
Definition back (d : domain) : tagged :=
  map (fun p => (fst p, u64_sub (snd (snd p)) 1)) d.

(** discrete_domain.hpp:123-130 [operator==]. *)
Definition dom_eq (d o : domain) : res bool :=
  if dom_empty d && dom_empty o then Ok true
  else rbind (tagged_eq (dom_begin d) (dom_begin o)) (fun b1 =>
       rbind (tagged_eq (dom_end d) (dom_end o)) (fun b2 => Ok (b1 && b2))).

(** discrete_domain.hpp:168-193. *)
Definition take_first (d : domain) (n : tagged) : res domain := mk_domain (front d) n.
(** See discrete_domain.hpp:168-193. *)
Definition take_last (d : domain) (n : tagged) : res domain :=
  rbind (extents d) (fun ex => rbind (vect_sub ex n) (fun m =>
  rbind (elem_add (front d) m) (fun b => mk_domain b n))).
(** See discrete_domain.hpp:168-193. *)
Definition remove_first (d : domain) (n : tagged) : res domain :=
  rbind (elem_add (front d) n) (fun b => rbind (extents d) (fun ex =>
  rbind (vect_sub ex n) (fun m => mk_domain b m))).
(** See discrete_domain.hpp:168-193. *)
Definition remove_last (d : domain) (n : tagged) : res domain :=
  rbind (extents d) (fun ex => rbind (vect_sub ex n) (fun m => mk_domain (front d) m)).
(** See discrete_domain.hpp:168-193. *)
Definition remove_both (d : domain) (n1 n2 : tagged) : res domain :=
  rbind (elem_add (front d) n1) (fun b => rbind (extents d) (fun ex =>
  rbind (vect_sub ex n1) (fun m1 => rbind (vect_sub m1 n2) (fun m => mk_domain b m)))).

(** discrete_domain.hpp:195-199 [operator()(DiscreteVector)]. *)
Definition dom_at (d : domain) (v : tagged) : res tagged := elem_add (dom_begin d) v.

(** discrete_domain.hpp:222-237 [contains(delems...)]: the elements are merged into a
    [DiscreteElement<DDims...>], then the loop compares entry by entry. *)
Fixpoint contains_loop (d : domain) (e : tagged) : bool :=
  match d, e with
  | (_, (b, f)) :: d', (_, x) :: e' =>
      if (x <? b) || (f <=? x) then false else contains_loop d' e'
  | _, _ => true
  end.
(** Auxiliary: the number of dimensions of the arguments. *)
Definition sum_sizes (es : list tagged) : nat := fold_left (fun a e => (a + length e)%nat) es O.
(** See discrete_domain.hpp:222-237. *)
Definition contains (d : domain) (es : list tagged) : res bool :=
  if Nat.eqb (length d) (sum_sizes es)
  then rbind (construct (ddims d) es) (fun e => Ok (contains_loop d e))
  else Rejected.

(** discrete_domain.hpp:239-250 [distance_from_front(delems...)]. *)
Fixpoint distance_loop (d : domain) (e : tagged) : tagged :=
  match d, e with
  | (t, (b, _)) :: d', (_, x) :: e' => (t, i64 (u64_sub x b)) :: distance_loop d' e'
  | _, _ => []
  end.
(** See discrete_domain.hpp:239-250. *)
Definition distance_from_front (d : domain) (es : list tagged) : res tagged :=
  if Nat.eqb (length d) (sum_sizes es)
  then rbind (construct (ddims d) es) (fun e => Ok (distance_loop d e))
  else Rejected.

(** discrete_domain.hpp:93-99 merge of domains: begin and end are assembled from the operands
    with the [DiscreteElement(delems...)] constructor; [ts] is the target's pack of tags. *)
Fixpoint map_res {A B} (f : A -> res B) (l : list A) : res (list B) :=
  match l with
  | [] => Ok []
  | x :: l' => rbind (f x) (fun y => rbind (map_res f l') (fun r => Ok (y :: r)))
  end.
(** See discrete_domain.hpp:93-99. *)
Definition dom_end_of (d : domain) : res tagged :=
  rbind (extents d) (fun ex => elem_add (front d) ex).
(** See discrete_domain.hpp:93-99. *)
Definition dom_merge (ts : type_seq) (ds : list domain) : res domain :=
  rbind (construct ts (map front ds)) (fun b =>
  rbind (map_res dom_end_of ds) (fun es => rbind (construct ts es) (fun e => Ok (dom_zip b e)))).
(** discrete_domain.hpp:449-454 [select<QueryDDims...>(domain)]. *)
Definition dom_select (ts : type_seq) (d : domain) : res domain := dom_merge ts [d].
(** discrete_domain.hpp:474-498 [remove_dims_of]. *)
Definition remove_dims_of (d : domain) (ts : type_seq) : res domain :=
  dom_select (type_seq_remove (ddims d) ts) d.
(** discrete_domain.hpp:506-543 [replace_dim_of<DDim1, DDim2>(a, b)]. *)
Definition replace_dim_of_1d (t1 t2 ta : tag) (a b : domain) : res domain :=
  if Nat.eqb ta t1 then dom_select [t2] b else dom_select [ta] a.
(** See discrete_domain.hpp:506-543. *)
Definition replace_dim_of (t1 t2 : tag) (a b : domain) : res domain :=
  match type_seq_replace (ddims a) [t1] [t2] with
  | None => Rejected
  | Some r => rbind (map_res (fun ta => replace_dim_of_1d t1 t2 ta a b) (ddims a)) (fun ds =>
              dom_merge r ds)
  end.

(** discrete_domain.hpp:201-220 [restrict_with]; KOKKOS_ASSERT is active in debug builds only:
    a failed assertion is [Undef]. *)
Definition assert_le (d o : domain) : res bool :=
  rbind (map_res (fun p => rbind (get (fst p) (dom_begin d)) (fun b =>
         rbind (get (fst p) (dom_end d)) (fun e =>
         Ok ((b <=? fst (snd p)) && (snd (snd p) <=? e))))) o) (fun l => Ok (forallb id l)).
(** See discrete_domain.hpp:201-220. *)
Definition restrict_with (d o : domain) : res domain :=
  rbind (assert_le d o) (fun ok => if ok then
    rbind (extents d) (fun mye => rbind (extents o) (fun oe =>
    rbind (map_res (fun p => rbind (select_or (fst p) (dom_begin o) (fst (snd p)))
                             (fun x => Ok (fst p, x))) d) (fun b =>
    rbind (map_res (fun p => rbind (select_or (fst p) oe (snd p))
                             (fun x => Ok (fst p, x))) mye) (fun n =>
    mk_domain b n))))
  else Undef).

(** for_each.hpp:19-34, 59-63: [host_for_each].  The functor is an arbitrary state transformer; the
    nested loops run [ii] from 0 while [ii < size[I]].  The template is shared by the three kinds of
    domains: [at_] is [Support::operator()(discrete_vector_type)]. *)
Definition zrange (n : Z) : list Z := map Z.of_nat (seq 0 (Z.to_nat n)).
(** See for_each.hpp:19-34, 59-63. *)
Fixpoint for_each_serial {S : Type} (at_ : tagged -> res tagged) (ts : type_seq) (size : list Z)
    (f : tagged -> S -> S) (is : list Z) (s : res S) : res S :=
  match size with
  | [] => rbind s (fun s => rbind (at_ (combine ts is)) (fun e => Ok (f e s)))
  | n :: size' => fold_left (fun s ii => for_each_serial at_ ts size' f (is ++ [ii]) s) (zrange n) s
  end.
(** See for_each.hpp:19-34, 59-63. *)
Definition host_for_each {S : Type} (d : domain) (f : tagged -> S -> S) (s : S) : res S :=
  rbind (extents d) (fun ex => for_each_serial (dom_at d) (ddims d) (values ex) f [] (Ok s)).
