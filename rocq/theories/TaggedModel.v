(** Model of src/ddc/discrete_element.hpp and src/ddc/discrete_vector.hpp.
    A [DiscreteElement<Tags...>] or [DiscreteVector<Tags...>] is the list of its tags paired with
    the entries of [m_values] (discrete_element.hpp:178, discrete_vector.hpp:286).  Element entries
    are [size_t] (wrap), vector entries are [ptrdiff_t] (overflow is undefined). *)
From Verif Require Export Machine TypeSeqModel.

(** DiscreteElement or DiscreteVector: one value for each dimension (discrete_element.hpp:165, discrete_vector.hpp:303). *)
Definition tagged := list (tag * Z).
(** Auxiliary: the template arguments of the type. *)
Definition dims (e : tagged) : type_seq := map fst e.
(** Auxiliary: the array of values. *)
Definition values (e : tagged) : list Z := map snd e.

(** Well-formedness enforced by the C++ types: unique tags (discrete_element.hpp:167-169,
    discrete_vector.hpp:281-283) and machine-range entries. *)
Definition elem_wf (e : tagged) : Prop := NoDup (dims e) /\ Forall is_u64 (values e).
(** Auxiliary: the dimensions are distinct and the values are of type ptrdiff_t. *)
Definition vect_wf (v : tagged) : Prop := NoDup (dims v) /\ Forall is_i64 (values v).

(** discrete_element.hpp:223-235 [uid<QueryTag>()], discrete_vector.hpp:348-360 [get<QueryTag>()]:
    [m_values[type_seq_rank_v<QueryTag, tags_seq>]]; an absent tag is rejected. *)
Definition get (q : tag) (e : tagged) : res Z :=
  match ts_rank q (dims e) with
  | Some k => match nth_error (values e) k with Some x => Ok x | None => Undef end
  | None => Rejected
  end.

(** discrete_vector.hpp:362-373 [get_or]. *)
Definition get_or (q : tag) (v : tagged) (dflt : Z) : res Z :=
  if in_tags_v q (dims v) then get q v else Ok dflt.

(** discrete_element.hpp:86-96, discrete_vector.hpp:81-91 [select_or]. *)
Definition select_or (q : tag) (e : tagged) (dflt : Z) : res Z :=
  if in_tags_v q (dims e) then get q e else Ok dflt.

(** One assignment [m_values[k] op= x]. *)
Fixpoint upd_nth (op : Z -> Z -> res Z) (k : nat) (x : Z) (e : tagged) : res tagged :=
  match e, k with
  | [], _ => Undef
  | (t, a) :: r, O => rbind (op a x) (fun a' => Ok ((t, a') :: r))
  | p :: r, S k' => rbind (upd_nth op k' x r) (fun r' => Ok (p :: r'))
  end.

(** The fold expression [((m_values[type_seq_rank_v<OTags, tags_seq>] op= rhs.get<OTags>()), ...)]:
    discrete_element.hpp:283,299; discrete_vector.hpp:415,431,447.  [ot] is the pack [OTags...]. *)
Fixpoint fold_assign (op : Z -> Z -> res Z) (ot : type_seq) (e rhs : tagged) : res tagged :=
  match ot with
  | [] => Ok e
  | q :: ot' =>
      match ts_rank q (dims e) with
      | None => Rejected
      | Some k => rbind (get q rhs) (fun x =>
                  rbind (upd_nth op k x e) (fun e' => fold_assign op ot' e' rhs))
      end
  end.
(** The whole operator, with its [static_assert] on tags. *)
Definition op_assign (op : Z -> Z -> res Z) (e rhs : tagged) : res tagged :=
  if type_seq_contains_v (dims rhs) (dims e) then fold_assign op (dims rhs) e rhs else Rejected.

(** Auxiliary: unsigned addition never fails. *)
Definition uadd (a x : Z) : res Z := Ok (u64_add a x).
(** Auxiliary: unsigned subtraction never fails. *)
Definition usub (a x : Z) : res Z := Ok (u64_sub a x).
(** Auxiliary: signed addition, undefined on overflow. *)
Definition sadd (a x : Z) : res Z := of_i64 (i64_add a x).
(** Auxiliary: signed subtraction, undefined on overflow. *)
Definition ssub (a x : Z) : res Z := of_i64 (i64_sub a x).
(** Auxiliary: signed product, undefined on overflow. *)
Definition smul (a x : Z) : res Z := of_i64 (i64_mul a x).

(** discrete_element.hpp:279-285, 379-389 [DiscreteElement += / + DiscreteVector]. *)
Definition elem_add (e v : tagged) : res tagged := op_assign uadd e v.
(** discrete_element.hpp:295-301, 402-412. *)
Definition elem_sub_vect (e v : tagged) : res tagged := op_assign usub e v.
(** discrete_element.hpp:427-434 [DiscreteElement - DiscreteElement]: unsigned difference
    converted to [ptrdiff_t] in the order of the left operand's tags. *)
Fixpoint diff_fold (l r : tagged) (ts : type_seq) : res tagged :=
  match ts with
  | [] => Ok []
  | q :: ts' =>
      rbind (get q l) (fun a => rbind (get q r) (fun b =>
      rbind (diff_fold l r ts') (fun rest => Ok ((q, i64 (u64_sub a b)) :: rest))))
  end.
(** See discrete_element.hpp:427-434. *)
Definition elem_diff (l r : tagged) : res tagged :=
  if type_seq_same_v (dims l) (dims r) then diff_fold l r (dims l) else Rejected.

(** discrete_element.hpp:326-332, discrete_vector.hpp:333-337 [operator==]: fold over && on the tags
    of the left operand.  [&&] short-circuits, but tags are checked at compile time, so a missing tag
    is rejected whatever the values. *)
Fixpoint eq_fold (l r : tagged) (ts : type_seq) : res bool :=
  match ts with
  | [] => Ok true
  | q :: ts' =>
      rbind (get q l) (fun a => rbind (get q r) (fun b =>
      rbind (eq_fold l r ts') (fun rest => Ok ((a =? b) && rest))))
  end.
(** See discrete_element.hpp:326-332; discrete_vector.hpp:333-337. *)
Definition tagged_eq (l r : tagged) : res bool := eq_fold l r (dims l).

(** discrete_vector.hpp:101-105 unary minus. *)
Fixpoint opp_fold (v : tagged) (ts : type_seq) : res tagged :=
  match ts with
  | [] => Ok []
  | q :: ts' => rbind (get q v) (fun a => rbind (of_i64 (i64_opp a)) (fun b =>
                rbind (opp_fold v ts') (fun rest => Ok ((q, b) :: rest))))
  end.
(** See discrete_vector.hpp:101-105. *)
Definition vect_opp (v : tagged) : res tagged := opp_fold v (dims v).

(** discrete_vector.hpp:411-417 and 109-126: the operand with more tags (the left one if equal)
    provides the tags of the result. *)
Definition vect_add (l r : tagged) : res tagged :=
  if Nat.leb (length r) (length l) then op_assign sadd l r else op_assign sadd r l.
(** discrete_vector.hpp:427-433 and 128-145. *)
Definition vect_sub (l r : tagged) : res tagged :=
  if Nat.leb (length r) (length l) then op_assign ssub l r
  else rbind (vect_opp r) (fun nr => op_assign sadd nr l).
(** discrete_vector.hpp:443-449 [operator*=]. *)
Definition vect_mul_assign (l r : tagged) : res tagged := op_assign smul l r.
(** discrete_vector.hpp:181-187 integral * vector (integral argument in ptrdiff_t range). *)
Fixpoint scale_fold (k : Z) (v : tagged) (ts : type_seq) : res tagged :=
  match ts with
  | [] => Ok []
  | q :: ts' => rbind (get q v) (fun a => rbind (of_i64 (i64_mul k a)) (fun b =>
                rbind (scale_fold k v ts') (fun rest => Ok ((q, b) :: rest))))
  end.
(** See discrete_vector.hpp:181-187. *)
Definition vect_scale (k : Z) (v : tagged) : res tagged := scale_fold k v (dims v).

(** discrete_element.hpp:112-130, 195-199 (and discrete_vector.hpp:203-221, 303-307): construction
    from several elements; for each tag [take] returns the first operand that has the tag and
    asserts that no later one has it. *)
Fixpoint take_from (q : tag) (es : list tagged) : res tagged :=
  match es with
  | [] => Rejected
  | h :: t => if type_seq_contains_v [q] (dims h)
              then if forallb (fun x => negb (type_seq_contains_v [q] (dims x))) t then Ok h else Rejected
              else take_from q t
  end.
(** See discrete_element.hpp:112-130, 195-199; discrete_vector.hpp:203-221, 303-307. *)
Fixpoint construct (ts : type_seq) (es : list tagged) : res tagged :=
  match ts with
  | [] => Ok []
  | q :: ts' => rbind (take_from q es) (fun h => rbind (get q h) (fun a =>
                rbind (construct ts' es) (fun rest => Ok ((q, a) :: rest))))
  end.
(** discrete_element.hpp:98-110 [select<QueryTags...>]. *)
Definition select (ts : type_seq) (e : tagged) : res tagged := construct ts [e].
