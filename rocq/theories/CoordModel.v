(** Model of src/ddc/detail/tagged_vector.hpp and src/ddc/coordinate.hpp: coordinates.
    A [Coordinate<CDims...>] ([TaggedVector<Real, CDims...>], coordinate.hpp:28-29) is the list of its
    dimensions paired with the entries of [m_values] (tagged_vector.hpp:242).
    Simplified: the element types of two operands are equal ([Real]); conversions between element types,
    move constructors and the implicit conversion of one-dimensional coordinates are not modelled. *)
From Coq Require Export String.
From Verif Require Export Machine TypeSeqModel TaggedModel ArithModel.
Set Implicit Arguments.

(** The expansion of a pack: [TaggedVector<Tags...>((f<Tags>)...)]; a [static_assert] that fails for one
    dimension rejects the whole expression. *)
Fixpoint per_tag (B : Type) (f : tag -> res B) (ts : type_seq) : res (list (tag * B)) :=
  match ts with
  | [] => Ok []
  | q :: ts' => rbind (f q) (fun x => rbind (per_tag f ts') (fun r => Ok ((q, x) :: r)))
  end.

Section Coord.
Context {A : arith}.
(** tagged_vector.hpp:234-242 *)
Definition coord := list (tag * num A).
(** The template arguments [Tags...]. *)
Definition cdims (c : coord) : type_seq := map fst c.
(** tagged_vector.hpp:278-288 [array()] *)
Definition cvalues (c : coord) : list (num A) := map snd c.

(** tagged_vector.hpp:317-329 [get<QueryTag>()] *)
Definition c_get (q : tag) (c : coord) : res (num A) :=
  match ts_rank q (cdims c) with
  | Some k => match nth_error (cvalues c) k with Some x => Ok x | None => Undef end
  | None => Rejected
  end.
(** tagged_vector.hpp:331-340 [get_or<QueryTag>(default)] *)
Definition c_get_or (q : tag) (c : coord) (dflt : num A) : res (num A) :=
  if in_tags_v q (cdims c) then c_get q c else Ok dflt.
(** tagged_vector.hpp:290-298 [operator[]]: no check *)
Definition c_index (k : nat) (c : coord) : res (num A) :=
  match nth_error (cvalues c) k with Some x => Ok x | None => Undef end.
(** tagged_vector.hpp:343-347 [value()]: only for one dimension *)
Definition c_value (c : coord) : res (num A) :=
  if Nat.eqb (length c) 1 then c_index 0 c else Rejected.

(** tagged_vector.hpp:265-270: construction from values, as many as there are dimensions *)
Definition c_of_values (ts : type_seq) (vs : list (num A)) : res coord :=
  if Nat.eqb (length vs) (length ts) then Ok (combine ts vs) else Rejected.
(** tagged_vector.hpp:188-210 [take]: the first operand that has the dimension; no later one may have it *)
Fixpoint c_take (q : tag) (cs : list coord) : res coord :=
  match cs with
  | [] => Rejected
  | h :: t => if type_seq_contains_v [q] (cdims h)
              then if forallb (fun x => negb (type_seq_contains_v [q] (cdims x))) t then Ok h else Rejected
              else c_take q t
  end.
(** tagged_vector.hpp:259-263: construction from other coordinates *)
Definition c_construct (ts : type_seq) (cs : list coord) : res coord :=
  per_tag (fun q => rbind (c_take q cs) (c_get q)) ts.
(** tagged_vector.hpp:172-184 [select<QueryTags...>] *)
Definition c_select (ts : type_seq) (c : coord) : res coord := c_construct ts [c].

(** tagged_vector.hpp:89-94 unary minus *)
Definition c_opp (c : coord) : res coord :=
  per_tag (fun q => rbind (c_get q c) (fun x => Ok (- x)%N_)) (cdims c).
(** tagged_vector.hpp:98-106 [operator+] of two coordinates *)
Definition c_add (l r : coord) : res coord :=
  if type_seq_same_v (cdims l) (cdims r)
  then per_tag (fun q => rbind (c_get q l) (fun x => rbind (c_get q r) (fun y => Ok (x + y)%N_))) (cdims l)
  else Rejected.
(** tagged_vector.hpp:128-136 [operator-] of two coordinates *)
Definition c_sub (l r : coord) : res coord :=
  if type_seq_same_v (cdims l) (cdims r)
  then per_tag (fun q => rbind (c_get q l) (fun x => rbind (c_get q r) (fun y => Ok (x - y)%N_))) (cdims l)
  else Rejected.
(** tagged_vector.hpp:108-126, 138-156: a scalar and a coordinate of one dimension *)
Definition c_scalar (op : num A -> num A -> num A) (left : bool) (k : num A) (c : coord) : res coord :=
  match c with
  | [(t, x)] => Ok [(t, if left then op k x else op x k)]
  | _ => Rejected
  end.
(** tagged_vector.hpp:160-168 [scalar * coordinate] *)
Definition c_scale (k : num A) (c : coord) : res coord :=
  per_tag (fun q => rbind (c_get q c) (fun x => Ok (k * x)%N_)) (cdims c).

(** tagged_vector.hpp:300-305 [operator==]: a fold over the dimensions of the left operand, without any
    [static_assert]; [==] on [double] is modelled as [<=] both ways, which is the comparison of IEEE 754
    (not reflexive on NaN, and the two zeros are equal). *)
Definition num_eqb (x y : num A) : bool := (x <=? y)%N_ && (y <=? x)%N_.
(** The fold of [operator==], see above. *)
Fixpoint c_eq_fold (l r : coord) (ts : type_seq) : res bool :=
  match ts with
  | [] => Ok true
  | q :: ts' => rbind (c_get q l) (fun x => rbind (c_get q r) (fun y =>
                rbind (c_eq_fold l r ts') (fun b => Ok (num_eqb x y && b))))
  end.
(** tagged_vector.hpp:300-305 *)
Definition c_eq (l r : coord) : res bool := c_eq_fold l r (cdims l).

(** The right operand of a compound assignment is a reference: it can be another object or the object
    assigned to. *)
Inductive operand := Other (c : coord) | Itself.
(** What the reference designates while the object assigned to is [c]. *)
Definition designated (rhs : operand) (c : coord) : coord := match rhs with Other v => v | Itself => c end.
(** One assignment [m_values[k] op= x] *)
Fixpoint c_upd (op : num A -> num A -> num A) (k : nat) (x : num A) (c : coord) : res coord :=
  match c, k with
  | [], _ => Undef
  | (t, a) :: r, O => Ok ((t, op a x) :: r)
  | p :: r, S k' => rbind (c_upd op k' x r) (fun r' => Ok (p :: r'))
  end.
(** tagged_vector.hpp:354, 370, 386: the fold expression
    [((m_values[type_seq_rank_v<Tags, tags_seq>] op= rhs.get<Tags>()), ...)] *)
Fixpoint c_assign_fold (op : num A -> num A -> num A) (ts : type_seq) (rhs : operand) (c : coord) : res coord :=
  match ts with
  | [] => Ok c
  | q :: ts' =>
      match ts_rank q (cdims c) with
      | None => Rejected
      | Some k => rbind (c_get q (designated rhs c)) (fun x =>
                  rbind (c_upd op k x c) (fun c' => c_assign_fold op ts' rhs c'))
      end
  end.
(** tagged_vector.hpp:349-356, 365-372, 381-388 [operator+=], [operator-=], [operator*=] *)
Definition c_assign (op : num A -> num A -> num A) (c : coord) (rhs : operand) : res coord :=
  if type_seq_same_v (cdims c) (cdims (designated rhs c)) then c_assign_fold op (cdims c) rhs c else Rejected.

(** The scalar right operand of a compound assignment is a reference too ([OElementType const& rhs]): to a
    number stored elsewhere, or to an entry of the coordinate assigned to ([c += get<X>(c)], [c += c[0]]). *)
Inductive scalar := Number (x : num A) | Entry (k : nat).
(** The value read through the reference while the object assigned to is [c]. *)
Definition read (s : scalar) (c : coord) : res (num A) :=
  match s with Number x => Ok x | Entry k => c_index k c end.
(** tagged_vector.hpp:361, 377: [((m_values[type_seq_rank_v<Tags, tags_seq>] op= rhs), ...)] *)
Fixpoint c_assign_scalar_fold (op : num A -> num A -> num A) (ts : type_seq) (s : scalar) (c : coord) : res coord :=
  match ts with
  | [] => Ok c
  | q :: ts' =>
      match ts_rank q (cdims c) with
      | None => Rejected
      | Some k => rbind (read s c) (fun x =>
                  rbind (c_upd op k x c) (fun c' => c_assign_scalar_fold op ts' s c'))
      end
  end.
(** tagged_vector.hpp:358-363, 374-379 [operator+=], [operator-=] with a scalar *)
Definition c_assign_scalar (op : num A -> num A -> num A) (c : coord) (s : scalar) : res coord :=
  c_assign_scalar_fold op (cdims c) s c.

(** coordinate.hpp:31-38 [coordinate(DiscreteElement<DDims...>)] for more than one dimension.  [cdim] is
    [DDim::continuous_dimension_type] and [point] is the one-dimensional [coordinate] of the sampling
    (uniform_point_sampling.hpp, non_uniform_point_sampling.hpp, periodic_sampling.hpp). *)
Definition coordinate_nd (cdim : tag -> tag) (point : tag -> Z -> res (num A)) (e : tagged) : res coord :=
  if Nat.ltb 1 (length e)
  then rbind (per_tag (fun q => rbind (get q e) (point q)) (dims e)) (fun cs =>
       c_construct (map cdim (dims e)) (map (fun p => [(cdim (fst p), snd p)]) cs))
  else Rejected.
End Coord.
Arguments coord : clear implicits.
Arguments operand : clear implicits.
Arguments scalar : clear implicits.

(** tagged_vector.hpp:391-402 [print_tagged_vector], discrete_vector.cpp:11-21, discrete_element.cpp:11-21:
    the same loop for coordinates, vectors and elements; [show] is what the stream writes for one value. *)
Definition print_values (B : Type) (show : B -> string) (vs : list B) : string :=
  ("(" ++ match vs with
          | [] => ""
          | x :: r => fold_left (fun os y => os ++ ", " ++ show y) r (show x)
          end ++ ")")%string.
(** tagged_vector.hpp:404-410 [operator<<] *)
Definition print_coord (A : arith) (show : num A -> string) (c : coord A) : string := print_values show (cvalues c).
(** discrete_element.hpp:319-323, discrete_vector.hpp:473-477: [operator<<] of elements and vectors *)
Definition print_tagged (show : Z -> string) (e : tagged) : string := print_values show (values e).
