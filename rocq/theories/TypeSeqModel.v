(** Model of src/ddc/detail/type_seq.hpp: compile-time sequences of dimension tags.
    A tag (a C++ type) is a [nat]; [std::is_same_v] is equality. *)
From Coq Require Export Arith.
From Verif Require Export Machine.

(** A dimension: types are compared by identity, so a number stands for a type. *)
Definition tag := nat.
(** A list of types. *)
Definition type_seq := list tag.

(** type_seq.hpp:27-54 [TypeSeqRank<SingleType<Q>, TypeSeq<...>>]; [None] is [present = false]
    (then [val] is the maximal [size_t]), [Some k] is [present = true, val = k]. *)
Fixpoint ts_rank (q : tag) (s : type_seq) : option nat :=
  match s with
  | [] => None
  | h :: t => if Nat.eqb q h then Some O
              else match ts_rank q t with Some k => Some (S k) | None => None end
  end.

(** type_seq.hpp:232-234 [type_seq_rank_v]. *)
Definition type_seq_rank_v (q : tag) (s : type_seq) : Z :=
  match ts_rank q s with Some k => Z.of_nat k | None => two64 - 1 end.

(** type_seq.hpp:224-226 [in_tags_v]. *)
Definition in_tags_v (q : tag) (s : type_seq) : bool :=
  match ts_rank q s with Some _ => true | None => false end.

(** type_seq.hpp:202-207 [type_seq_size_v]. *)
Definition type_seq_size_v (s : type_seq) : nat := length s.

(** type_seq.hpp:228-230 [type_seq_contains_v<TypeSeq<Tags...>, O>] (fold over &&). *)
Definition type_seq_contains_v (s o : type_seq) : bool := forallb (fun q => in_tags_v q o) s.

(** type_seq.hpp:221-222 [type_seq_same_v]. *)
Definition type_seq_same_v (a b : type_seq) : bool :=
  type_seq_contains_v a b && type_seq_contains_v b a.

(** type_seq.hpp:73-95 [TypeSeqRemove<A, B, R>], R is the accumulator. *)
Fixpoint ts_remove (a b r : type_seq) : type_seq :=
  match a with
  | [] => r
  | h :: t => if in_tags_v h b then ts_remove t b r else ts_remove t b (r ++ [h])
  end.
(** type_seq.hpp:239-240 [type_seq_remove_t]. *)
Definition type_seq_remove (a b : type_seq) : type_seq := ts_remove a b [].

(** type_seq.hpp:97-119 [TypeSeqMerge<A, B, R>]. *)
Fixpoint ts_merge (a b r : type_seq) : type_seq :=
  match b with
  | [] => r
  | h :: t => if in_tags_v h a then ts_merge a t r else ts_merge a t (r ++ [h])
  end.
(** type_seq.hpp:242-243 [type_seq_merge_t] starts with R = A. *)
Definition type_seq_merge (a b : type_seq) : type_seq := ts_merge a b a.

(** type_seq.hpp:121-132, 245-246 [type_seq_cat_t]. *)
Definition type_seq_cat (a b : type_seq) : type_seq := a ++ b.

(** type_seq.hpp:134-157 [TypeSeqReplaceSingle<A, B, C>]; no specialisation exists when B and C
    have different lengths: [None] is a compilation error. *)
Fixpoint ts_replace_single (x : tag) (b c : type_seq) : option tag :=
  match b, c with
  | [], [] => Some x
  | hb :: tb, hc :: tc => if Nat.eqb x hb then Some hc else ts_replace_single x tb tc
  | _, _ => None
  end.

(** type_seq.hpp:159-188, 248-250 [TypeSeqReplace<A, B, C, R>]. *)
Fixpoint ts_replace (a b c r : type_seq) : option type_seq :=
  match a with
  | [] => Some r
  | h :: t => match ts_replace_single h b c with
              | Some h' => ts_replace t b c (r ++ [h'])
              | None => None
              end
  end.
(** See type_seq.hpp:159-188, 248-250. *)
Definition type_seq_replace (a b c : type_seq) : option type_seq := ts_replace a b c [].

(** type_seq.hpp:252-256 [type_seq_is_unique_v]: removing any one tag leaves size - 1. *)
Definition type_seq_is_unique_v (s : type_seq) : bool :=
  forallb (fun q => Nat.eqb (type_seq_size_v (type_seq_remove s [q])) (length s - 1)) s.
