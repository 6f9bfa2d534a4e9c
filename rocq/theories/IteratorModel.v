(** Model of the 1D domain iterators: src/ddc/discrete_domain.hpp:573-722 and
    src/ddc/strided_discrete_domain.hpp:577-731.  An iterator is its [m_value] (a size_t). *)
From Verif Require Export Machine TaggedModel.

(** discrete_domain.hpp:598-609, 611-622: [operator++] / [operator--]. *)
Definition it_incr (x : Z) : Z := u64_add x 1.
(** See discrete_domain.hpp:598-609, 611-622. *)
Definition it_decr (x : Z) : Z := u64_sub x 1.
(** discrete_domain.hpp:624-632 [operator+=]: [-n] is evaluated in ptrdiff_t. *)
Definition it_add (x n : Z) : res Z :=
  if 0 <=? n then Ok (u64_add x (u64 n))
  else rbind (of_i64 (i64_opp n)) (fun m => Ok (u64_sub x (u64 m))).
(** discrete_domain.hpp:634-642 [operator-=]. *)
Definition it_sub (x n : Z) : res Z :=
  if 0 <=? n then Ok (u64_sub x (u64 n))
  else rbind (of_i64 (i64_opp n)) (fun m => Ok (u64_add x (u64 m))).
(** discrete_domain.hpp:644-647 [operator[]]. *)
Definition it_at (x n : Z) : Z := u64_add x n.
(** discrete_domain.hpp:715-721 [operator-]. *)
Definition it_diff (xx yy : Z) : res Z :=
  if xx <? yy then of_i64 (i64_opp (i64 (u64_sub yy xx))) else Ok (i64 (u64_sub xx yy)).
(** discrete_domain.hpp:649-663, 666-692: comparisons. *)
Definition it_eq (xx yy : Z) : bool := xx =? yy.
(** See discrete_domain.hpp:649-663, 666-692. *)
Definition it_lt (xx yy : Z) : bool := xx <? yy.

(** A range-for loop [for (it = first; it != last; ++it) visit( *it )]; [None] if it needs more
    than [fuel] steps. *)
Fixpoint range_for (step : Z -> Z) (fuel : nat) (it last : Z) : option (list Z) :=
  if it_eq it last then Some []
  else match fuel with
       | O => None
       | S k => match range_for step k (step it) last with
                | Some l => Some (it :: l)
                | None => None
                end
       end.

(** Strided iterator: value and stride. strided_discrete_domain.hpp:607-618, 620-631. *)
Definition sit_incr (s x : Z) : Z := u64_add x s.
(** See strided_discrete_domain.hpp:607-618, 620-631. *)
Definition sit_decr (s x : Z) : Z := u64_sub x s.
(** strided_discrete_domain.hpp:633-641: the product is [integral * DiscreteVector]
    (discrete_vector.hpp:181-187) with a size_t operand, so it is computed modulo 2^64 and
    converted to ptrdiff_t. *)
Definition sit_add (s x n : Z) : res Z :=
  if 0 <=? n then Ok (u64_add x (i64 (u64_mul (u64 n) (u64 s))))
  else rbind (of_i64 (i64_opp n)) (fun m => Ok (u64_sub x (i64 (u64_mul (u64 m) (u64 s))))).
(** strided_discrete_domain.hpp:643-651. *)
Definition sit_sub (s x n : Z) : res Z :=
  if 0 <=? n then Ok (u64_sub x (i64 (u64_mul (u64 n) (u64 s))))
  else rbind (of_i64 (i64_opp n)) (fun m => Ok (u64_add x (i64 (u64_mul (u64 m) (u64 s))))).
(** strided_discrete_domain.hpp:724-730 [operator-]: not divided by the stride. *)
Definition sit_diff (xx yy : Z) : res Z :=
  if xx <? yy then of_i64 (i64_opp (i64 (u64_sub yy xx))) else Ok (i64 (u64_sub xx yy)).
