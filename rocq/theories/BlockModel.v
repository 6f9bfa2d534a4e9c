(** Model of src/ddc/for_each_block.hpp and src/ddc/for_each_block.cpp. *)
From Verif Require Export Machine TypeSeqModel TaggedModel DomainModel.

(** for_each_block.cpp:54-68 [ComputeBlockFn]: C++ division truncates; [quot + 1] cannot overflow
    because a non-zero remainder needs |nb| >= 2. *)
Definition compute_block (extent nb i : Z) : Z :=
  if i <? Z.rem extent nb then Z.quot extent nb + 1 else Z.quot extent nb.

(** discrete_domain.hpp:151-156 [extent<Q>] of a given dimension. *)
Definition extent_of (q : tag) (d : domain) : res Z :=
  rbind (get q (dom_end d)) (fun e => rbind (get q (dom_begin d)) (fun b => Ok (i64 (u64_sub e b)))).

(** for_each_block.hpp:37-57 [detail::host_for_each_block].  [todo] is what remains of the array of
    numbers of blocks, paired with the dimensions of the support; [doms] is the pack [doms1d...].
    The functor is an arbitrary state transformer.  A zero number of blocks divides by zero. *)
Fixpoint for_each_block_rec {S : Type} (d : domain) (todo : tagged) (f : domain -> S -> S)
    (doms : list domain) (s : S) : res S :=
  match todo with
  | [] => rbind (dom_merge (ddims d) doms) (fun b => Ok (f b s))
  | (q, nb) :: todo' =>
      rbind (extent_of q d) (fun ext =>
      if nb =? 0 then Undef else
      rbind (dom_select [q] d) (fun dom1d =>
      rbind (fold_left (fun st ib => rbind st (fun st' =>
               let block := [(q, compute_block ext nb ib)] in
               rbind (take_first (fst st') block) (fun piece =>
               rbind (for_each_block_rec d todo' f (doms ++ [piece]) (snd st')) (fun s' =>
               rbind (remove_first (fst st') block) (fun dom1d' => Ok (dom1d', s'))))))
             (zrange nb) (Ok (dom1d, s))) (fun st => Ok (snd st))))
  end.
(** for_each_block.hpp:72-79: [nbs] has type [Support::discrete_vector_type], hence the dimensions
    of the domain in the same order. *)
Definition for_each_block {S : Type} (d : domain) (nbs : tagged) (f : domain -> S -> S) (s : S) : res S :=
  for_each_block_rec d nbs f [] s.

(** for_each_block.cpp:15-18. *)
Definition is_power_of_2 (n : Z) : bool := (0 <? n) && (Z.land n (u64_sub n 1) =? 0).
(** Auxiliary: assignment of one element of an array. *)
Fixpoint set_nth (l : list Z) (k : nat) (x : Z) : list Z :=
  match l, k with
  | [], _ => []
  | _ :: l', O => x :: l'
  | y :: l', S k' => y :: set_nth l' k' x
  end.
(** for_each_block.cpp:39-51: the loop.  [None] is a thrown exception; [fuel] bounds the number of
    iterations (running out of it is [Undef]; it is proved not to happen). *)
Fixpoint distribute_loop (fuel : nat) (nb : Z) (dim : nat) (sizes per : list Z) : res (option (list Z)) :=
  match fuel with
  | O => Undef
  | S fuel' =>
      if nb =? 1 then Ok (Some per)
      else match nth_error sizes dim, nth_error per dim with
           | Some s, Some p =>
               rbind (of_i64 (i64_mul p 2)) (fun p2 =>
               if p2 <=? s then distribute_loop fuel' (nb / 2) dim sizes (set_nth per dim p2)
               else distribute_loop fuel' nb (dim + 1) sizes per)
           | _, _ => Ok None
           end
  end.
(** for_each_block.cpp:24-52; the two spans have the same size (assert, line 29). *)
Definition distribute_blocks (nb : Z) (sizes : list Z) : res (option (list Z)) :=
  if is_power_of_2 nb
  then distribute_loop (64 + length sizes + 1) nb 0 sizes (map (fun _ => 1) sizes)
  else Ok None.
(** for_each_block.hpp:92-101: total number of blocks.  The function is noexcept: an exception
    terminates the program ([Ok None]). *)
Definition for_each_block_total {S : Type} (d : domain) (nb : Z) (f : domain -> S -> S) (s : S) : res (option S) :=
  rbind (extents d) (fun ex =>
  rbind (distribute_blocks nb (values ex)) (fun o =>
  match o with
  | None => Ok None
  | Some per => rbind (for_each_block d (combine (ddims d) per) f s) (fun s' => Ok (Some s'))
  end)).
