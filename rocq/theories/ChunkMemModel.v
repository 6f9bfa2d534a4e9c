(** Model of the ownership part of src/ddc/chunk.hpp. *)
From Verif Require Export Machine.

(** A Chunk object: data_handle() ([None] is nullptr) and the size() of its mdspan
    (chunk_common.hpp:84-88, 147-150).  Labels and allocator state (both allocators are stateless,
    kokkos_allocator.hpp, aligned_allocator.hpp) are not modelled. *)
Record chunk := mk_chunk { c_ptr : option nat; c_size : Z }.
(** External allocator: [live] are the buffers obtained and not yet returned, with their number of
    elements.  Every allocation gets a new identifier (addresses may be reused by a real allocator
    after deallocation; identifiers name allocations, not addresses). *)
Record world := mk_world { live : list (nat * Z); next : nat; freed : list nat; vars : nat -> option chunk }.
(** Auxiliary: nothing is allocated and no chunk exists. *)
Definition init_world : world := mk_world [] 0 [] (fun _ => None).
(** Auxiliary: update of one variable. *)
Definition set_var (vs : nat -> option chunk) (x : nat) (c : option chunk) : nat -> option chunk :=
  fun y => if Nat.eqb y x then c else vs y.

(** kokkos_allocator.hpp:58-71, aligned_allocator.hpp:47-55: deallocating something that is not
    live, or with another size, is undefined. *)
Definition deallocate (w : world) (p : nat) (n : Z) : res world :=
  match find (fun b => Nat.eqb (fst b) p) (live w) with
  | Some (_, m) => if m =? n
                   then Ok (mk_world (filter (fun b => negb (Nat.eqb (fst b) p)) (live w)) (next w) (p :: freed w) (vars w))
                   else Undef
  | None => Undef
  end.

(** The operations of a program on its chunks. *)
Inductive op :=
| Default (x : nat)              (* Chunk x; *)
| Alloc (x : nat) (n : Z) (null : bool) (* Chunk x(domain) with domain.size() = n; [null]: the allocator answers nullptr to a request for 0 elements *)
| MoveCtor (x y : nat)           (* Chunk x(std::move(y)); *)
| MoveAssign (x y : nat)         (* x = std::move(y); *)
| Destroy (x : nat).             (* end of the lifetime of x *)

(** chunk.hpp:90 *)
Definition default_chunk : chunk := mk_chunk None 0.
(** chunk.hpp:93-101 *)
Definition construct_chunk (w : world) (x : nat) (n : Z) (null : bool) : world :=
  if (n =? 0) && null
  then mk_world (live w) (next w) (freed w) (set_var (vars w) x (Some (mk_chunk None n)))
  else mk_world ((next w, n) :: live w) (S (next w)) (freed w) (set_var (vars w) x (Some (mk_chunk (Some (next w)) n))).
(** chunk.hpp:115-122: the base is copied, then the source handle is cleared, its mapping kept. *)
Definition move_ctor (w : world) (x y : nat) (cy : chunk) : world :=
  let vs := set_var (vars w) x (Some cy) in
  mk_world (live w) (next w) (freed w) (set_var vs y (Some (mk_chunk None (c_size cy)))).
(** chunk.hpp:124-129 *)
Definition release (w : world) (c : chunk) : res world :=
  match c_ptr c with Some p => deallocate w p (c_size c) | None => Ok w end.
(** See chunk.hpp:124-129. *)
Definition destroy (w : world) (x : nat) (c : chunk) : res world :=
  rbind (release w c) (fun w' => Ok (mk_world (live w') (next w') (freed w') (set_var (vars w') x None))).
(** chunk.hpp:138-150: the source is read after the own buffer is released. *)
Definition move_assign (w : world) (x y : nat) (cx : chunk) : res world :=
  rbind (release w cx) (fun w' =>
  match vars w' y with
  | Some cy => let vs := set_var (vars w') x (Some cy) in
               match vs y with
               | Some cy' => Ok (mk_world (live w') (next w') (freed w') (set_var vs y (Some (mk_chunk None (c_size cy')))))
               | None => Rejected
               end
  | None => Rejected
  end).

(** One statement; statements on objects outside of their lifetime are not legal programs. *)
Definition step (w : world) (o : op) : res world :=
  match o with
  | Default x => match vars w x with None => Ok (mk_world (live w) (next w) (freed w) (set_var (vars w) x (Some default_chunk))) | _ => Rejected end
  | Alloc x n null => match vars w x with None => if (0 <=? n) && (n <? two64) then Ok (construct_chunk w x n null) else Rejected | _ => Rejected end
  | MoveCtor x y => match vars w x, vars w y with None, Some cy => Ok (move_ctor w x y cy) | _, _ => Rejected end
  | MoveAssign x y => match vars w x, vars w y with Some cx, Some _ => move_assign w x y cx | _, _ => Rejected end
  | Destroy x => match vars w x with Some c => destroy w x c | None => Rejected end
  end.
(** Auxiliary: a program is a sequence of operations on chunks. *)
Fixpoint run_ops (w : world) (os : list op) : res world :=
  match os with [] => Ok w | o :: r => rbind (step w o) (fun w' => run_ops w' r) end.
