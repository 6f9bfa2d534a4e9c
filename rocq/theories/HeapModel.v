(** Byte-level model of the storage of chunks: src/ddc/kokkos_allocator.hpp,
    src/ddc/aligned_allocator.hpp, the constructors, moves and destructor of src/ddc/chunk.hpp and
    the element accesses through chunks and views. *)
From Verif Require Export Machine TypeSeqModel TaggedModel DomainModel SpanModel.

(** An object that designates storage, a Chunk or a ChunkSpan (chunk_common.hpp:84-88): the size of
    its element type, the byte address where the allocation starts (0 is nullptr) and its mdspan and
    domain.  The pointer of the mdspan is counted in elements from the start of the allocation. *)
Record handle := mk_handle { h_sz : Z; h_base : Z; h_span : span }.
(** The state of a program: the memory blocks obtained from Kokkos and not returned (address and
    number of bytes), the number of calls to Kokkos, the bytes, the chunks and the views. *)
Record heap := mk_heap { blocks : list (Z * Z); ticks : nat; bytes : Z -> Z; chunks : nat -> option handle; views : nat -> option handle }.
(** Auxiliary: a program starts with nothing. *)
Definition init_heap (m : Z -> Z) : heap := mk_heap [] 0 m (fun _ => None) (fun _ => None).

(** Auxiliary: update of one variable. *)
Definition upd {A} (f : nat -> A) (x : nat) (v : A) : nat -> A := fun y => if Nat.eqb y x then v else f y.
(** Auxiliary: the [n] bytes from [a] lie in one block. *)
Definition inside (bl : list (Z * Z)) (a n : Z) : bool :=
  existsb (fun b => (fst b <=? a) && (a + n <=? fst b + snd b)) bl.
(** Auxiliary: the addresses of [n] successive bytes. *)
Definition span_bytes (a n : Z) : list Z := map (fun k => a + Z.of_nat k) (seq 0 (Z.to_nat n)).
(** Auxiliary: the value of an object of [n] bytes; reading outside of the blocks is undefined. *)
Definition load (w : heap) (a n : Z) : res (list Z) :=
  if inside (blocks w) a n then Ok (map (bytes w) (span_bytes a n)) else Undef.
(** Auxiliary: storing an object. *)
Definition put (m : Z -> Z) (a : Z) (v : list Z) : Z -> Z :=
  fun b => if (a <=? b) && (b <? a + Z.of_nat (length v)) then nth (Z.to_nat (b - a)) v 0 else m b.
(** See [put]; writing outside of the blocks is undefined. *)
Definition store (w : heap) (a : Z) (v : list Z) : res heap :=
  if inside (blocks w) a (Z.of_nat (length v))
  then Ok (mk_heap (blocks w) (ticks w) (put (bytes w) a v) (chunks w) (views w)) else Undef.

Section heap.
(** External: what Kokkos and the system do.  [malloc t bl n] answers the [t]-th call, for [n] > 0
    bytes, when the blocks [bl] are in use: an address, or [None] when it throws.  [junk t] is what
    the bytes outside of the blocks in use become at the [t]-th call. *)
Context (malloc : nat -> list (Z * Z) -> Z -> option Z) (junk : nat -> Z -> Z).

(** Auxiliary: only bytes of blocks in use keep their values when memory is obtained or returned. *)
Definition shake (bl : list (Z * Z)) (t : nat) (m : Z -> Z) : Z -> Z :=
  fun a => if inside bl a 1 then m a else junk t a.
(** External: [Kokkos::kokkos_malloc(label, n)], nullptr for 0 bytes. *)
Definition kokkos_malloc (w : heap) (n : Z) : option (Z * heap) :=
  if n =? 0 then Some (0, w)
  else match malloc (ticks w) (blocks w) n with
       | None => None
       | Some a => Some (a, mk_heap ((a, n) :: blocks w) (S (ticks w)) (shake (blocks w) (ticks w) (bytes w)) (chunks w) (views w))
       end.
(** External: [Kokkos::kokkos_free(p)], undefined when [p] is not the address of a block in use. *)
Definition kokkos_free (w : heap) (p : Z) : res heap :=
  if existsb (fun b => fst b =? p) (blocks w)
  then let bl := filter (fun b => negb (fst b =? p)) (blocks w) in
       Ok (mk_heap bl (S (ticks w)) (shake bl (ticks w) (bytes w)) (chunks w) (views w))
  else Undef.

(** kokkos_allocator.hpp:63-66 [allocate(label, n)]: the product wraps. *)
Definition allocate (w : heap) (sz n : Z) : option (Z * heap) := kokkos_malloc w (u64_mul sz n).
(** kokkos_allocator.hpp:68-71 [deallocate(p, n)]: the size is not used. *)
Definition deallocate (w : heap) (p n : Z) : res heap := kokkos_free w p.

(** Auxiliary: assignment of a chunk variable. *)
Definition set_chunk (w : heap) (x : nat) (h : option handle) : heap :=
  mk_heap (blocks w) (ticks w) (bytes w) (upd (chunks w) x h) (views w).
(** Auxiliary: assignment of a view variable. *)
Definition set_view (w : heap) (u : nat) (h : option handle) : heap :=
  mk_heap (blocks w) (ticks w) (bytes w) (chunks w) (upd (views w) u h).
(** chunk.hpp:120-121, 147-148: the pointer becomes null, the mapping and the domain stay. *)
Definition emptied (h : handle) : handle := mk_handle (h_sz h) 0 (h_span h).

(** chunk.hpp:93-101 with chunk_common.hpp:211-221: the outcome [Ok None] is an exception of the
    allocator, the last test is the assertion of chunk_common.hpp. *)
Definition new_chunk (w : heap) (x : nat) (sz : Z) (d : domain) : res (option heap) :=
  match allocate w sz (dom_size d) with
  | None => Ok None
  | Some (a, w') =>
      rbind (span_of_ptr LRight 0 d) (fun s =>
      if dom_empty d || (negb (a =? 0) && negb (dom_empty d))
      then Ok (Some (set_chunk w' x (Some (mk_handle sz a s)))) else Undef)
  end.
(** chunk.hpp:126-128, 140-142. *)
Definition release (w : heap) (h : handle) : res heap :=
  if h_base h =? 0 then Ok w else deallocate w (h_base h) (md_size (s_md (h_span h))).

(** The statements of a program.  [sz] is the size of the element type. *)
Inductive op :=
| New (x : nat) (sz : Z) (d : domain)            (* Chunk<T, ...> x(d); *)
| Default (x : nat) (sz : Z) (d : domain)        (* Chunk<T, ...> x; [d] is what its domain holds *)
| MoveCtor (x y : nat)                           (* Chunk x(std::move(y)); *)
| MoveAssign (x y : nat)                         (* x = std::move(y); *)
| Destroy (x : nat)                              (* end of the lifetime of x *)
| Write (x : nat) (es : list tagged) (v : list Z)        (* x(es...) = v; *)
| View (u x : nat) (sls : list slice)            (* u = x.span_view()[..][..]; *)
| WriteView (u : nat) (es : list tagged) (v : list Z).   (* u(es...) = v; *)

(** Auxiliary: the address of an element in bytes (pointer arithmetic of an array of [T]). *)
Definition address (h : handle) (es : list tagged) : res Z :=
  rbind (span_access (h_span h) es) (fun a => Ok (h_base h + h_sz h * a)).
(** chunk.hpp:228-242, chunk_span.hpp:358-368: assignment to the reference. *)
Definition write (w : heap) (h : handle) (es : list tagged) (v : list Z) : res heap :=
  if Z.of_nat (length v) =? h_sz h
  then rbind (address h es) (fun a => store w a v) else Rejected.
(** chunk.hpp:196-210, chunk_span.hpp:358-368: value of the reference. *)
Definition read (w : heap) (h : handle) (es : list tagged) : res (list Z) :=
  rbind (address h es) (fun a => load w a (h_sz h)).

(** One statement; statements on objects outside of their lifetimes are not legal programs.
    [Ok None]: an exception left the statement.  New: chunk.hpp:93-101.  Default: chunk.hpp:90.
    MoveCtor: chunk.hpp:115-122.  MoveAssign: chunk.hpp:138-151, where the source is read after the
    own buffer is released.  Destroy: chunk.hpp:124-129.  View: chunk.hpp:153-194, 332-345 and the
    slicings of chunk_span.hpp. *)
Definition step (w : heap) (o : op) : res (option heap) :=
  match o with
  | New x sz d => match chunks w x with None => new_chunk w x sz d | _ => Rejected end
  | Default x sz d =>
      match chunks w x with
      | None => Ok (Some (set_chunk w x (Some (mk_handle sz 0 (mk_span (mk_mdspan 0 LRight (map (fun p => u64 (snd (snd p) - fst (snd p))) d)) d)))))
      | _ => Rejected
      end
  | MoveCtor x y =>
      match chunks w x, chunks w y with
      | None, Some h => Ok (Some (set_chunk (set_chunk w x (Some h)) y (Some (emptied h))))
      | _, _ => Rejected
      end
  | MoveAssign x y =>
      match chunks w x, chunks w y with
      | Some h, Some h' =>
          if (h_sz h =? h_sz h') && (if list_eq_dec Nat.eq_dec (ddims (s_dom (h_span h))) (ddims (s_dom (h_span h'))) then true else false)
          then rbind (release w h) (fun w' =>
               match chunks w' y with
               | Some g => let w2 := set_chunk w' x (Some g) in Ok (Some (set_chunk w2 y (Some (emptied g))))
               | None => Rejected
               end)
          else Rejected
      | _, _ => Rejected
      end
  | Destroy x =>
      match chunks w x with
      | Some h => rbind (release w h) (fun w' => Ok (Some (set_chunk w' x None)))
      | None => Rejected
      end
  | Write x es v =>
      match chunks w x with Some h => rbind (write w h es v) (fun w' => Ok (Some w')) | None => Rejected end
  | View u x sls =>
      match chunks w x with
      | Some h => rbind (run_slices (h_span h) sls) (fun s => Ok (Some (set_view w u (Some (mk_handle (h_sz h) (h_base h) s)))))
      | None => Rejected
      end
  | WriteView u es v =>
      match views w u with Some h => rbind (write w h es v) (fun w' => Ok (Some w')) | None => Rejected end
  end.
(** Auxiliary: a program runs to its end or to an exception; the statements not executed are returned. *)
Fixpoint run (w : heap) (os : list op) : res (heap * list op) :=
  match os with
  | [] => Ok (w, [])
  | o :: r => rbind (step w o) (fun w' => match w' with Some w' => run w' r | None => Ok (w, os) end)
  end.
(** Reading an element through a chunk. *)
Definition read_chunk (w : heap) (x : nat) (es : list tagged) : res (list Z) :=
  match chunks w x with Some h => read w h es | None => Rejected end.
(** Reading an element through a view. *)
Definition read_view (w : heap) (u : nat) (es : list tagged) : res (list Z) :=
  match views w u with Some h => read w h es | None => Rejected end.

(** aligned_allocator.hpp:47-50 [AlignedAllocator::allocate(n)]: the array new-expression asks for
    [sz * n + overhead] bytes, where [overhead] is what the implementation adds to remember [n] for
    types with a non-trivial destructor ([expr.new]); it throws when the size is not representable
    and returns the address after the overhead.  Operator new is [malloc]. *)
Definition aligned_allocate (overhead : Z) (w : heap) (sz n : Z) : option (Z * heap) :=
  let total := sz * n + overhead in
  if total <? two64 then
    match malloc (ticks w) (blocks w) total with
    | None => None
    | Some a => Some (a + overhead, mk_heap ((a, total) :: blocks w) (S (ticks w)) (shake (blocks w) (ticks w) (bytes w)) (chunks w) (views w))
    end
  else None.
(** aligned_allocator.hpp:52-55 [AlignedAllocator::deallocate(p, n)]: operator delete[] on [p]. *)
Definition aligned_deallocate (w : heap) (p n : Z) : res heap := kokkos_free w p.
End heap.
