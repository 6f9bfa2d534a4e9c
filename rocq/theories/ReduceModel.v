(** Model of src/ddc/transform_reduce.hpp, src/ddc/reducer.hpp, src/ddc/parallel_transform_reduce.hpp,
    src/ddc/parallel_transform_scan.hpp and src/ddc/ddc_to_kokkos_execution_policy.hpp. *)
From Verif Require Export Machine TypeSeqModel TaggedModel DomainModel SpanModel.

(** transform_reduce.hpp:30-66 [host_transform_reduce_serial]; the device version (77-113) has the
    same body.  [is] are the indices of the dimensions already in a loop. *)
Fixpoint reduce_serial {T : Type} (at_ : tagged -> res tagged) (ts : type_seq) (size : list Z)
    (neutral : T) (reduce : T -> T -> T) (transform : tagged -> T) (is : list Z) : res T :=
  match size with
  | [] => rbind (at_ (combine ts is)) (fun e => Ok (transform e))
  | n :: size' =>
      fold_left (fun result ii => rbind result (fun result' =>
        rbind (reduce_serial at_ ts size' neutral reduce transform (is ++ [ii])) (fun x =>
        Ok (reduce x result')))) (zrange n) (Ok neutral)
  end.
(** transform_reduce.hpp:125-138, 148-161 [host_transform_reduce], [device_transform_reduce]. *)
Definition host_transform_reduce {T : Type} (d : domain) (neutral : T) (reduce : T -> T -> T)
    (transform : tagged -> T) : res T :=
  rbind (extents d) (fun ex => reduce_serial (dom_at d) (ddims d) (values ex) neutral reduce transform []).

(** ddc_to_kokkos_execution_policy.hpp:16-44 and External: the index tuples of the RangePolicy
    (ranks 0 and 1) or MDRangePolicy returned.  For rank 0 the policy has the single index 0. *)
Fixpoint md_indices (sizes : list Z) : list (list Z) :=
  match sizes with
  | [] => [[]]
  | n :: r => flat_map (fun i => map (cons i) (md_indices r)) (zrange n)
  end.
(** External: the index tuples visited by the policy. *)
Definition policy_indices (sizes : list Z) : list (list Z) :=
  match sizes with [] => [[0]] | _ => md_indices sizes end.
(** parallel_transform_reduce.hpp:117-127, parallel_for_each.hpp:42-52: the element an index tuple
    designates; for rank 0 the index is ignored. *)
Definition policy_elem (d : domain) (ids : list Z) : res tagged :=
  match ddims d with [] => dom_at d [] | ts => dom_at d (combine ts ids) end.

(** The reducers of reducer.hpp, here over T = size_t (minmax, whose value_type is a pair, is not
    modelled: DdcToKokkosReducer gives it a Kokkos reducer with another value_type). *)
Inductive reducer := RSum | RProd | RLand | RLor | RBand | RBor | RBxor | RMin | RMax.
(** Auxiliary: a [bool] as an integer. *)
Definition b2z (b : bool) : Z := if b then 1 else 0.
(** reducer.hpp:13-118 [operator()]. *)
Definition ddc_op (r : reducer) (a b : Z) : Z :=
  match r with
  | RSum => u64_add a b
  | RProd => u64_mul a b
  | RLand => b2z (negb (a =? 0) && negb (b =? 0))
  | RLor => b2z (negb (a =? 0) || negb (b =? 0))
  | RBand => Z.land a b
  | RBor => Z.lor a b
  | RBxor => Z.lxor a b
  | RMin => if a <? b then a else b
  | RMax => if b <? a then a else b
  end.
(** parallel_transform_reduce.hpp:23-90 [DdcToKokkosReducer] and External: init() of the Kokkos
    reducer it names, i.e. Kokkos::reduction_identity<size_t>.  Line 67 gives bxor no Kokkos reducer. *)
Definition kokkos_init (r : reducer) : option Z :=
  match r with
  | RSum => Some 0
  | RProd => Some 1
  | RLand => Some 1
  | RLor => Some 0
  | RBand => Some (two64 - 1)
  | RBor => Some 0
  | RBxor => None
  | RMin => Some (two64 - 1)
  | RMax => Some 0
  end.
(** External: join(dest, src) of the Kokkos reducers. *)
Definition kokkos_join (r : reducer) (dest src : Z) : Z :=
  match r with
  | RSum => u64_add dest src
  | RProd => u64_mul dest src
  | RLand => b2z (negb (dest =? 0) && negb (src =? 0))
  | RLor => b2z (negb (dest =? 0) || negb (src =? 0))
  | RBand => Z.land dest src
  | RBor => Z.lor dest src
  | RBxor => Z.lxor dest src
  | RMin => if src <? dest then src else dest
  | RMax => if dest <? src then src else dest
  end.

(** External: what Kokkos::parallel_reduce may do with a policy.  Work is divided into leaves; each
    leaf starts from init() and calls the functor on its indices in some order; partial results are
    joined in some tree.  The contract (see [ReduceSpec.covers]) is that the leaves hold every index of the
    policy exactly once. *)
Inductive schedule := Leaf (ids : list (list Z)) | Join (a b : schedule).
(** Auxiliary: the index tuples of a schedule, in order. *)
Fixpoint leaves (s : schedule) : list (list Z) :=
  match s with Leaf l => l | Join a b => leaves a ++ leaves b end.
(** parallel_transform_reduce.hpp:117-127: the functor, [a = reducer(a, f(element))]. *)
Fixpoint run_reduce {T : Type} (op join : T -> T -> T) (init : T) (d : domain) (f : tagged -> T) (s : schedule) : res T :=
  match s with
  | Leaf l => fold_left (fun acc ids => rbind acc (fun a => rbind (policy_elem d ids) (fun e => Ok (op a (f e))))) l (Ok init)
  | Join a b => rbind (run_reduce op join init d f a) (fun x => rbind (run_reduce op join init d f b) (fun y => Ok (join x y)))
  end.
(** parallel_transform_reduce.hpp:148-164: [result] starts as [neutral] and is overwritten by Kokkos. *)
Definition parallel_transform_reduce (r : reducer) (d : domain) (neutral : Z) (f : tagged -> Z) (s : schedule) : res Z :=
  match kokkos_init r with
  | None => Rejected
  | Some init => run_reduce (ddc_op r) (kokkos_join r) init d f s
  end.
(** The same with reducer::sum<ptrdiff_t>: overflow is undefined. *)
Definition signed_add (a b : res Z) : res Z := rbind a (fun x => rbind b (fun y => of_i64 (i64_add x y))).
(** See parallel_transform_reduce.hpp:148-164. *)
Definition parallel_sum_signed (d : domain) (f : tagged -> Z) (s : schedule) : res Z :=
  rbind (run_reduce signed_add signed_add (Ok 0) d (fun e => Ok (f e)) s) (fun x => x).

(** parallel_transform_reduce.hpp:363-397 (experimental): one reduction per element of [out].  [sch]
    chooses the schedule of each.  A failed assert is [Undef]. *)
Definition parallel_transform_reduce_to (r : reducer) (d : domain) (out : span)
    (f : tagged -> tagged -> Z) (sch : tagged -> schedule) (m : memory Z) : res (memory Z) :=
  rbind (dom_select (ddims (s_dom out)) d) (fun dd =>
  rbind (dom_eq (s_dom out) dd) (fun ok => if ok then
    rbind (remove_dims_of d (ddims (s_dom out))) (fun interest =>
    rbind (host_for_each (s_dom out) (fun iout rm =>
             rbind rm (fun m =>
             rbind (parallel_transform_reduce r interest 0 (f iout) (sch iout)) (fun x =>
             rbind (span_slice_elem out iout) (fun s => span_write m s [] x)))) (Ok m)) (fun rm => rm))
  else Undef)).

(** parallel_transform_scan.hpp:28-31. *)
Inductive scan_type := Inclusive | Exclusive.
(** parallel_transform_scan.hpp:86-103: one call of the functor; it may read the memory. *)
Definition scan_call (ty : scan_type) (r : reducer) (f : memory Z -> tagged -> tagged -> Z) (out : span)
    (support : domain) (ib : tagged) (id : Z) (partial : Z) (final : bool) (m : memory Z) : res (Z * memory Z) :=
  rbind (dom_at support (combine (ddims support) [id])) (fun es =>
  rbind (match ty with Exclusive => if final then span_write m out [ib; es] partial else Ok m | Inclusive => Ok m end) (fun m1 =>
  let partial' := ddc_op r partial (f m1 ib es) in
  rbind (match ty with Inclusive => if final then span_write m1 out [ib; es] partial' else Ok m1 | Exclusive => Ok m1 end) (fun m2 =>
  Ok (partial', m2)))).
(** External: Kokkos::parallel_scan.  The range is cut into consecutive chunks.  The value a chunk
    starts from is obtained from the indices before it, by non-final calls on leaves that start from
    init() and joins (parallel_transform_scan.hpp:70-84: those of the Kokkos reducer); then the
    chunks make their final calls, interleaved in any way.  The non-final calls of
    all chunks happen before the final calls. *)
Inductive scan_tree := SLeaf (ids : list Z) | SJoin (a b : scan_tree).
(** Auxiliary: the indices of a scan tree, in order. *)
Fixpoint scan_leaves (t : scan_tree) : list Z := match t with SLeaf l => l | SJoin a b => scan_leaves a ++ scan_leaves b end.
(** External: the first pass of [Kokkos::parallel_scan], the total of each part. *)
Fixpoint scan_total (call : Z -> Z -> bool -> memory Z -> res (Z * memory Z)) (join : Z -> Z -> Z) (init : Z)
    (m : memory Z) (t : scan_tree) : res Z :=
  match t with
  | SLeaf l => fold_left (fun acc id => rbind acc (fun a => rbind (call id a false m) (fun p => Ok (fst p)))) l (Ok init)
  | SJoin a b => rbind (scan_total call join init m a) (fun x => rbind (scan_total call join init m b) (fun y => Ok (join x y)))
  end.
(** One scan execution: the chunks with the trees of their start values, and the interleaving (a
    list of chunk numbers). *)
Record scan_exec := mk_scan_exec { x_chunks : list (list Z * scan_tree); x_steps : list nat }.
(** Auxiliary: assignment of one element of a list. *)
Fixpoint set_chunk {A} (l : list A) (k : nat) (x : A) : list A :=
  match l, k with [], _ => [] | _ :: r, O => x :: r | y :: r, S k' => y :: set_chunk r k' x end.
(** External: the final pass of [Kokkos::parallel_scan]. *)
Fixpoint scan_steps (call : Z -> Z -> bool -> memory Z -> res (Z * memory Z)) (st : list (list Z * Z)) (m : memory Z) (steps : list nat)
    : res (list (list Z * Z) * memory Z) :=
  match steps with
  | [] => Ok (st, m)
  | k :: r =>
      match nth_error st k with
      | Some (id :: ids, partial) =>
          rbind (call id partial true m) (fun p => scan_steps call (set_chunk st k (ids, fst p)) (snd p) r)
      | _ => Undef
      end
  end.
(** External: [Kokkos::parallel_scan]. *)
Definition run_scan (call : Z -> Z -> bool -> memory Z -> res (Z * memory Z)) (join : Z -> Z -> Z) (init : Z)
    (x : scan_exec) (m : memory Z) : res (memory Z) :=
  rbind (map_res (fun c => rbind (scan_total call join init m (snd c)) (fun v => Ok (fst c, v))) (x_chunks x)) (fun st =>
  rbind (scan_steps call st m (x_steps x)) (fun p => Ok (snd p))).
(** parallel_transform_scan.hpp:106-143: one scan per element of the other dimensions, in order. *)
Definition parallel_transform_scan (ty : scan_type) (r : reducer) (q : tag) (out : span)
    (f : memory Z -> tagged -> tagged -> Z) (x : tagged -> scan_exec) (m : memory Z) : res (memory Z) :=
  match kokkos_init r with
  | None => Rejected
  | Some init =>
      rbind (dom_select [q] (s_dom out)) (fun ddom_scan =>
      rbind (remove_dims_of (s_dom out) [q]) (fun ddom_batch =>
      rbind (host_for_each ddom_batch (fun ib rm => rbind rm (fun m =>
               run_scan (scan_call ty r f out ddom_scan ib) (kokkos_join r) init (x ib) m)) (Ok m)) (fun rm => rm)))
  end.
