(** Model of src/ddc/kernels/splines/spline_evaluator_nd.hpp, over the arithmetic [A], for any number of dimensions.

    Simplifications.
    - A tuple, or a pack of template arguments, with one component per dimension is a list.  Lists of different lengths are
      programs that do not compile; the functions are then undefined.
    - An n-dimensional [ChunkSpan] is given by the fronts and sizes of its dimensions and its elements; the layout is that of SpanModel.
    - The evaluations on a batch are loops on its elements, in order: they are independent. *)
From Verif Require Export Spline2DModel.
From Coq Require Import List.
Import ListNotations.

Section Chunk.
Context (A : arith).
Notation num := (num A).
(** A chunk over a domain of any number of dimensions (chunk_span.hpp:46), reduced to the fronts, the sizes and the values. *)
Record chunk_nd := mk_chunk_nd { cn_fronts : list Z; cn_sizes : list Z; cn_at : list Z -> num }.
(** chunk_span.hpp:358-368: the position of an element in each dimension, with the assertions on the domain *)
Fixpoint offsets (fronts sizes e : list Z) : res (list Z) :=
  match fronts, sizes, e with
  | [], [], [] => Ok []
  | f :: fronts, n :: sizes, i :: e =>
      let k := elem_minus i f in
      assert_ ((0 <=? k) && (k <? n)) (ks <- offsets fronts sizes e ;; Ok (k :: ks))
  | _, _, _ => Undef
  end.
(** [chunk(e)] *)
Definition cn_get (c : chunk_nd) (e : list Z) : res num := ks <- offsets (cn_fronts c) (cn_sizes c) e ;; Ok (cn_at c ks).
(** [chunk(e) = v] *)
Definition cn_set (c : chunk_nd) (e : list Z) (v : num) : res chunk_nd :=
  ks <- offsets (cn_fronts c) (cn_sizes c) e ;;
  Ok (mk_chunk_nd (cn_fronts c) (cn_sizes c) (fun is => if list_eq_dec Z.eq_dec is ks then v else cn_at c is)).
End Chunk.
Arguments mk_chunk_nd {A}. Arguments cn_fronts {A}. Arguments cn_sizes {A}. Arguments cn_at {A}.

(** spline_evaluator_nd.hpp:757-771, and for_each.hpp:37-76: nested loops, the last index varying fastest *)
Fixpoint for_each {S} (bounds : list Z) (f : list Z -> S -> res S) (is : list Z) (s : S) : res S :=
  match bounds with
  | [] => f is s
  | n :: bounds => for_range 0 n (fun i s => for_each bounds f (is ++ [i]) s) s
  end.
(** [(a + i)...]: the elements at the indices [is] from the elements [a] *)
Fixpoint plus_nd (a is : list Z) : list Z := match a, is with x :: a, i :: is => u64_add x i :: plus_nd a is | _, _ => [] end.

Section EvaluatorND.
Context (A : arith).
Notation num := (num A).
(** [(v * ...)]: a fold to the right.  It does not compile for no dimension. *)
Fixpoint product (l : list num) : num := match l with [] => nofz A 1 | [v] => v | v :: l => (v * product l)%N_ end.
(** One dimension: its space, and the local arrays. *)
Definition dim : Type := bspline_space A * scratch A.

(** spline_evaluator_nd.hpp:723-755 and 799-809: the values, or derivatives, of the basis functions in each dimension *)
Fixpoint bases (dims : list dim) (orders : list (option Z)) (xs : list num) : res (list (arr num * Z)) :=
  match dims, orders, xs with
  | [], [], [] => Ok []
  | (s, m) :: dims, o :: orders, x :: xs => b <- basis_values A s m o x ;; bs <- bases dims orders xs ;; Ok (b :: bs)
  | _, _, _ => Undef
  end.
(** spline_evaluator_nd.hpp:819: [get<I>(vals)[idx[I]]...] *)
Fixpoint at_index (bs : list (arr num * Z)) (idx : list Z) : res (list num) :=
  match bs, idx with
  | [], [] => Ok []
  | (v, _) :: bs, i :: idx => x <- aget v i ;; xs <- at_index bs idx ;; Ok (x :: xs)
  | _, _ => Undef
  end.
(** spline_evaluator_nd.hpp:781-823 *)
Definition eval_no_bc_nd (dims : list dim) (orders : list (option Z)) (xs : list num) (coef : chunk_nd A) : res num :=
  bs <- bases dims orders xs ;;
  for_each (map (fun d : dim => bs_degree A (fst d) + 1) dims) (fun idx y =>
    c <- cn_get A coef (plus_nd (map snd bs) idx) ;;
    vs <- at_index bs idx ;;
    Ok (y + c * product vs)%N_) [] (nofz A 0).

(** An extrapolation rule receives the coordinates and the coefficients. *)
Definition rule_nd : Type := list num -> chunk_nd A -> res num.
(** null_extrapolation_rule.hpp:21-25, periodic_extrapolation_rule.hpp:17-23 *)
Definition null_rule_nd : rule_nd := fun _ _ => Ok (nofz A 0).
(** spline_evaluator_nd.hpp:638-654 in each dimension *)
Fixpoint update_coord_eval (dims : list dim) (xs : list num) : res (list num) :=
  match dims, xs with
  | [], [] => Ok []
  | (s, _) :: dims, x :: xs => x <- wrap A s x ;; xs <- update_coord_eval dims xs ;; Ok (x :: xs)
  | _, _ => Undef
  end.
(** spline_evaluator_nd.hpp:656-679: [Some] result if the rule of this dimension applies *)
Definition check_needs_extrapolation (s : bspline_space A) (x : num) (lower upper : rule_nd) (xs : list num) (coef : chunk_nd A) : res (option num) :=
  if bs_periodic A s then Ok None
  else
    rmin <- bs_rmin A s ;;
    rmax <- bs_rmax A s ;;
    if nltb A x rmin then r <- lower xs coef ;; Ok (Some r)
    else if nltb A rmax x then r <- upper xs coef ;; Ok (Some r)
    else Ok None.
(** spline_evaluator_nd.hpp:707-710: the first dimension, in order, that needs extrapolation; [xs] are all the coordinates *)
Fixpoint needs_extrapolation (dims : list dim) (rules : list (rule_nd * rule_nd)) (cur : list num) (xs : list num) (coef : chunk_nd A) : res (option num) :=
  match dims, rules, cur with
  | [], [], [] => Ok None
  | (s, _) :: dims, (lower, upper) :: rules, x :: cur =>
      r <- check_needs_extrapolation s x lower upper xs coef ;;
      match r with
      | Some v => Ok (Some v)
      | None => needs_extrapolation dims rules cur xs coef
      end
  | _, _, _ => Undef
  end.
(** spline_evaluator_nd.hpp:696-721 *)
Definition eval_nd (dims : list dim) (rules : list (rule_nd * rule_nd)) (xs : list num) (coef : chunk_nd A) : res num :=
  xs <- update_coord_eval dims xs ;;
  r <- needs_extrapolation dims rules xs xs coef ;;
  match r with
  | Some v => Ok v
  | None => eval_no_bc_nd dims (map (fun _ => None) dims) xs coef
  end.

(** spline_evaluator_nd.hpp:338-378, 396-430, 480-525 and 545-581: the mesh of fronts [fronts] and sizes [sizes] for each of the [nbatch] elements of the
    batch.  [coords j e] does not depend on [j] in the overloads without coordinates. *)
Definition eval_batched_nd (f : list num -> chunk_nd A -> res num) (nbatch : Z) (fronts sizes : list Z) (coords : Z -> list Z -> list num) (coef : Z -> chunk_nd A)
  (out : Z -> chunk_nd A) : res (Z -> chunk_nd A) :=
  for_range 0 nbatch (fun j out =>
    for_each sizes (fun idx out =>
      let e := plus_nd fronts idx in
      v <- f (coords j e) (coef j) ;;
      o <- cn_set A (out j) e v ;;
      Ok (upd out j o)) [] out) out.
(** See spline_evaluator_nd.hpp:338-430. *)
Definition evaluate_nd (dims : list dim) (rules : list (rule_nd * rule_nd)) := eval_batched_nd (eval_nd dims rules).
(** See spline_evaluator_nd.hpp:480-581. *)
Definition deriv_nd (dims : list dim) (orders : list (option Z)) := eval_batched_nd (eval_no_bc_nd dims orders).

(** spline_evaluator_nd.hpp:613-618: the integrals of the basis functions in each dimension; [junk] is the content of the allocations *)
Fixpoint all_integrals (dims : list dim) (qs : list (tag * (Z -> num))) (fronts sizes : list Z) : res (list (chunk_1d A)) :=
  match dims, qs, fronts, sizes with
  | [], [], [], [] => Ok []
  | (s, m) :: dims, (q, junk) :: qs, f :: fronts, n :: sizes =>
      v <- bs_integrals A q s m (mk_chunk_1d A f (mk_arr n junk)) ;;
      vs <- all_integrals dims qs fronts sizes ;;
      Ok (v :: vs)
  | _, _, _, _ => Undef
  end.
(** [get<I>(values)(DiscreteElement<BSplines>(i))...] *)
Fixpoint at_elem (vs : list (chunk_1d A)) (e : list Z) : res (list num) :=
  match vs, e with
  | [], [] => Ok []
  | v :: vs, i :: e => x <- c1_get A v i ;; xs <- at_elem vs e ;; Ok (x :: xs)
  | _, _ => Undef
  end.
(** spline_evaluator_nd.hpp:596-635.  [coef j] is defined on the product of the domains of fronts [fronts] and sizes [sizes]. *)
Definition integrate_nd (dims : list dim) (qs : list (tag * (Z -> num))) (fronts sizes : list Z) (nbatch : Z) (coef : Z -> chunk_nd A) (out : arr num) : res (arr num) :=
  values <- all_integrals dims qs fronts sizes ;;
  for_range 0 nbatch (fun j out =>
    out <- aset out j (nofz A 0) ;;
    for_each sizes (fun idx out =>
      let e := plus_nd fronts idx in
      o <- aget out j ;;
      c <- cn_get A (coef j) e ;;
      vs <- at_elem values e ;;
      aset out j (o + c * product vs)%N_) [] out) out.
End EvaluatorND.
