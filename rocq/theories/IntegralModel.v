(** Model of src/ddc/kernels/splines/integrals.hpp: the integrals of the basis functions, over the
    arithmetic [A].  The loops on execution spaces are in order; in each of them the iterations write
    distinct elements when no access is undefined (C12 and C20 are about the order of such loops). *)
From Coq Require Import List.
From Verif Require Export BSplineModel MathModel.
Import ListNotations.
Local Open Scope Z_scope.

Section Integrals.
Context (A : arith).
Notation num := (num A).

(** [int_vals]: a one-dimensional [ChunkSpan], by the front of its domain and its elements.  The layout is
    that of SpanModel; an access outside of the domain is undefined. *)
Record chunk_1d := mk_chunk_1d { c1_front : Z; c1_vals : arr num }.
(** The number of elements of the chunk (chunk_common.hpp:147-150). *)
Definition c1_size (c : chunk_1d) : Z := a_len (c1_vals c).
(** Writing through operator() (chunk_span.hpp:358-368): outside the domain it is undefined. *)
Definition c1_set (c : chunk_1d) (ix : Z) (v : num) : res chunk_1d :=
  a <- aset (c1_vals c) (elem_minus ix (c1_front c)) v ;; Ok (mk_chunk_1d (c1_front c) a).
(** Reading through operator() (chunk_span.hpp:358-368): outside the domain it is undefined. *)
Definition c1_get (c : chunk_1d) (ix : Z) : res num := aget (c1_vals c) (elem_minus ix (c1_front c)).
(** [parallel_fill(int_vals[dom], value)], [dom] of dimension [q]: a domain of negative extent is not one. *)
Definition fill_domain (dom : domain) (v : num) (c : chunk_1d) : res chunk_1d :=
  f <- front_of dom ;;
  n <- size_of dom ;;
  if n <? 0 then Undef else for_range 0 n (fun k c => c1_set c (u64_add f k) v) c.

(** bsplines_uniform.hpp:318-321 and bsplines_non_uniform.hpp:328-331 [full_domain]. *)
Definition full_domain (q : tag) (size : Z) : res domain := mk_domain [(q, reference_element)] [(q, i64 size)].

(** integrals.hpp:30-101; [junk] is the initial content of [edge_vals_ptr]. *)
Definition uniform_edge_value (s : u_bsplines A) (junk : Z -> num) (i : Z) : res num :=
  ' (edge_vals, _) <- ub_eval_basis_degree A s (mk_arr (ub_degree A s + 2) junk) (ub_rmin A s) (u64_add (ub_degree A s) 1) ;;
  let d_eval := sum A (arr_list edge_vals) in
  let c_eval := sum_range A (arr_list edge_vals) 0 (Z.to_nat (i32 (u64_sub (ub_degree A s) i))) in
  Ok (ub_step A s * (d_eval - c_eval))%N_.
(** See integrals.hpp:30-101. *)
Definition uniform_bsplines_integrals (q : tag) (s : u_bsplines A) (junk : Z -> num) (int_vals : chunk_1d) : res chunk_1d :=
  let d := ub_degree A s in
  assert_ ((c1_size int_vals =? ub_nbasis A s) || (ub_periodic A s && (c1_size int_vals =? ub_size A s)))
    (full_dom_splines <- full_domain q (ub_size A s) ;;
     if ub_periodic A s then
       dom_bsplines <- take_first full_dom_splines [(q, i64 (ub_nbasis A s))] ;;
       int_vals <- fill_domain dom_bsplines (ub_step A s) int_vals ;;
       if c1_size int_vals =? ub_size A s then
         dom_bsplines_repeated <- take_last full_dom_splines [(q, i64 d)] ;;
         fill_domain dom_bsplines_repeated (nofz A 0) int_vals
       else Ok int_vals
     else
       dom_bspline_entirely_in_domain <- remove_both full_dom_splines [(q, i64 d)] [(q, i64 d)] ;;
       int_vals <- fill_domain dom_bspline_entirely_in_domain (ub_step A s) int_vals ;;
       first_bspline <- one_elem (front full_dom_splines) ;;
       last_bspline <- one_elem (back full_dom_splines) ;;
       for_range 0 d (fun i int_vals =>
         edge_value <- uniform_edge_value s junk i ;;
         int_vals <- c1_set int_vals (u64_add first_bspline i) edge_value ;;
         c1_set int_vals (u64_sub last_bspline i) edge_value) int_vals).

(** integrals.hpp:110-153 *)
Definition non_uniform_bsplines_integrals (q : tag) (s : n_bsplines A) (int_vals : chunk_1d) : res chunk_1d :=
  let d := nb_degree A s in
  assert_ ((c1_size int_vals =? nb_nbasis A s) || (nb_periodic A s && (c1_size int_vals =? nb_size A s)))
    (full_dom_splines <- full_domain q (nb_size A s) ;;
     let inv_deg := (nofz A 1 / nofz A (u64_add d 1))%N_ in
     dom_bsplines <- take_first full_dom_splines [(q, i64 (nb_nbasis A s))] ;;
     f <- front_of dom_bsplines ;;
     n <- size_of dom_bsplines ;;
     int_vals <- for_range 0 n (fun k int_vals =>
       let ix := u64_add f k in
       last <- nb_coord A s (nb_last_support_knot A s ix) ;;
       first <- nb_coord A s (nb_first_support_knot ix) ;;
       c1_set int_vals ix ((last - first) * inv_deg)%N_) int_vals ;;
     if nb_periodic A s && (c1_size int_vals =? nb_size A s) then
       dom_bsplines_wrap <- take_last full_dom_splines [(q, i64 d)] ;;
       fill_domain dom_bsplines_wrap (nofz A 0) int_vals
     else Ok int_vals).
End Integrals.
