(** Model of src/ddc/kernels/splines/spline_builder.hpp over the arithmetic [A].

    Simplifications.
    - [operator()] is modelled on one line of the batch: every one of its stages treats the elements of the batch domain
      independently, on their own line, and so does [solve] (LinearModel).  A batch is a family of lines.
    - The constructor calls [setup_solver]; here it is part of [setup_and_solve], which gives the same result each
      time since the matrix does not change after the constructor.
    - Labels, the chunk size and the block size of the iterative solver, memory spaces and error messages are not modelled.
    - [assert]s are active. *)
From Coq Require Import List.
From Verif Require Export EvaluatorModel PointsModel LinearModel.
Import ListNotations.

(** spline_builder.hpp:36-39 *)
Inductive spline_solver := GINKGO | LAPACK.
(** Auxiliary: the two closures with derivatives (spline_builder_closures.hpp:18-23). *)
Definition is_hermite (c : closure) : bool := match c with HERMITE | HOMOGENEOUS_HERMITE => true | _ => false end.

Section Builder.
Context (A : arith).
Notation num := (num A).

(** The knot [ik] and the first break point of a space: [ddc::coordinate(ik)], [break_point_domain().front()] *)
Definition bs_knot (s : bspline_space A) (ik : Z) : res num := match s with Uniform u => Ok (ub_coord A u ik) | NonUniform n => nb_coord A n ik end.
(** bsplines_uniform.hpp:327-331, bsplines_non_uniform.hpp:337-341 *)
Definition bs_break_front (s : bspline_space A) : Z := match s with Uniform u => ub_break_front A u | NonUniform n => nb_break_front A n end.

Context (s : bspline_space A) (m : scratch A) (solver : spline_solver) (lower upper : closure).
(** The interpolation domain: its first element, its size; and the coordinates of the interpolation dimension. *)
Context (start npoints : Z) (coord : Z -> res num).

(** spline_builder.hpp:166, 169, 172, 175-182 *)
Definition s_odd : Z := bs_degree A s mod 2.
(** See spline_builder.hpp:166, 169, 172, 175-182. *)
Definition s_nbe_xmin : Z := n_boundary_equations lower (bs_degree A s).
(** See spline_builder.hpp:166, 169, 172, 175-182. *)
Definition s_nbe_xmax : Z := n_boundary_equations upper (bs_degree A s).
(** See spline_builder.hpp:166, 169, 172, 175-182. *)
Definition s_nbv (c : closure) : Z := match c with HOMOGENEOUS_HERMITE => 0 | _ => n_boundary_equations c (bs_degree A s) end.

(** spline_builder.hpp:486-496 and 507-517 [batched_derivs_xmin_domain], [batched_derivs_xmax_domain]: the first element and the
    number of elements of the domain along the dimension of the derivatives (the other dimensions are those of the batch) *)
Definition derivs_domain (c : closure) : Z * Z := (1, s_nbv c).

(** spline_builder.hpp:1253-1263 *)
Definition check_n_points_in_cell (n : Z) : res unit := if bs_degree A s + 1 <? n then Rejected else Ok tt.
(** spline_builder.hpp:1280-1317 *)
Definition check_valid_grid : res unit :=
  let expected := u64_sub (u64_sub (bs_nbasis A s) (u64 s_nbe_xmin)) (u64 s_nbe_xmax) in
  if negb (npoints =? expected) then Rejected
  else
    ' (n, _) <- for_range 0 npoints (fun k '(n, cell_end) =>
        point <- coord (u64_add start k) ;;
        c <- bs_knot s cell_end ;;
        if nltb A c point then _ <- check_n_points_in_cell n ;; Ok (1, u64_add cell_end 1)
        else if nleb A c point (* equal *) then _ <- check_n_points_in_cell (n + 1) ;; Ok (1, u64_add cell_end 1)
        else Ok (n + 1, cell_end)) (0, u64_add (bs_break_front s) 1) ;;
    check_n_points_in_cell n.

(** spline_builder.hpp:634-658: sums and differences of [size_t], converted to [int] *)
Definition compute_offset : res Z :=
  if bs_periodic A s then
    x <- coord (u64_add start (bs_degree A s)) ;;
    ' (values, jmin) <- bs_eval_basis A s m x ;;
    if bs_degree A s mod 2 =? 0
    then Ok (i32 (u64_sub (u64_add (u64_sub jmin start) (bs_degree A s / 2)) (bs_degree A s)))
    else
      let mid := bs_degree A s / 2 in
      v0 <- aget values mid ;;
      v1 <- aget values (mid + 1) ;;
      Ok (i32 (u64_sub (u64_add (u64_sub jmin start) (if nltb A v1 v0 then mid else mid + 1)) (bs_degree A s)))
  else Ok 0.

(** spline_builder.hpp:669-685 and 696-709 *)
Definition block_size (c : closure) (nbc : Z) : Z :=
  let degree := i32 (bs_degree A s) in
  if bs_uniform A s then
    match c with PERIODIC => degree / 2 | HERMITE | HOMOGENEOUS_HERMITE => nbc | GREVILLE => degree - 1 end
  else
    match c with PERIODIC | GREVILLE => degree - 1 | HERMITE | HOMOGENEOUS_HERMITE => nbc + 1 end.
(** spline_builder.hpp:720-769 (the calls 771 and 773 are in [builder_construct] and [setup_and_solve]) *)
Definition allocate_matrix : res (problem A) :=
  match solver with
  | LAPACK =>
      let width := if bs_uniform A s then i32 (bs_degree A s / 2) else i32 (u64_sub (bs_degree A s) 1) in
      if bs_periodic A s then make_new_periodic_band_matrix A (i32 (bs_nbasis A s)) width width (bs_uniform A s)
      else make_new_block_matrix A (i32 (bs_nbasis A s)) width width (bs_uniform A s) (block_size upper s_nbe_xmax) (block_size lower s_nbe_xmin)
  | GINKGO => e <- new_sparse A (u64 (i32 (bs_nbasis A s))) ;; Ok (Elementary e)
  end.

(** spline_builder.hpp:810-814 and 867-871 *)
Definition normalise (dx : num) (derivs : arr2 num) : res (arr2 num) :=
  for_range 0 (bs_degree A s + 1) (fun i derivs =>
    for_range 1 (bs_degree A s / 2 + 1) (fun j derivs =>
      v <- aget2 derivs i j ;; aset2 derivs i j (v * ipow_size A dx (Z.to_nat j))%N_) derivs) derivs.
(** spline_builder.hpp:794-824 *)
Definition hermite_lower_rows (dx : num) (p : problem A) : res (problem A) :=
  rmin <- bs_rmin A s ;;
  ' (derivs, _) <- bs_n_derivs A s m rmin s_nbe_xmin ;;
  derivs <- normalise dx derivs ;;
  for_range 0 s_nbe_xmin (fun i p =>
    for_range 0 (bs_degree A s) (fun j p =>
      v <- aget2 derivs j (i + s_odd) ;; set_element A p i j v) p) p.
(** spline_builder.hpp:826-845 *)
Definition point_rows (offset : Z) (p : problem A) : res (problem A) :=
  for_range 0 npoints (fun k p =>
    let ix := u64_add start k in
    x <- coord ix ;;
    ' (values, jmin) <- bs_eval_basis A s m x ;;
    for_range 0 (bs_degree A s + 1) (fun r p =>
      let j := modulo A (i32 (u64_add (u64_sub jmin (u64 offset)) r)) (i32 (bs_nbasis A s)) in
      v <- aget values r ;;
      set_element A p (u64_add (u64_sub ix (u64 (i32 start))) (u64 s_nbe_xmin)) (u64 j) v) p) p.
(** spline_builder.hpp:847-885 *)
Definition hermite_upper_rows (dx : num) (p : problem A) : res (problem A) :=
  rmax <- bs_rmax A s ;;
  ' (derivs, _) <- bs_n_derivs A s m rmax s_nbe_xmax ;;
  derivs <- normalise dx derivs ;;
  let i0 := i32 (u64_sub (bs_nbasis A s) (u64 s_nbe_xmax)) in
  let j0 := i32 (u64_sub (bs_nbasis A s) (bs_degree A s)) in
  for_range 0 (bs_degree A s) (fun j p =>
    for_range 0 s_nbe_xmax (fun i p =>
      v <- aget2 derivs (j + 1) (i + s_odd) ;; set_element A p (u64_add (u64 i0) i) (u64_add (u64 j0) j) v) p) p.
(** spline_builder.hpp:784-886 *)
Definition build_matrix_system (offset : Z) (dx : num) (p : problem A) : res (problem A) :=
  p <- (if is_hermite lower then hermite_lower_rows dx p else Ok p) ;;
  p <- point_rows offset p ;;
  if is_hermite upper then hermite_upper_rows dx p else Ok p.

(** The members: 196-201 *)
Record builder := mk_builder { bd_offset : Z; bd_dx : num; bd_matrix : problem A }.
(** spline_builder.hpp:67-71, 237-240 *)
Definition compatible_closures : bool :=
  match lower, upper with
  | PERIODIC, PERIODIC => bs_periodic A s
  | PERIODIC, _ | _, PERIODIC => false
  | _, _ => negb (bs_periodic A s)
  end.
(** spline_builder.hpp:227-260 *)
Definition builder_construct : res builder :=
  rmin <- bs_rmin A s ;;
  rmax <- bs_rmax A s ;;
  let dx := ((rmax - rmin) / nofz A (bs_ncells A s))%N_ in
  _ <- check_valid_grid ;;
  offset <- compute_offset ;;
  p <- allocate_matrix ;;
  p <- build_matrix_system offset dx p ;;
  Ok (mk_builder offset dx p).

Context (X : solvers A) (bd : builder).
(** [spline[DiscreteDomain(lo, n)]] requires a domain inside that of [spline]; the domain of [spline] starts at 0. *)
Definition inside (spline : chunk_1d A) (lo n : Z) : bool := (0 <=? n) && (0 <=? lo) && (lo + n <=? c1_size A spline).
(** Auxiliary: [deepcopy] or [fill] of a slice (spline_builder.hpp:977, 981-985, 1032). *)
Definition fill_part (spline : chunk_1d A) (lo n : Z) (v : num) : res (chunk_1d A) :=
  assert_ (inside spline lo n) (for_range lo (lo + n) (fun i c => c1_set A c i v) spline).
(** spline_builder.hpp:952-970 and 1006-1025: the derivatives, multiplied by powers of dx, from the coefficient [first] *)
Definition put_derivs (spline : chunk_1d A) (first n : Z) (derivs : option (chunk_1d A)) : res (chunk_1d A) :=
  match derivs with
  | None => Undef
  | Some d =>
      assert_ (c1_size A d =? n)
        (for_range 0 n (fun i c =>
           v <- c1_get A d (u64 (i + s_odd)) ;;
           f <- ipow A (bd_dx bd) (i + s_odd) ;;
           c1_set A c (u64_add first (u64 i)) (v * f)%N_) spline)
  end.
(** spline_builder.hpp:936-947: the optional derivatives are dereferenced by the first assertion. *)
Definition check_derivs (c : closure) (derivs : option (chunk_1d A)) : bool :=
  match c, derivs with
  | HERMITE, Some d => c1_front A d =? s_odd
  | HERMITE, None => false
  | _, Some d => c1_size A d =? 0
  | _, None => true
  end.
(** spline_builder.hpp:952-978 and 1006-1033 *)
Definition put_closure (c : closure) (first n : Z) (derivs : option (chunk_1d A)) (spline : chunk_1d A) : res (chunk_1d A) :=
  match c with
  | HERMITE => put_derivs spline first n derivs
  | HOMOGENEOUS_HERMITE => fill_part spline first n (nofz A 0)
  | _ => Ok spline
  end.
(** spline_builder.hpp:1074-1100 *)
Definition duplicate_periodic (spline : chunk_1d A) : res (chunk_1d A) :=
  let nbasis := bs_nbasis A s in
  let offset := bd_offset bd in
  let copy i_end i_start c := v <- c1_get A c i_start ;; c1_set A c i_end v in
  spline <- (if offset =? 0 then Ok spline
             else
               c <- for_range 0 offset (fun i c => copy i (u64_add nbasis i) c) spline ;;
               for_range offset (bs_degree A s) (fun i c => copy (u64_add nbasis i) i c) c) ;;
  for_range 0 (bs_degree A s) (fun i c => copy (u64_add nbasis i) i c) spline.
(** spline_builder.hpp:896-1101.  [junk] is the content of [spline_tr_alloc]. *)
Definition build (junk : Z -> num) (spline : chunk_1d A) (vals : arr num) (derivs_xmin derivs_xmax : option (chunk_1d A)) : res (chunk_1d A) :=
  let nbasis := bs_nbasis A s in
  let offset := bd_offset bd in
  assert_ (a_len vals =? u64_sub (u64_sub nbasis (u64 s_nbe_xmin)) (u64 s_nbe_xmax))
    (assert_ (check_derivs lower derivs_xmin && check_derivs upper derivs_xmax)
      (spline <- put_closure lower 0 s_nbe_xmin derivs_xmin spline ;;
       spline <- fill_part spline s_nbe_xmin offset (nofz A 0) ;;
       (* [Kokkos::deep_copy] of the values *)
       spline <- assert_ (inside spline (s_nbe_xmin + offset) (a_len vals))
         (for_range 0 (a_len vals) (fun i c => v <- aget vals i ;; c1_set A c (u64 (s_nbe_xmin + offset) + i) v) spline) ;;
       spline <- put_closure upper (u64_sub nbasis (u64 s_nbe_xmax)) s_nbe_xmax derivs_xmax spline ;;
       spline_tr <- for_range 0 nbasis (fun i tr => v <- c1_get A spline (u64_add i (u64 offset)) ;; aset tr i v)
         (mk_arr (required_rows (bd_matrix bd)) junk) ;;
       spline_tr <- setup_and_solve A X (bd_matrix bd) spline_tr false ;;
       spline <- for_range 0 nbasis (fun i c => v <- aget spline_tr i ;; c1_set A c (u64_add i (u64 offset)) v) spline ;;
       if bs_periodic A s then duplicate_periodic spline else Ok spline)).

(** spline_builder.hpp:1127-1234: the coefficients for the derivatives at the lower bound, for the values, for the derivatives at the upper bound.
    The second is on the domain of size n that starts with that of the interpolation points ([take_first] does not check that it is inside).
    [junk] and [junk_rows] are the contents of [integral_bsplines] and of the additional rows. *)
Definition quadrature_coefficients (q : tag) (junk junk_rows : Z -> num) : res (arr num * arr num * arr num) :=
  iv <- bs_integrals A q s m (mk_chunk_1d A 0 (mk_arr (bs_size A s) junk)) ;;
  let size := prob_size (bd_matrix bd) in
  assert_ (size <=? bs_size A s)
    (mirror <- for_range 0 size (fun i mirror => v <- aget (c1_vals A iv) i ;; aset mirror i v) (mk_arr (required_rows (bd_matrix bd)) junk_rows) ;;
     x <- setup_and_solve A X (bd_matrix bd) mirror true ;;
     let nv_min := s_nbv lower in
     let nv_max := s_nbv upper in
     let n := u64_sub (u64_sub (bs_nbasis A s) (u64 nv_min)) (u64 nv_max) in
     derivs_xmin <- rows A x 0 nv_min ;;
     coefficients <- rows A x nv_min (nv_min + n) ;;
     derivs_xmax <- rows A x (nv_min + n) (nv_min + n + nv_max) ;;
     let scale d := mk_arr (a_len d) (fun i => a_at d i * ipow_size A (bd_dx bd) (Z.to_nat (i + s_odd)))%N_ in
     Ok (scale derivs_xmin, coefficients, scale derivs_xmax)).
End Builder.
Arguments bd_offset {A}. Arguments bd_dx {A}. Arguments bd_matrix {A}. Arguments mk_builder {A}.
