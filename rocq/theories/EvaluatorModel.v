(** Model of src/ddc/kernels/splines/spline_evaluator.hpp, null_extrapolation_rule.hpp, constant_extrapolation_rule.hpp (its
    one-dimensional part) and periodic_extrapolation_rule.hpp, over the arithmetic [A]. *)
From Verif Require Export IntegralModel.

Section Space.
Context (A : arith).
Notation num := (num A).

(** [ddc::discrete_space<BSplines>()]: a uniform or a non-uniform space. *)
Inductive bspline_space := Uniform (s : u_bsplines A) | NonUniform (s : n_bsplines A).
(** Which of the two classes of spaces (bsplines_uniform.hpp:48-49, bsplines_non_uniform.hpp:44-45). *)
Definition bs_uniform (s : bspline_space) : bool := match s with Uniform _ => true | NonUniform _ => false end.
(** bsplines_uniform.hpp:64-67, bsplines_non_uniform.hpp:60-63 *)
Definition bs_degree (s : bspline_space) : Z := match s with Uniform u => ub_degree A u | NonUniform n => nb_degree A n end.
(** bsplines_uniform.hpp:73-76, bsplines_non_uniform.hpp:69-72 *)
Definition bs_periodic (s : bspline_space) : bool := match s with Uniform u => ub_periodic A u | NonUniform n => nb_periodic A n end.
(** bsplines_uniform.hpp:278-281, bsplines_non_uniform.hpp:288-291 *)
Definition bs_rmin (s : bspline_space) : res num := match s with Uniform u => Ok (ub_rmin A u) | NonUniform n => nb_rmin A n end.
(** bsplines_uniform.hpp:287-290, bsplines_non_uniform.hpp:297-300 *)
Definition bs_rmax (s : bspline_space) : res num := match s with Uniform u => Ok (ub_rmax A u) | NonUniform n => nb_rmax A n end.
(** bsplines_uniform.hpp:351-354, bsplines_non_uniform.hpp:372-375 *)
Definition bs_ncells (s : bspline_space) : Z := match s with Uniform u => ub_ncells A u | NonUniform n => nb_ncells A n end.
(** bsplines_uniform.hpp:339-342, bsplines_non_uniform.hpp:360-363 *)
Definition bs_nbasis (s : bspline_space) : Z := match s with Uniform u => ub_nbasis A u | NonUniform n => nb_nbasis A n end.
(** bsplines_uniform.hpp:309-312, bsplines_non_uniform.hpp:319-322 *)
Definition bs_size (s : bspline_space) : Z := match s with Uniform u => ub_size A u | NonUniform n => nb_size A n end.
(** bsplines_uniform.hpp:296-299, bsplines_non_uniform.hpp:306-309 [length()] *)
Definition bs_length (s : bspline_space) : res num := rmin <- bs_rmin s ;; rmax <- bs_rmax s ;; Ok (rmax - rmin)%N_.
(** The contents of local arrays that are not initialised. *)
Record scratch := mk_scratch { m_vals : Z -> num; m_left : Z -> num; m_right : Z -> num; m_ndu : Z -> Z -> num; m_a : Z -> Z -> num; m_derivs : Z -> Z -> num }.
(** [eval_basis(values, x)] into a local array of [degree() + 1] elements *)
Definition bs_eval_basis (s : bspline_space) (m : scratch) (x : num) : res (arr num * Z) :=
  let values := mk_arr (bs_degree s + 1) (m_vals m) in
  match s with Uniform u => ub_eval_basis A u values x | NonUniform n => nb_eval_basis A n (m_left m) (m_right m) values x end.
(** [eval_basis_and_n_derivs(derivs, x, n)] into a local array of [degree() + 1] rows and [n + 1] columns *)
Definition bs_n_derivs (s : bspline_space) (m : scratch) (x : num) (n : Z) : res (arr2 num * Z) :=
  let derivs := mk_arr2 (bs_degree s + 1) (n + 1) (m_derivs m) in
  match s with
  | Uniform u => ub_eval_basis_and_n_derivs A u (m_ndu m) (m_a m) derivs x n
  | NonUniform k => nb_eval_basis_and_n_derivs A k (m_left m) (m_right m) (m_ndu m) (m_a m) derivs x n
  end.
(** integrals.hpp:165-177 [integrals(execution_space, int_vals)] *)
Definition bs_integrals (q : tag) (s : bspline_space) (m : scratch) (iv : chunk_1d A) : res (chunk_1d A) :=
  match s with Uniform u => uniform_bsplines_integrals A q u (m_vals m) iv | NonUniform n => non_uniform_bsplines_integrals A q n iv end.
(** [Kokkos::floor], for a finite number *)
Definition nfloor (x : num) : num := let t := nofz A (ntrunc A x) in if nltb A x t then (t - nofz A 1)%N_ else t.
End Space.
Arguments mk_scratch {A}. Arguments m_vals {A}. Arguments m_left {A}. Arguments m_right {A}. Arguments m_ndu {A}. Arguments m_a {A}. Arguments m_derivs {A}.
Arguments Uniform {A}. Arguments NonUniform {A}.

Section Evaluator.
Context (A : arith).
Notation num := (num A).
Context (s : bspline_space A) (m : scratch A).

(** spline_evaluator.hpp:600-604 and constant_extrapolation_rule.hpp:67-71 *)
Definition spline_sum (jmin : Z) (vals : arr num) (coef : chunk_1d A) : res num :=
  for_range 0 (bs_degree A s + 1) (fun i y =>
    c <- c1_get A coef (u64_add jmin i) ;;
    v <- aget vals i ;;
    Ok (y + c * v)%N_) (nofz A 0).
(** spline_evaluator.hpp:556-605.  [order] is [None] when [deriv_order] has no dimension. *)
Definition eval_no_bc (order : option Z) (x : num) (coef : chunk_1d A) : res num :=
  match order with
  | None =>
      ' (vals, jmin) <- bs_eval_basis A s m x ;;
      spline_sum jmin vals coef
  | Some order =>
      assert_ ((0 <? order) && (order <=? bs_degree A s))
        (' (derivs, jmin) <- bs_n_derivs A s m x order ;;
         vals <- for_range 0 (bs_degree A s + 1) (fun i vals => v <- aget2 derivs i order ;; aset vals i v) (mk_arr (bs_degree A s + 1) (m_vals m)) ;;
         spline_sum jmin vals coef)
  end.

(** A rule receives the coordinate and the coefficients. null_extrapolation_rule.hpp:21-25, periodic_extrapolation_rule.hpp:17-23
    (whose assertion on a string literal never fails), constant_extrapolation_rule.hpp:51-72 (one dimension). *)
Definition rule : Type := num -> chunk_1d A -> res num.
(** See null_extrapolation_rule.hpp:21-25; periodic_extrapolation_rule.hpp:17-23; constant_extrapolation_rule.hpp:51-72. *)
Definition null_rule : rule := fun _ _ => Ok (nofz A 0).
(** See null_extrapolation_rule.hpp:21-25; periodic_extrapolation_rule.hpp:17-23; constant_extrapolation_rule.hpp:51-72. *)
Definition periodic_rule : rule := fun _ _ => Ok (nofz A 0).
(** See null_extrapolation_rule.hpp:21-25; periodic_extrapolation_rule.hpp:17-23; constant_extrapolation_rule.hpp:51-72. *)
Definition constant_rule (eval_pos : num) : rule := fun _ coef =>
  ' (vals, idx) <- bs_eval_basis A s m eval_pos ;;
  spline_sum idx vals coef.

(** spline_evaluator.hpp:529-554 *)
Definition eval (lower upper : rule) (x : num) (coef : chunk_1d A) : res num :=
  rmin <- bs_rmin A s ;;
  rmax <- bs_rmax A s ;;
  if bs_periodic A s then
    length <- bs_length A s ;;
    let x := if nltb A x rmin || nltb A rmax x then (x - nfloor A ((x - rmin) / length) * length)%N_ else x in
    eval_no_bc None x coef
  else if nltb A x rmin then lower x coef
  else if nltb A rmax x then upper x coef
  else eval_no_bc None x coef.

(** spline_evaluator.hpp:257-342 and 388-478: for each batch element [j] in [0, nbatch) and each point [i] in [0, n).  Batch elements and points are
    given by their positions; the domains and layouts are those of SpanModel.  [coords j i] is the i-th coordinate, which
    does not depend on [j] in the overloads without coordinates; [coef j] is the line [spline_coef[j]].
    The iterations on [j] are in order: they write distinct elements. *)
Definition eval_batched (f : num -> chunk_1d A -> res num) (nbatch n : Z) (coords : Z -> Z -> num) (coef : Z -> chunk_1d A) (out : arr2 num) : res (arr2 num) :=
  for_range 0 nbatch (fun j out =>
    for_range 0 n (fun i out => v <- f (coords j i) (coef j) ;; aset2 out j i v) out) out.
(** See spline_evaluator.hpp:257-342, 388-478. *)
Definition evaluate (lower upper : rule) := eval_batched (eval lower upper).
(** See spline_evaluator.hpp:257-342, 388-478. *)
Definition deriv (order : Z) := eval_batched (eval_no_bc (Some order)).

(** spline_evaluator.hpp:493-526.  [coef j] is defined on the domain of front [front] and of [size] elements. [junk] is the content of [values_alloc]. *)
Definition integrate (q : tag) (junk : Z -> num) (front size nbatch : Z) (coef : Z -> chunk_1d A) (out : arr num) : res (arr num) :=
  values <- bs_integrals A q s m (mk_chunk_1d A front (mk_arr size junk)) ;;
  for_range 0 nbatch (fun j out =>
    out <- aset out j (nofz A 0) ;;
    for_range 0 size (fun k out =>
      let i := u64_add front k in
      o <- aget out j ;;
      c <- c1_get A (coef j) i ;;
      v <- c1_get A values i ;;
      aset out j (o + c * v)%N_) out) out.
End Evaluator.
