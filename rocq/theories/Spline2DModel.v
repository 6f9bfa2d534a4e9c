(** Model of src/ddc/kernels/splines/spline_builder_2d.hpp, spline_evaluator_2d.hpp and constant_extrapolation_rule.hpp (its
    two-dimensional part), over the arithmetic [A].

    Simplifications.
    - As in BuilderModel and EvaluatorModel, [operator()] of the builder and the functions of the evaluator are modelled on one
      element of the batch domain, but [integrate], [evaluate_2d] and [deriv_2d], which are given the whole batch.
    - A two-dimensional [ChunkSpan] is given by the fronts of its two dimensions and its elements; the layout is that of SpanModel.
      As in BuilderModel, that the domain of the values is the interpolation domain is checked on its size only.
    - A batched call of the one-dimensional builder is a loop on the lines, in order: they are independent.  The lines of
      optional derivatives that are outside of their domain are undefined even if no element of them is read. *)
From Verif Require Export BuilderModel.

Section Chunk.
Context (A : arith).
Notation num := (num A).
(** A chunk over a two-dimensional domain (chunk_span.hpp:46), reduced to the fronts and values. *)
Record chunk_2d := mk_chunk_2d { c2_front1 : Z; c2_front2 : Z; c2_vals : arr2 num }.
(** [chunk(i, j)] *)
Definition c2_get (c : chunk_2d) (i j : Z) : res num := aget2 (c2_vals c) (elem_minus i (c2_front1 c)) (elem_minus j (c2_front2 c)).
(** The line along the first dimension at the element [j] of the second; the line along the second dimension. *)
Definition line1 (c : chunk_2d) (j : Z) : res (chunk_1d A) :=
  let v := c2_vals c in
  let j := elem_minus j (c2_front2 c) in
  assert_ ((0 <=? j) && (j <? a2_m v)) (Ok (mk_chunk_1d A (c2_front1 c) (mk_arr (a2_n v) (fun i => a2_at v i j)))).
(** The line along the second dimension. *)
Definition line2 (c : chunk_2d) (i : Z) : res (chunk_1d A) :=
  let v := c2_vals c in
  let i := elem_minus i (c2_front1 c) in
  assert_ ((0 <=? i) && (i <? a2_n v)) (Ok (mk_chunk_1d A (c2_front2 c) (mk_arr (a2_m v) (fun j => a2_at v i j)))).
(** The same for an optional chunk. *)
Definition opt_line (line : chunk_2d -> Z -> res (chunk_1d A)) (c : option chunk_2d) (j : Z) : res (option (chunk_1d A)) :=
  match c with None => Ok None | Some c => l <- line c j ;; Ok (Some l) end.
(** The chunk after its line has been written through a view. *)
Definition put1 (c : chunk_2d) (j : Z) (l : chunk_1d A) : chunk_2d :=
  let v := c2_vals c in
  let j := elem_minus j (c2_front2 c) in
  mk_chunk_2d (c2_front1 c) (c2_front2 c) (mk_arr2 (a2_n v) (a2_m v) (fun i k => if k =? j then a_at (c1_vals A l) i else a2_at v i k)).
(** The write of a line along the second dimension. *)
Definition put2 (c : chunk_2d) (i : Z) (l : chunk_1d A) : chunk_2d :=
  let v := c2_vals c in
  let i := elem_minus i (c2_front1 c) in
  mk_chunk_2d (c2_front1 c) (c2_front2 c) (mk_arr2 (a2_n v) (a2_m v) (fun k j => if k =? i then a_at (c1_vals A l) j else a2_at v k j)).
End Chunk.
Arguments mk_chunk_2d {A}. Arguments c2_front1 {A}. Arguments c2_front2 {A}. Arguments c2_vals {A}.

Section Builder2D.
Context (A : arith).
Notation num := (num A).
Context (s1 s2 : bspline_space A) (lower1 upper1 lower2 upper2 : closure).
(** spline_builder_2d.hpp:181-182; both builders get the same solver *)
Context (X : solvers A) (bd1 bd2 : builder A).

(** spline_builder.hpp:905-1101 on the lines along the first dimension, and along the second.  The lines are
    at the elements [front], [front + 1], ... of the other dimension. [junk k] is the content of the work array of the line [k]. *)
Definition build_lines (get : chunk_2d A -> Z -> res (chunk_1d A)) (put : chunk_2d A -> Z -> chunk_1d A -> chunk_2d A)
  (f : (Z -> num) -> chunk_1d A -> arr num -> option (chunk_1d A) -> option (chunk_1d A) -> res (chunk_1d A))
  (front n : Z) (junk : Z -> Z -> num) (spline vals : chunk_2d A) (derivs_min derivs_max : option (chunk_2d A)) : res (chunk_2d A) :=
  for_range 0 n (fun k spline =>
    let j := u64_add front k in
    l <- get spline j ;;
    v <- get vals j ;;
    dmin <- opt_line A get derivs_min j ;;
    dmax <- opt_line A get derivs_max j ;;
    l <- f (junk k) l (c1_vals A v) dmin dmax ;;
    Ok (put spline j l)) spline.
(** See spline_builder.hpp:905-1101. *)
Definition build1 := build_lines (line1 A) (put1 A) (build A s1 lower1 upper1 X bd1).
(** See spline_builder.hpp:905-1101. *)
Definition build2 := build_lines (line2 A) (put2 A) (build A s2 lower2 upper2 X bd2).

(** spline_builder_2d.hpp:597-621 and 632-647: the derivatives in the second dimension become splines in the first. [None] unless the closure is HERMITE.
    The one-dimensional builder asserts that the domain of the derivatives is the batch domain of the allocation. *)
Definition approximate_derivs (c : closure) (junk : Z -> Z -> num) (work : Z -> Z -> num) (derivs2 mixed_min1 mixed_max1 : option (chunk_2d A)) : res (option (chunk_2d A)) :=
  match c with
  | HERMITE =>
      let n := bs_degree A s2 / 2 in
      let alloc := mk_chunk_2d 0 (s_odd A s2) (mk_arr2 (bs_size A s1) n junk) in
      match derivs2 with
      | None => Undef
      | Some derivs2 =>
          assert_ ((c2_front2 derivs2 =? s_odd A s2) && (a2_m (c2_vals derivs2) =? n))
            (r <- build1 (s_odd A s2) n work alloc derivs2 mixed_min1 mixed_max1 ;; Ok (Some r))
      end
  | _ => Ok None
  end.
(** spline_builder_2d.hpp:586-651.  The junk arguments are the contents of the allocations and of the work arrays. *)
Definition build_2d (junk junk_min junk_max work1 work_min work_max work2 : Z -> Z -> num) (spline vals : chunk_2d A)
  (derivs_min1 derivs_max1 derivs_min2 derivs_max2 mixed_min1_min2 mixed_max1_min2 mixed_min1_max2 mixed_max1_max2 : option (chunk_2d A)) : res (chunk_2d A) :=
  spline1_deriv_min <- approximate_derivs lower2 junk_min work_min derivs_min2 mixed_min1_min2 mixed_max1_min2 ;;
  let n2 := a2_m (c2_vals vals) in
  let front2 := c2_front2 vals in
  spline1 <- build1 front2 n2 work1 (mk_chunk_2d 0 front2 (mk_arr2 (bs_size A s1) n2 junk)) vals derivs_min1 derivs_max1 ;;
  spline1_deriv_max <- approximate_derivs upper2 junk_max work_max derivs_max2 mixed_min1_max2 mixed_max1_max2 ;;
  assert_ ((c2_front1 spline =? 0) && (a2_n (c2_vals spline) =? bs_size A s1))
    (build2 0 (bs_size A s1) work2 spline spline1 spline1_deriv_min spline1_deriv_max).
End Builder2D.

Section Evaluator2D.
Context (A : arith).
Notation num := (num A).
Context (s1 s2 : bspline_space A) (m1 m2 : scratch A).

(** spline_evaluator_2d.hpp:768-789 and 791-812: the values, or derivatives, of the basis functions in one dimension *)
Definition basis_values (s : bspline_space A) (m : scratch A) (order : option Z) (x : num) : res (arr num * Z) :=
  match order with
  | None => bs_eval_basis A s m x
  | Some order =>
      assert_ ((0 <? order) && (order <=? bs_degree A s))
        (' (derivs, jmin) <- bs_n_derivs A s m x order ;;
         vals <- for_range 0 (bs_degree A s + 1) (fun i vals => v <- aget2 derivs i order ;; aset vals i v) (mk_arr (bs_degree A s + 1) (m_vals m)) ;;
         Ok (vals, jmin))
  end.
(** spline_evaluator_2d.hpp:814-824 and constant_extrapolation_rule.hpp:186-193 *)
Definition spline_sum_2d (jmin1 : Z) (vals1 : arr num) (jmin2 : Z) (vals2 : arr num) (coef : chunk_2d A) : res num :=
  for_range 0 (bs_degree A s1 + 1) (fun i y =>
    for_range 0 (bs_degree A s2 + 1) (fun j y =>
      c <- c2_get A coef (u64_add jmin1 i) (u64_add jmin2 j) ;;
      v1 <- aget vals1 i ;;
      v2 <- aget vals2 j ;;
      Ok (y + c * v1 * v2)%N_) y) (nofz A 0).
(** spline_evaluator_2d.hpp:740-825 *)
Definition eval_no_bc_2d (order1 order2 : option Z) (x y : num) (coef : chunk_2d A) : res num :=
  ' (vals1, jmin1) <- basis_values s1 m1 order1 x ;;
  ' (vals2, jmin2) <- basis_values s2 m2 order2 y ;;
  spline_sum_2d jmin1 vals1 jmin2 vals2 coef.

(** An extrapolation rule receives the coordinates and the coefficients. *)
Definition rule_2d : Type := num -> num -> chunk_2d A -> res num.
(** null_extrapolation_rule.hpp:21-25, periodic_extrapolation_rule.hpp:17-23 *)
Definition null_rule_2d : rule_2d := fun _ _ _ => Ok (nofz A 0).
(** [Kokkos::clamp] *)
Definition clamp (v lo hi : num) : num := if nltb A v lo then lo else if nltb A hi v then hi else v.
(** constant_extrapolation_rule.hpp:146-194, for a boundary in the first and in the second dimension. [DimNI::PERIODIC] is that of the space. *)
Definition constant_at (x y : num) (coef : chunk_2d A) : res num :=
  ' (vals1, idx1) <- bs_eval_basis A s1 m1 x ;;
  ' (vals2, idx2) <- bs_eval_basis A s2 m2 y ;;
  spline_sum_2d idx1 vals1 idx2 vals2 coef.
(** See constant_extrapolation_rule.hpp:146-194. *)
Definition constant_rule_2d_1 (eval_pos ni_min ni_max : num) : rule_2d := fun _ y coef =>
  constant_at eval_pos (if bs_periodic A s2 then y else clamp y ni_min ni_max) coef.
(** See constant_extrapolation_rule.hpp:146-194. *)
Definition constant_rule_2d_2 (eval_pos ni_min ni_max : num) : rule_2d := fun x _ coef =>
  constant_at (if bs_periodic A s1 then x else clamp x ni_min ni_max) eval_pos coef.

(** spline_evaluator_2d.hpp:686-695 and 697-706 *)
Definition wrap (s : bspline_space A) (x : num) : res num :=
  if bs_periodic A s then
    rmin <- bs_rmin A s ;;
    rmax <- bs_rmax A s ;;
    length <- bs_length A s ;;
    Ok (if nltb A x rmin || nltb A rmax x then (x - nfloor A ((x - rmin) / length) * length)%N_ else x)
  else Ok x.
(** spline_evaluator_2d.hpp:707-714 and 715-722: [Some] rule to apply *)
Definition outside (s : bspline_space A) (x : num) (lower upper : rule_2d) : res (option rule_2d) :=
  if bs_periodic A s then Ok None
  else
    rmin <- bs_rmin A s ;;
    rmax <- bs_rmax A s ;;
    Ok (if nltb A x rmin then Some lower else if nltb A rmax x then Some upper else None).
(** spline_evaluator_2d.hpp:678-730 *)
Definition eval_2d (lower1 upper1 lower2 upper2 : rule_2d) (x y : num) (coef : chunk_2d A) : res num :=
  x <- wrap s1 x ;;
  y <- wrap s2 y ;;
  r1 <- outside s1 x lower1 upper1 ;;
  match r1 with
  | Some r => r x y coef
  | None =>
      r2 <- outside s2 y lower2 upper2 ;;
      match r2 with
      | Some r => r x y coef
      | None => eval_no_bc_2d None None x y coef
      end
  end.

(** spline_evaluator_2d.hpp:370-456 and 503-600: [n1] times [n2] points for each of the [nbatch] elements of the batch.  [coords j i1 i2] does not depend
    on [j] in the overloads without coordinates. *)
Definition eval_batched_2d (f : num -> num -> chunk_2d A -> res num) (nbatch n1 n2 : Z) (coords : Z -> Z -> Z -> num * num) (coef : Z -> chunk_2d A)
  (out : Z -> arr2 num) : res (Z -> arr2 num) :=
  for_range 0 nbatch (fun j out =>
    for_range 0 n1 (fun i1 out =>
      for_range 0 n2 (fun i2 out =>
        let '(x, y) := coords j i1 i2 in
        v <- f x y (coef j) ;;
        o <- aset2 (out j) i1 i2 v ;;
        Ok (upd out j o)) out) out) out.
(** See spline_evaluator_2d.hpp:370-456, 503-600. *)
Definition evaluate_2d (lower1 upper1 lower2 upper2 : rule_2d) := eval_batched_2d (eval_2d lower1 upper1 lower2 upper2).
(** See spline_evaluator_2d.hpp:370-456, 503-600. *)
Definition deriv_2d (order1 order2 : option Z) := eval_batched_2d (eval_no_bc_2d order1 order2).

(** spline_evaluator_2d.hpp:615-660.  [coef j] is defined on the product of the domains of fronts [front1], [front2] and sizes [size1], [size2]. *)
Definition integrate_2d (q1 q2 : tag) (junk1 junk2 : Z -> num) (front1 size1 front2 size2 nbatch : Z) (coef : Z -> chunk_2d A) (out : arr num) : res (arr num) :=
  values1 <- bs_integrals A q1 s1 m1 (mk_chunk_1d A front1 (mk_arr size1 junk1)) ;;
  values2 <- bs_integrals A q2 s2 m2 (mk_chunk_1d A front2 (mk_arr size2 junk2)) ;;
  for_range 0 nbatch (fun j out =>
    out <- aset out j (nofz A 0) ;;
    for_range 0 size1 (fun k1 out =>
      for_range 0 size2 (fun k2 out =>
        let i1 := u64_add front1 k1 in
        let i2 := u64_add front2 k2 in
        o <- aget out j ;;
        c <- c2_get A (coef j) i1 i2 ;;
        v1 <- c1_get A values1 i1 ;;
        v2 <- c1_get A values2 i2 ;;
        aset out j (o + c * v1 * v2)%N_) out) out) out.
End Evaluator2D.
