(** Model of src/ddc/kernels/splines/spline_builder_3d.hpp and spline_evaluator_3d.hpp, over the arithmetic [A].

    Simplifications: those of Spline2DModel and SplineNDModel.  A chunk over a three-dimensional domain is a [chunk_nd] with lists of three
    elements.  A batched call of the one-dimensional builder, or of the two-dimensional one, is a loop on the slices, in order: they are
    independent. *)
From Verif Require Export SplineNDModel.
From Coq Require Import List.
Import ListNotations.

Section Slices.
Context (A : arith).
Notation num := (num A).
(** The slice along the first two dimensions at the element [e] of the third; the slice along the last two at an element of the first. *)
Definition slice3 (c : chunk_nd A) (e : Z) : res (chunk_2d A) :=
  match cn_fronts c, cn_sizes c with
  | [f1; f2; f3], [n1; n2; n3] =>
      let k := elem_minus e f3 in
      assert_ ((0 <=? k) && (k <? n3)) (Ok (mk_chunk_2d f1 f2 (mk_arr2 n1 n2 (fun i j => cn_at c [i; j; k]))))
  | _, _ => Undef
  end.
(** See [slice3]. *)
Definition slice1 (c : chunk_nd A) (e : Z) : res (chunk_2d A) :=
  match cn_fronts c, cn_sizes c with
  | [f1; f2; f3], [n1; n2; n3] =>
      let i := elem_minus e f1 in
      assert_ ((0 <=? i) && (i <? n1)) (Ok (mk_chunk_2d f2 f3 (mk_arr2 n2 n3 (fun j k => cn_at c [i; j; k]))))
  | _, _ => Undef
  end.
(** The same for an optional chunk. *)
Definition opt_slice (slice : chunk_nd A -> Z -> res (chunk_2d A)) (c : option (chunk_nd A)) (e : Z) : res (option (chunk_2d A)) :=
  match c with None => Ok None | Some c => l <- slice c e ;; Ok (Some l) end.
(** The chunk after its slice has been written through a view. *)
Definition put_slice3 (c : chunk_nd A) (e : Z) (l : chunk_2d A) : chunk_nd A :=
  let k := elem_minus e (nth 2 (cn_fronts c) 0) in
  mk_chunk_nd (cn_fronts c) (cn_sizes c) (fun is => match is with [i; j; k'] => if k' =? k then a2_at (c2_vals l) i j else cn_at c is | _ => cn_at c is end).
(** See [put_slice3]. *)
Definition put_slice1 (c : chunk_nd A) (e : Z) (l : chunk_2d A) : chunk_nd A :=
  let i := elem_minus e (nth 0 (cn_fronts c) 0) in
  mk_chunk_nd (cn_fronts c) (cn_sizes c) (fun is => match is with [i'; j; k] => if i' =? i then a2_at (c2_vals l) j k else cn_at c is | _ => cn_at c is end).
(** A batched call: [f] on the slices at the elements [front], [front + 1], ... *)
Definition map_slices (slice : chunk_nd A -> Z -> res (chunk_2d A)) (put : chunk_nd A -> Z -> chunk_2d A -> chunk_nd A) (front n : Z)
  (f : Z -> Z -> chunk_2d A -> res (chunk_2d A)) (spline : chunk_nd A) : res (chunk_nd A) :=
  for_range 0 n (fun k spline =>
    let e := u64_add front k in
    l <- slice spline e ;;
    l <- f k e l ;;
    Ok (put spline e l)) spline.
End Slices.

Section Builder3D.
Context (A : arith).
Notation num := (num A).
Context (s1 s2 s3 : bspline_space A) (lower1 upper1 lower2 upper2 lower3 upper3 : closure).
(** spline_builder_3d.hpp:319-320; the three one-dimensional builders get the same solver *)
Context (X : solvers A) (bd1 bd2 bd3 : builder A).

(** spline_builder.hpp:905-1101 on the lines along the first dimension; the lines are at the elements [front2], ... of the second dimension and
    [front3], ... of the third.  [work k j] is the content of the work array of the line [j], [k]. *)
Definition build1_3d (front2 n2 front3 n3 : Z) (work : Z -> Z -> Z -> num) (spline vals : chunk_nd A) (derivs_min derivs_max : option (chunk_nd A)) : res (chunk_nd A) :=
  map_slices A (slice3 A) (put_slice3 A) front3 n3 (fun k e l =>
    v <- slice3 A vals e ;;
    dmin <- opt_slice A (slice3 A) derivs_min e ;;
    dmax <- opt_slice A (slice3 A) derivs_max e ;;
    build1 A s1 lower1 upper1 X bd1 front2 n2 (work k) l v dmin dmax) spline.
(** spline_builder_3d.hpp:944-1102: the derivatives in the second and third dimensions become splines in the first.  The one-dimensional builder
    asserts that the domain of the derivatives is the batch domain of the allocation. *)
Definition approximate_3d (needed : bool) (front2 n2 front3 n3 : Z) (junk : list Z -> num) (work : Z -> Z -> Z -> num) (derivs mixed_min1 mixed_max1 : option (chunk_nd A)) :
  res (option (chunk_nd A)) :=
  if needed then
    let alloc := mk_chunk_nd [0; front2; front3] [bs_size A s1; n2; n3] junk in
    match derivs with
    | None => Undef
    | Some derivs =>
        match cn_fronts derivs, cn_sizes derivs with
        | [_; f2; f3], [_; m2; m3] =>
            assert_ ((f2 =? front2) && (m2 =? n2) && (f3 =? front3) && (m3 =? n3))
              (r <- build1_3d front2 n2 front3 n3 work alloc derivs mixed_min1 mixed_max1 ;; Ok (Some r))
        | _, _ => Undef
        end
    end
  else Ok None.
(** [SBC == HERMITE] *)
Definition is_hermite (c : closure) : bool := match c with HERMITE => true | _ => false end.
(** The optional arguments of the builder, in their order (spline_builder_3d.hpp:796-932). *)
Record derivs_3d := mk_derivs_3d {
  derivs_min1 : option (chunk_nd A); derivs_max1 : option (chunk_nd A); derivs_min2 : option (chunk_nd A); derivs_max2 : option (chunk_nd A); derivs_min3 : option (chunk_nd A); derivs_max3 : option (chunk_nd A);
  mixed_min1_min2 : option (chunk_nd A); mixed_max1_min2 : option (chunk_nd A); mixed_min1_max2 : option (chunk_nd A); mixed_max1_max2 : option (chunk_nd A);
  mixed_min2_min3 : option (chunk_nd A); mixed_max2_min3 : option (chunk_nd A); mixed_min2_max3 : option (chunk_nd A); mixed_max2_max3 : option (chunk_nd A);
  mixed_min1_min3 : option (chunk_nd A); mixed_max1_min3 : option (chunk_nd A); mixed_min1_max3 : option (chunk_nd A); mixed_max1_max3 : option (chunk_nd A);
  mixed_min1_min2_min3 : option (chunk_nd A); mixed_max1_min2_min3 : option (chunk_nd A); mixed_min1_max2_min3 : option (chunk_nd A); mixed_max1_max2_min3 : option (chunk_nd A);
  mixed_min1_min2_max3 : option (chunk_nd A); mixed_max1_min2_max3 : option (chunk_nd A); mixed_min1_max2_max3 : option (chunk_nd A); mixed_max1_max2_max3 : option (chunk_nd A) }.
(** spline_builder_3d.hpp:934-1124.  [junk] gives the contents of the allocations, [work] those of the work arrays of the builder in the first dimension,
    [work23] those of the allocations and work arrays of the builder in the last two. *)
Definition build_3d (junk : nat -> list Z -> num) (work : nat -> Z -> Z -> Z -> num) (work23 : nat -> Z -> Z -> Z -> num) (spline vals : chunk_nd A) (D : derivs_3d) : res (chunk_nd A) :=
  match cn_fronts vals, cn_sizes vals with
  | [_; front2; front3], [_; n2; n3] =>
      let d2 := bs_degree A s2 / 2 in
      let d3 := bs_degree A s3 / 2 in
      let o2 := s_odd A s2 in
      let o3 := s_odd A s3 in
      min2 <- approximate_3d (is_hermite lower2) o2 d2 front3 n3 (junk 0%nat) (work 0%nat) (derivs_min2 D) (mixed_min1_min2 D) (mixed_max1_min2 D) ;;
      max2 <- approximate_3d (is_hermite upper2) o2 d2 front3 n3 (junk 1%nat) (work 1%nat) (derivs_max2 D) (mixed_min1_max2 D) (mixed_max1_max2 D) ;;
      min3 <- approximate_3d (is_hermite lower3) front2 n2 o3 d3 (junk 2%nat) (work 2%nat) (derivs_min3 D) (mixed_min1_min3 D) (mixed_max1_min3 D) ;;
      max3 <- approximate_3d (is_hermite upper3) front2 n2 o3 d3 (junk 3%nat) (work 3%nat) (derivs_max3 D) (mixed_min1_max3 D) (mixed_max1_max3 D) ;;
      min2_min3 <- approximate_3d (is_hermite lower2 || is_hermite lower3) o2 d2 o3 d3 (junk 4%nat) (work 4%nat) (mixed_min2_min3 D) (mixed_min1_min2_min3 D) (mixed_max1_min2_min3 D) ;;
      min2_max3 <- approximate_3d (is_hermite lower2 || is_hermite upper3) o2 d2 o3 d3 (junk 5%nat) (work 5%nat) (mixed_min2_max3 D) (mixed_min1_min2_max3 D) (mixed_max1_min2_max3 D) ;;
      max2_min3 <- approximate_3d (is_hermite upper2 || is_hermite lower3) o2 d2 o3 d3 (junk 6%nat) (work 6%nat) (mixed_max2_min3 D) (mixed_min1_max2_min3 D) (mixed_max1_max2_min3 D) ;;
      max2_max3 <- approximate_3d (is_hermite upper2 || is_hermite upper3) o2 d2 o3 d3 (junk 7%nat) (work 7%nat) (mixed_max2_max3 D) (mixed_min1_max2_max3 D) (mixed_max1_max2_max3 D) ;;
      spline1 <- build1_3d front2 n2 front3 n3 (work 8%nat) (mk_chunk_nd [0; front2; front3] [bs_size A s1; n2; n3] (junk 8%nat)) vals (derivs_min1 D) (derivs_max1 D) ;;
      (* the two-dimensional builder asserts that the domains of the first dimension are equal *)
      assert_ ((nth 0 (cn_fronts spline) 1 =? 0) && (nth 0 (cn_sizes spline) 0 =? bs_size A s1))
        (map_slices A (slice1 A) (put_slice1 A) 0 (bs_size A s1) (fun i e l =>
          v <- slice1 A spline1 e ;;
          min2 <- opt_slice A (slice1 A) min2 e ;;
          max2 <- opt_slice A (slice1 A) max2 e ;;
          min3 <- opt_slice A (slice1 A) min3 e ;;
          max3 <- opt_slice A (slice1 A) max3 e ;;
          min2_min3 <- opt_slice A (slice1 A) min2_min3 e ;;
          max2_min3 <- opt_slice A (slice1 A) max2_min3 e ;;
          min2_max3 <- opt_slice A (slice1 A) min2_max3 e ;;
          max2_max3 <- opt_slice A (slice1 A) max2_max3 e ;;
          build_2d A s2 s3 lower2 upper2 lower3 upper3 X bd2 bd3 (work23 0%nat i) (work23 1%nat i) (work23 2%nat i) (work23 3%nat i) (work23 4%nat i) (work23 5%nat i) (work23 6%nat i)
            l v min2 max2 min3 max3 min2_min3 max2_min3 min2_max3 max2_max3) spline)
  | _, _ => Undef
  end.
End Builder3D.
Arguments mk_derivs_3d {A}.

Section Evaluator3D.
Context (A : arith).
Notation num := (num A).
Context (s1 s2 s3 : bspline_space A) (m1 m2 m3 : scratch A).

(** spline_evaluator_3d.hpp:1009-1024 *)
Definition spline_sum_3d (jmin1 : Z) (vals1 : arr num) (jmin2 : Z) (vals2 : arr num) (jmin3 : Z) (vals3 : arr num) (coef : chunk_nd A) : res num :=
  for_range 0 (bs_degree A s1 + 1) (fun i y =>
    for_range 0 (bs_degree A s2 + 1) (fun j y =>
      for_range 0 (bs_degree A s3 + 1) (fun k y =>
        c <- cn_get A coef [u64_add jmin1 i; u64_add jmin2 j; u64_add jmin3 k] ;;
        v1 <- aget vals1 i ;;
        v2 <- aget vals2 j ;;
        v3 <- aget vals3 k ;;
        Ok (y + c * v1 * v2 * v3)%N_) y) y) (nofz A 0).
(** spline_evaluator_3d.hpp:900-1025 *)
Definition eval_no_bc_3d (order1 order2 order3 : option Z) (x y z : num) (coef : chunk_nd A) : res num :=
  ' (vals1, jmin1) <- basis_values A s1 m1 order1 x ;;
  ' (vals2, jmin2) <- basis_values A s2 m2 order2 y ;;
  ' (vals3, jmin3) <- basis_values A s3 m3 order3 z ;;
  spline_sum_3d jmin1 vals1 jmin2 vals2 jmin3 vals3 coef.
(** spline_evaluator_3d.hpp:857-880: [Some] rule to apply *)
Definition outside_3d (s : bspline_space A) (x : num) (lower upper : rule_nd A) : res (option (rule_nd A)) :=
  if bs_periodic A s then Ok None
  else
    rmin <- bs_rmin A s ;;
    rmax <- bs_rmax A s ;;
    Ok (if nltb A x rmin then Some lower else if nltb A rmax x then Some upper else None).
(** spline_evaluator_3d.hpp:814-890 *)
Definition eval_3d (lower1 upper1 lower2 upper2 lower3 upper3 : rule_nd A) (x y z : num) (coef : chunk_nd A) : res num :=
  x <- wrap A s1 x ;;
  y <- wrap A s2 y ;;
  z <- wrap A s3 z ;;
  r1 <- outside_3d s1 x lower1 upper1 ;;
  match r1 with
  | Some r => r [x; y; z] coef
  | None =>
      r2 <- outside_3d s2 y lower2 upper2 ;;
      match r2 with
      | Some r => r [x; y; z] coef
      | None =>
          r3 <- outside_3d s3 z lower3 upper3 ;;
          match r3 with
          | Some r => r [x; y; z] coef
          | None => eval_no_bc_3d None None None x y z coef
          end
      end
  end.
(** spline_evaluator_3d.hpp:472-515, 532-572, 617-665 and 683-727.  [coords j e] are the three coordinates for the element [e]; they do not depend on [j] in the
    overloads without coordinates. *)
Definition eval_batched_3d (f : num -> num -> num -> chunk_nd A -> res num) (nbatch front1 n1 front2 n2 front3 n3 : Z) (coords : Z -> list Z -> num * num * num) (coef : Z -> chunk_nd A)
  (out : Z -> chunk_nd A) : res (Z -> chunk_nd A) :=
  for_range 0 nbatch (fun j out =>
    for_range 0 n1 (fun k1 out =>
      for_range 0 n2 (fun k2 out =>
        for_range 0 n3 (fun k3 out =>
          let e := [u64_add front1 k1; u64_add front2 k2; u64_add front3 k3] in
          let '(x, y, z) := coords j e in
          v <- f x y z (coef j) ;;
          o <- cn_set A (out j) e v ;;
          Ok (upd out j o)) out) out) out) out.
(** See spline_evaluator_3d.hpp:472-572. *)
Definition evaluate_3d (lower1 upper1 lower2 upper2 lower3 upper3 : rule_nd A) := eval_batched_3d (eval_3d lower1 upper1 lower2 upper2 lower3 upper3).
(** See spline_evaluator_3d.hpp:617-727. *)
Definition deriv_3d (order1 order2 order3 : option Z) := eval_batched_3d (eval_no_bc_3d order1 order2 order3).
(** spline_evaluator_3d.hpp:741-795.  [coef j] is defined on the product of the three domains. *)
Definition integrate_3d (q1 q2 q3 : tag) (junk1 junk2 junk3 : Z -> num) (front1 size1 front2 size2 front3 size3 nbatch : Z) (coef : Z -> chunk_nd A) (out : arr num) : res (arr num) :=
  values1 <- bs_integrals A q1 s1 m1 (mk_chunk_1d A front1 (mk_arr size1 junk1)) ;;
  values2 <- bs_integrals A q2 s2 m2 (mk_chunk_1d A front2 (mk_arr size2 junk2)) ;;
  values3 <- bs_integrals A q3 s3 m3 (mk_chunk_1d A front3 (mk_arr size3 junk3)) ;;
  for_range 0 nbatch (fun j out =>
    out <- aset out j (nofz A 0) ;;
    for_range 0 size1 (fun k1 out =>
      for_range 0 size2 (fun k2 out =>
        for_range 0 size3 (fun k3 out =>
          let i1 := u64_add front1 k1 in
          let i2 := u64_add front2 k2 in
          let i3 := u64_add front3 k3 in
          o <- aget out j ;;
          c <- cn_get A (coef j) [i1; i2; i3] ;;
          v1 <- c1_get A values1 i1 ;;
          v2 <- c1_get A values2 i2 ;;
          v3 <- c1_get A values3 i3 ;;
          aset out j (o + c * v1 * v2 * v3)%N_) out) out) out) out.
End Evaluator3D.
