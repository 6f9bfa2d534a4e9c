(** Model of the choices of interpolation points: spline_builder_closures.hpp,
    knots_as_interpolation_points.hpp and greville_interpolation_points.hpp, all in
    src/ddc/kernels/splines. *)
From Verif Require Export BSplineModel.
Import ListNotations.
#[global] Open Scope Z_scope.

(** spline_builder_closures.hpp:18-23 *)
Inductive closure := PERIODIC | HERMITE | HOMOGENEOUS_HERMITE | GREVILLE.
(** spline_builder_closures.hpp:43-55: [degree / 2] is a [size_t] converted to [int]; no other value exists. *)
Definition n_boundary_equations (sbc : closure) (degree : Z) : Z :=
  match sbc with
  | PERIODIC | GREVILLE => 0
  | HERMITE | HOMOGENEOUS_HERMITE => i32 (degree / 2)
  end.
(** See spline_builder_closures.hpp:43-55. *)
Definition is_greville (c : closure) : bool := match c with GREVILLE => true | _ => false end.

Section Points.
Context (A : arith).
Notation num := (num A).
Open Scope num_scope.
Open Scope Z_scope.

(** ** greville_interpolation_points.hpp *)
(** greville_interpolation_points.hpp:134-136 *)
Definition n_be (lower upper : closure) (degree : Z) : Z :=
  u64_add (u64 (n_boundary_equations lower degree)) (u64 (n_boundary_equations upper degree)).
(** greville_interpolation_points.hpp:137-139: whether the points form a uniform sampling. *)
Definition is_uniform_points (lower upper : closure) (degree : Z) (periodic : bool) : bool :=
  (negb (n_boundary_equations lower degree =? 0) && negb (n_boundary_equations upper degree =? 0)) || periodic.
(** greville_interpolation_points.hpp:52-55 *)
Definition ug_shift (degree : Z) : num := if degree mod 2 =? 0 then (nofz A 1 / nofz A 2)%N_ else nofz A 0.
(** See greville_interpolation_points.hpp:52-55. *)
Definition ug_dx (s : u_bsplines A) : num := ((ub_rmax A s - ub_rmin A s) / nofz A (ub_ncells A s))%N_.
(** greville_interpolation_points.hpp:56-60 *)
Definition ug_sampling (s : u_bsplines A) : res (uniform_sampling A) :=
  us_construct A (ub_rmin A s + ug_shift (ub_degree A s) * ug_dx s)%N_ (ug_dx s).
(** greville_interpolation_points.hpp:62-67: the same points for a sampling that is not uniform; [npoints] is [nbasis() - N_BE]. *)
Definition ug_grid (s : u_bsplines A) (npoints : Z) : res (option (non_uniform_sampling A)) :=
  points <- for_range 0 npoints (fun i points =>
    aset points i (ub_rmin A s + (ug_shift (ub_degree A s) + nofz A i) * ug_dx s)%N_) (mk_arr npoints (fun _ => nofz A 0)) ;;
  Ok (ns_construct A (arr_list points)).
(** greville_interpolation_points.hpp:185-198, 221-234: the average of the repeated end point and of [i] knots from [first]; [position] is
    where the sum is accumulated. *)
Definition ug_edge (s : u_bsplines A) (bound : num) (i first position : Z) (points : arr num) : res (arr num) :=
  points <- aset points position (nofz A (u64_sub (ub_degree A s) i) * bound)%N_ ;;
  points <- for_range first (first + i) (fun ik points =>
    v <- aget points position ;; aset points position (v + ub_coord A s ik)%N_) points ;;
  v <- aget points position ;;
  aset points position (v / nofz A (ub_degree A s))%N_.
(** greville_interpolation_points.hpp:173-242; [None] is the exception of the sampling. *)
Definition ug_points (lower upper : closure) (s : u_bsplines A) : res (option (non_uniform_sampling A)) :=
  let degree := ub_degree A s in
  points_wo_bcs <- ug_sampling s ;;
  let n_break_points := u64_add (ub_ncells A s) 1 in
  assert_ ((n_be lower upper degree =? 0) || (n_be lower upper degree <=? ub_nbasis A s))
    (let npoints := u64_sub (ub_nbasis A s) (n_be lower upper degree) in
     let points := mk_arr npoints (fun _ => nofz A 0) in
     points <- (if is_greville lower then
                  for_range 0 (degree / 2 + 1) (fun i points =>
                    ug_edge s (ub_rmin A s) i (u64_sub (ub_last_support_knot A s i) i) i points) points
                else aset points 0 (us_coordinate A points_wo_bcs 0)) ;;
     let n_start := if is_greville lower then degree / 2 + 1 else 1 in
     let domain_size := u64_sub n_break_points 2 in
     points <- for_range 1 (1 + domain_size) (fun ip points =>
       aset points (u64_add (u64 (elem_minus ip 1)) n_start) (us_coordinate A points_wo_bcs ip)) points ;;
     points <- (if is_greville upper then
                  for_range 0 (degree / 2 + 1) (fun i points =>
                    ug_edge s (ub_rmax A s) i (u64_add (ub_first_support_knot A s (u64_sub (u64_sub (ub_nbasis A s) 1) i)) 1)
                      (u64_sub (u64_sub npoints 1) i) points) points
                else aset points (u64_sub npoints 1)
                       (us_coordinate A points_wo_bcs (u64_add (u64_sub (ub_ncells A s) 1) (degree mod 2)))) ;;
     Ok (ns_construct A (arr_list points))).

(** greville_interpolation_points.hpp:71-132 for B-splines of knots [nb_coord s]. *)
(** greville_interpolation_points.hpp:96-103: the average of [degree] knots. *)
Definition ng_average (s : n_bsplines A) (ib : Z) (points : arr num) : res (arr num) :=
  let degree := nb_degree A s in
  points <- aset points ib (nofz A 0) ;;
  let first := u64_add (nb_first_support_knot ib) 1 in
  points <- for_range first (first + degree) (fun ik points =>
    v <- aget points ib ;; c <- nb_coord A s ik ;; aset points ib (v + c)%N_) points ;;
  v <- aget points ib ;;
  aset points ib (v / nofz A degree)%N_.
(** greville_interpolation_points.hpp:108-116: the state is [temp_knots] and [npoints]; at most [degree] iterations satisfy the assertion. *)
Definition ng_shift_loop (s : n_bsplines A) (rmin length : num) (points : arr num) : res (option (arr num * Z)) :=
  while_ (Z.to_nat (nb_degree A s) + 1)
    (fun st => v <- aget points (snd st) ;; Ok (nltb A v rmin))
    (fun st => assert_ (snd st <? nb_degree A s)
       (v <- aget points (snd st) ;; t <- aset (fst st) (snd st) (v + length)%N_ ;; Ok (t, snd st + 1)))
    (mk_arr (nb_degree A s) (fun _ => nofz A 0), 0).
(** greville_interpolation_points.hpp:107-129; [length()] is [rmax() - rmin()] (bsplines_non_uniform.hpp:306-309). *)
Definition ng_periodic (s : n_bsplines A) (points : arr num) : res (arr num) :=
  rmin <- nb_rmin A s ;;
  rmax <- nb_rmax A s ;;
  let length := (rmax - rmin)%N_ in
  let nbasis := nb_nbasis A s in
  r <- ng_shift_loop s rmin length points ;;
  match r with
  | None => Undef
  | Some (temp_knots, npoints) =>
      points <- for_range 0 (u64_sub nbasis npoints) (fun i points =>
        v <- aget points (i + npoints) ;; aset points i v) points ;;
      points <- for_range 0 npoints (fun i points =>
        v <- aget temp_knots i ;; aset points (u64_add (u64_sub nbasis npoints) i) v) points ;;
      v <- aget points 0 ;;
      aset points (a_len points - 1) (v + length)%N_
  end.
(** See greville_interpolation_points.hpp:107-129; bsplines_non_uniform.hpp:306-309. *)
Definition ng_points (s : n_bsplines A) : res (option (non_uniform_sampling A)) :=
  let n_greville_points := if nb_periodic A s then u64_add (nb_nbasis A s) 1 else nb_nbasis A s in
  points <- for_range 0 (nb_nbasis A s) (ng_average s) (mk_arr n_greville_points (fun _ => nofz A 0)) ;;
  points <- (if nb_periodic A s then ng_periodic s points else Ok points) ;;
  Ok (ns_construct A (arr_list points)).
(** greville_interpolation_points.hpp:244-267: some points near the ends are left out. [q] is the tag of the intermediate sampling. *)
Definition ng_points_with_bcs (q : tag) (lower upper : closure) (s : n_bsplines A) : res (option (non_uniform_sampling A)) :=
  let degree := nb_degree A s in
  if n_be lower upper degree =? 0 then ng_points s
  else
    p <- ng_points s ;;
    match p with
    | None => Ok None
    | Some points_wo_bcs =>
        let size := u64_sub (Z.of_nat (length (ns_points A points_wo_bcs))) (n_be lower upper degree) in
        let points := mk_arr size (fun _ => nofz A 0) in
        let domain_start := u64 (n_boundary_equations lower degree) in
        dom <- mk_domain [(q, domain_start)] [(q, i64 size)] ;;
        f <- front_of dom ;;
        v <- ns_coordinate A points_wo_bcs f ;;
        points <- aset points 0 v ;;
        inner <- remove_both dom [(q, 1)] [(q, 1)] ;;
        fi <- front_of inner ;;
        ni <- size_of inner ;;
        points <- for_range fi (fi + ni) (fun ip points =>
          v <- ns_coordinate A points_wo_bcs ip ;;
          aset points (elem_minus ip domain_start) v) points ;;
        v <- ns_coordinate A points_wo_bcs (u64_sub (u64_add domain_start size) 1) ;;
        points <- aset points (a_len points - 1) v ;;
        Ok (ns_construct A (arr_list points))
    end.
(** greville_interpolation_points.hpp:289-295: [npoints] is a [size_t] converted to [ptrdiff_t]; the domain starts at 0. *)
Definition greville_domain_size (lower upper : closure) (degree nbasis : Z) : Z :=
  i64 (u64_sub nbasis (n_be lower upper degree)).

(** ** knots_as_interpolation_points.hpp *)
(** knots_as_interpolation_points.hpp:53-58, uniform: the sampling of [Sampling::init]. *)
Definition uk_sampling (q : tag) (s : u_bsplines A) : res (uniform_sampling A) :=
  r <- us_init A q (ub_rmin A s) (ub_rmax A s) (i64 (u64_add (ub_ncells A s) 1)) ;; Ok (fst r).
(** knots_as_interpolation_points.hpp:60-69, not uniform; [host_for_each] over the break points. *)
Definition nk_points (s : n_bsplines A) : res (option (non_uniform_sampling A)) :=
  let front := nb_break_front A s in
  points <- for_range front (front + nb_break_size A s) (fun ik points =>
    v <- nb_coord A s ik ;; aset points (elem_minus ik front) v) (mk_arr (nb_break_size A s) (fun _ => nofz A 0)) ;;
  Ok (ns_construct A (arr_list points)).
(** knots_as_interpolation_points.hpp:85-91: an [int]. *)
Definition knots_domain_size (ncells : Z) (periodic : bool) : Z := i32 (u64_add ncells (if periodic then 0 else 1)).
End Points.
