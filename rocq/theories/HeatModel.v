(** Model of examples/uniform_heat_equation.cpp, examples/heat_equation.cpp and
    examples/non_uniform_heat_equation.cpp.  The constants of the parameters (end points, numbers of points,
    coefficients, times, output period) are arguments. *)
From Verif Require Export ProgramModel SamplingModel.

(** uniform_heat_equation.cpp:19-46, heat_equation.cpp:22-53, non_uniform_heat_equation.cpp:93-119: the dimensions. *)
Definition hx : tag := 1%nat.
(** See uniform_heat_equation.cpp:19-46. *)
Definition hy : tag := 2%nat.
(** See uniform_heat_equation.cpp:19-46. *)
Definition ht : tag := 3%nat.

Section Heat.
Context (A : arith).
Notation num := (num A).
Open Scope num_scope.
Open Scope Z_scope.

(** The literals 0.5, 2.0, 0.2, 0.25 and 9.999 of the programs. *)
Definition lit_half : num := (nofz A 1 / nofz A 2)%N_.
(** See [lit_half]. *)
Definition lit_two : num := nofz A 2.
(** See [lit_half]. *)
Definition lit_fifth : num := (nofz A 1 / nofz A 5)%N_.
(** See [lit_half]. *)
Definition lit_quarter : num := (nofz A 1 / nofz A 4)%N_.
(** See [lit_half]. *)
Definition lit_hot : num := (nofz A 9999 / nofz A 1000)%N_.

(** What [display] prints (uniform_heat_equation.cpp:56-69, heat_equation.cpp:64-80): the time, the mean, the index of
    the slice, and the values of the slice. *)
Record display_line := mk_line { l_time : num; l_mean : num; l_slice : Z; l_values : list num }.
(** uniform_heat_equation.cpp:56-69, heat_equation.cpp:64-80, non_uniform_heat_equation.cpp:129-142: [display]. *)
Definition display (m : memory num) (time : num) (temp : span) : res display_line :=
  sum <- rbind (host_transform_reduce (s_dom temp) (Ok (nofz A 0)) (fun a b => x <- a ;; y <- b ;; Ok (x + y)%N_)
                  (fun e => span_read m temp [e])) (fun r => r) ;;
  let mean_temp := (sum / nofz A (dom_size (s_dom temp)))%N_ in
  domain_y <- dom_select [hy] (s_dom temp) ;;
  let slice_id := dom_size domain_y / 2 in
  row <- span_slice_vec temp [(hy, slice_id)] ;;
  l <- contents m row ;;
  Ok (mk_line time mean_temp slice_id l).

(** uniform_heat_equation.cpp:111-114, 127-131 and the same statements of the two other programs: the domains whose
    values are copied to the ghosts before and after the domain. *)
Definition mirrors (g : ghosted) : res (domain * domain) :=
  ex <- extents (g_main g) ;;
  post_ext <- extents (g_post g) ;; post_front <- elem_sub_vect (front (g_post g)) ex ;;
  post_mirror <- mk_domain post_front post_ext ;;
  pre_ext <- extents (g_pre g) ;; pre_front <- elem_add (front (g_pre g)) ex ;;
  pre_mirror <- mk_domain pre_front pre_ext ;;
  Ok (pre_mirror, post_mirror).

(** uniform_heat_equation.cpp:201-210, heat_equation.cpp:249-258: one of the first two loops of the boundary conditions. *)
Definition copy_ghosts_x (temp : span) (ghost mirror y_domain : domain) (gb : nat -> list Z) (s : machine num) : res (machine num) :=
  n <- rbind (extents ghost) (get hx) ;;
  for_range 0 n (fun ix s =>
    e <- dom_at ghost [(hx, ix)] ;; e' <- dom_at mirror [(hx, ix)] ;;
    dst <- run_slices temp [SElem e; SDom y_domain] ;; src <- run_slices temp [SElem e'; SDom y_domain] ;;
    launch (parallel_deepcopy dst src (gb 2%nat) (gb 2%nat)) s) s.
(** uniform_heat_equation.cpp:211-220, heat_equation.cpp:259-268: one of the last two loops of the boundary conditions. *)
Definition copy_ghosts_y (temp : span) (ghost mirror x_domain : domain) (gb : nat -> list Z) (s : machine num) : res (machine num) :=
  n <- rbind (extents ghost) (get hy) ;;
  for_range 0 n (fun iy s =>
    e <- dom_at ghost [(hy, iy)] ;; e' <- dom_at mirror [(hy, iy)] ;;
    dst <- run_slices temp [SDom x_domain; SElem e] ;; src <- run_slices temp [SDom x_domain; SElem e'] ;;
    launch (parallel_deepcopy dst src (gb 2%nat) (gb 2%nat)) s) s.
(** uniform_heat_equation.cpp:201-220, heat_equation.cpp:249-268, non_uniform_heat_equation.cpp:290-309: the boundary conditions. *)
Definition boundary_conditions (temp : span) (gx gy : ghosted) (mx my : domain * domain) (gb : nat -> list Z) (s : machine num) : res (machine num) :=
  s1 <- copy_ghosts_x temp (g_pre gx) (fst mx) (g_main gy) gb s ;;
  s2 <- copy_ghosts_x temp (g_post gx) (snd mx) (g_main gy) gb s1 ;;
  s3 <- copy_ghosts_y temp (g_pre gy) (fst my) (g_main gx) gb s2 ;;
  copy_ghosts_y temp (g_post gy) (snd my) (g_main gx) gb s3.

(** uniform_heat_equation.cpp:170-176, heat_equation.cpp:224-230, non_uniform_heat_equation.cpp:259-265: the functor of the initial condition. *)
Definition initial_call (temp : span) (cx cy : Z -> res num) (ixy : tagged) : res (prog num) :=
  ix <- select [hx] ixy ;; i <- one_elem ix ;; x <- cx i ;;
  iy <- select [hy] ixy ;; j <- one_elem iy ;; y <- cy j ;;
  a <- span_access temp [ixy] ;;
  Ok (PWrite a (lit_hot * (if nltb A (x * x + y * y)%N_ lit_quarter then nofz A 1 else nofz A 0))%N_ PRet).

(** uniform_heat_equation.cpp:238-246: what one dimension adds to [next_temp]; [p], [c], [m] are the values after, at
    and before the point. *)
Definition increment_uniform (k dt inv p c m : num) : num := (k * dt * (p - lit_two * c + m) * inv)%N_.
(** heat_equation.cpp:287-303, non_uniform_heat_equation.cpp:324-340: the same with the distances to the left and to the right. *)
Definition increment_distances (k dt l r p c m : num) : num :=
  let mid := (lit_half * (l + r))%N_ in (k * dt * (l * p - lit_two * mid * c + r * m) / (l * mid * r))%N_.
(** uniform_heat_equation.cpp:231-247, heat_equation.cpp:282-304, non_uniform_heat_equation.cpp:319-341: the functor of
    the scheme, for the two increments.  The right operand of [+=] is evaluated first. *)
Definition stencil_call (last next : span) (inc_x inc_y : Z -> res (num -> num -> num -> num)) (ixy : tagged) : res (prog num) :=
  ix <- select [hx] ixy ;; iy <- select [hy] ixy ;;
  i <- one_elem ix ;; j <- one_elem iy ;; fx <- inc_x i ;; fy <- inc_y j ;;
  n <- span_access next [ix; iy] ;; c <- span_access last [ix; iy] ;;
  ix_p <- elem_add ix [(hx, 1)] ;; ix_m <- elem_sub_vect ix [(hx, 1)] ;;
  iy_p <- elem_add iy [(hy, 1)] ;; iy_m <- elem_sub_vect iy [(hy, 1)] ;;
  xp <- span_access last [ix_p; iy] ;; xm <- span_access last [ix_m; iy] ;;
  yp <- span_access last [ix; iy_p] ;; ym <- span_access last [ix; iy_m] ;;
  Ok (PRead c (fun v => PWrite n v
     (PRead xp (fun p => PRead c (fun v => PRead xm (fun m => PRead n (fun w => PWrite n (w + fx p v m)%N_
     (PRead yp (fun p => PRead c (fun v => PRead ym (fun m => PRead n (fun w => PWrite n (w + fy p v m)%N_ PRet)))))))))))).

(** The state of the loop in time: the memory, [ghosted_last_temp], [ghosted_next_temp], [last_output_iter], and what
    was displayed. *)
Record heat_state := mk_heat { h_machine : machine num; h_last : span; h_next : span; h_output : Z; h_lines : list display_line }.
(** uniform_heat_equation.cpp:196-262, heat_equation.cpp:244-319, non_uniform_heat_equation.cpp:285-356: one iteration.
    [view] are the subdomains given to [operator[]]. *)
Definition heat_iteration (gx gy : ghosted) (mx my : domain * domain) (view : list slice) (inc_x inc_y : Z -> res (num -> num -> num -> num))
    (time : Z -> num) (t_output_period : Z) (host : span) (gb : nat -> list Z) (iter : Z) (st : heat_state) : res heat_state :=
  s1 <- boundary_conditions (h_last st) gx gy mx my gb (h_machine st) ;;
  next_temp <- run_slices (h_next st) view ;;
  s2 <- launch (parallel_for_each (s_dom next_temp) (stencil_call (h_last st) next_temp inc_x inc_y)) s1 ;;
  if t_output_period <=? elem_minus iter (h_output st) then
    s3 <- launch (parallel_deepcopy host (h_next st) (gb 4%nat) (gb 4%nat)) s2 ;;
    temp <- run_slices host view ;; l <- display (p_mem s3) (time iter) temp ;;
    Ok (mk_heat s3 (h_next st) (h_last st) iter (h_lines st ++ [l]))
  else Ok (mk_heat s2 (h_next st) (h_last st) (h_output st) (h_lines st)).

(** External: conversion of a [double] to [ptrdiff_t]; undefined out of range. *)
Definition to_ptrdiff (x : num) : res Z := let z := ntrunc A x in if is_i64b z then Ok z else Undef.
(** uniform_heat_equation.cpp:144-150, heat_equation.cpp:190-200, non_uniform_heat_equation.cpp:232-239: the time steps.  [ceil] is std::ceil. *)
Definition time_steps (ceil : num -> num) (start_time end_time dt : num) : res (uniform_sampling A * domain) :=
  nb_time_steps <- to_ptrdiff (ceil ((end_time - start_time) / dt) + lit_fifth)%N_ ;;
  n <- sadd nb_time_steps 1 ;; us_init A ht start_time end_time n.

(** The addresses of the three allocations: [ghosted_last_temp], [ghosted_next_temp], [ghosted_temp]. *)
Record heat_memory := mk_hm { p_last : Z; p_next : Z; p_temp : Z }.
(** uniform_heat_equation.cpp:111-114, 127-131, 144-271, heat_equation.cpp:138-166, 190-327, non_uniform_heat_equation.cpp:185-209, 232-365: the domains of
    the mirrors, and everything from the number of time steps on.  [inc_x] and [inc_y] are given the time step.  The range-based for on the domain of times
    is a loop on its elements (C08).  Result: what is displayed. *)
Definition heat_simulate (ceil : num -> num) (start_time end_time dt : num) (t_output_period : Z) (gx gy : ghosted)
    (cx cy : Z -> res num) (inc_x inc_y : num -> Z -> res (num -> num -> num -> num)) (view : domain -> domain -> res (list slice))
    (hm : heat_memory) (gb : nat -> list Z) (s : machine num) : res (machine num * list display_line) :=
  mx <- mirrors gx ;; my <- mirrors gy ;;
  ' (times, time_domain) <- time_steps ceil start_time end_time dt ;;
  all_xy <- dom_merge [hx; hy] [g_all gx; g_all gy] ;; main_xy <- dom_merge [hx; hy] [g_main gx; g_main gy] ;;
  last <- span_of_ptr LRight (p_last hm) all_xy ;; next <- span_of_ptr LRight (p_next hm) all_xy ;;
  s1 <- launch (parallel_for_each main_xy (initial_call last cx cy)) s ;;
  host <- create_mirror last (p_temp hm) ;;
  s2 <- launch (parallel_deepcopy host last (gb 4%nat) (gb 4%nat)) s1 ;;
  temp <- run_slices host [SDom (g_main gx); SDom (g_main gy)] ;;
  first <- one_elem (front time_domain) ;;
  l <- display (p_mem s2) (us_coordinate A times first) temp ;;
  v <- view (g_main gx) (g_main gy) ;;
  steps <- remove_first time_domain [(ht, 1)] ;;
  b <- one_elem (dom_begin steps) ;; e <- one_elem (dom_end steps) ;;
  st <- for_range b e (heat_iteration gx gy mx my v (inc_x (us_step A times)) (inc_y (us_step A times))
          (us_coordinate A times) t_output_period host gb) (mk_heat s2 last next first [l]) ;;
  last_iter <- one_elem (back time_domain) ;;
  if h_output st <? last_iter then
    s3 <- launch (parallel_deepcopy host (h_last st) (gb 4%nat) (gb 4%nat)) (h_machine st) ;;
    temp <- run_slices host v ;; l <- display (p_mem s3) (us_coordinate A times last_iter) temp ;;
    Ok (s3, h_lines st ++ [l])
  else Ok (h_machine st, h_lines st).

(** uniform_heat_equation.cpp:224-225, 254-255, 267-268: [DiscreteDomain<DDimX, DDimY>(x_domain, y_domain)]. *)
Definition view_at_once (x y : domain) : res (list slice) := xy <- dom_merge [hx; hy] [x; y] ;; Ok [SDom xy].
(** heat_equation.cpp:274, 311, 324: [[x_domain][y_domain]]. *)
Definition view_in_turn (x y : domain) : res (list slice) := Ok [SDom x; SDom y].

(** uniform_heat_equation.cpp:72-271 [main]. *)
Definition uniform_heat_main (ceil : num -> num) (x_start x_end : num) (nb_x_points : Z) (kx : num) (y_start y_end : num) (nb_y_points : Z) (ky : num)
    (start_time end_time : num) (t_output_period : Z) (hm : heat_memory) (gb : nat -> list Z) (s : machine num) : res (machine num * list display_line) :=
  ' (sx, gx) <- us_init_ghosted_sym A hx x_start x_end nb_x_points 1 ;;
  ' (sy, gy) <- us_init_ghosted_sym A hy y_start y_end nb_y_points 1 ;;
  let dx := us_step A sx in let dy := us_step A sy in
  let invdx2 := (nofz A 1 / (dx * dx))%N_ in let invdy2 := (nofz A 1 / (dy * dy))%N_ in
  let dt := (lit_half / (kx * invdx2 + ky * invdy2))%N_ in
  heat_simulate ceil start_time end_time dt t_output_period gx gy (us_coord A sx) (us_coord A sy)
    (fun step _ => Ok (increment_uniform kx step invdx2)) (fun step _ => Ok (increment_uniform ky step invdy2)) view_at_once hm gb s.

(** reducer.hpp:109-119 [max<double>], and heat_equation.cpp:171-185, non_uniform_heat_equation.cpp:212-226: the largest
    of 1 / (distance at left * distance at right). *)
Definition inverse_max (d : domain) (left right : Z -> res num) : res num :=
  rbind (host_transform_reduce d (Ok (nofz A 0)) (fun a b => x <- a ;; y <- b ;; Ok (if nltb A y x then x else y))
    (fun e => i <- one_elem e ;; l <- left i ;; r <- right i ;; Ok (nofz A 1 / (l * r))%N_)) (fun r => r).
(** heat_equation.cpp:287-303: the increment at a point. *)
Definition increment_at (k : num) (left right : Z -> res num) (step : num) (i : Z) : res (num -> num -> num -> num) :=
  l <- left i ;; r <- right i ;; Ok (increment_distances k step l r).
(** heat_equation.cpp:171-186, non_uniform_heat_equation.cpp:212-228, and the rest of the two programs. *)
Definition heat_with_distances (ceil : num -> num) (kx ky start_time end_time : num) (t_output_period : Z) (gx gy : ghosted)
    (cx lx rx cy ly ry : Z -> res num) (view : domain -> domain -> res (list slice)) (hm : heat_memory) (gb : nat -> list Z) (s : machine num)
    : res (machine num * list display_line) :=
  invdx2_max <- inverse_max (g_main gx) lx rx ;; invdy2_max <- inverse_max (g_main gy) ly ry ;;
  let max_dt := (lit_half / (kx * invdx2_max + ky * invdy2_max))%N_ in
  heat_simulate ceil start_time end_time max_dt t_output_period gx gy cx cy (increment_at kx lx rx) (increment_at ky ly ry) view hm gb s.
(** heat_equation.cpp:85-327 [main]. *)
Definition heat_main (ceil : num -> num) (x_start x_end : num) (nb_x_points : Z) (kx : num) (y_start y_end : num) (nb_y_points : Z) (ky : num)
    (start_time end_time : num) (t_output_period : Z) (hm : heat_memory) (gb : nat -> list Z) (s : machine num) : res (machine num * list display_line) :=
  ' (sx, gx) <- us_init_ghosted_sym A hx x_start x_end nb_x_points 1 ;;
  ' (sy, gy) <- us_init_ghosted_sym A hy y_start y_end nb_y_points 1 ;;
  heat_with_distances ceil kx ky start_time end_time t_output_period gx gy
    (us_coord A sx) (fun i => Ok (us_distance_at_left A sx i)) (fun i => Ok (us_distance_at_right A sx i))
    (us_coord A sy) (fun i => Ok (us_distance_at_left A sy i)) (fun i => Ok (us_distance_at_right A sy i)) view_in_turn hm gb s.

(** non_uniform_heat_equation.cpp:56-72 [periodic_extrapolation_left], with asserts: the [gw] points before the last one,
    from the right to the left, moved by the period, are written from the right to the left. *)
Definition periodic_extrapolation_left (gw : nat) (points : list num) : res (list num) :=
  if Nat.ltb gw (length points) && is_sorted A points then
    match gw, points with
    | O, _ => Ok []
    | _, first :: _ =>
        let period := (last points first - first)%N_ in
        Ok (rev (map (fun pos => (pos - period)%N_) (firstn gw (tl (rev points)))))
    | _, [] => Undef
    end
  else Undef.
(** non_uniform_heat_equation.cpp:74-90 [periodic_extrapolation_right]. *)
Definition periodic_extrapolation_right (gw : nat) (points : list num) : res (list num) :=
  if Nat.ltb gw (length points) && is_sorted A points then
    match gw, points with
    | O, _ => Ok []
    | _, first :: _ =>
        let period := (last points first - first)%N_ in
        Ok (map (fun pos => (pos + period)%N_) (firstn gw (tl points)))
    | _, [] => Undef
    end
  else Undef.
(** non_uniform_heat_equation.cpp:145-365 [main], for any points instead of those of generate_random_vector.  An exception of
    the constructor of the sampling is [Rejected]. *)
Definition non_uniform_heat_main (ceil : num -> num) (x_points : list num) (kx : num) (y_points : list num) (ky : num)
    (start_time end_time : num) (t_output_period : Z) (hm : heat_memory) (gb : nat -> list Z) (s : machine num) : res (machine num * list display_line) :=
  x_pre <- periodic_extrapolation_left 1 x_points ;; x_post <- periodic_extrapolation_right 1 x_points ;;
  x <- ns_init_ghosted A hx x_points x_pre x_post ;;
  y_pre <- periodic_extrapolation_left 1 y_points ;; y_post <- periodic_extrapolation_right 1 y_points ;;
  y <- ns_init_ghosted A hy y_points y_pre y_post ;;
  match x, y with
  | Some (sx, gx), Some (sy, gy) =>
      heat_with_distances ceil kx ky start_time end_time t_output_period gx gy
        (ns_coordinate A sx) (ns_distance_at_left A sx) (ns_distance_at_right A sx)
        (ns_coordinate A sy) (ns_distance_at_left A sy) (ns_distance_at_right A sy) view_at_once hm gb s
  | _, _ => Rejected
  end.
End Heat.
