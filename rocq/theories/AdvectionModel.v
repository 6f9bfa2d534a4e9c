(** Model of examples/characteristics_advection.cpp, with PERIODIC_DOMAIN defined, over the arithmetic [A].

    Simplifications.
    - The constants of the parameters (degree, solver, end points, numbers of points, velocity, times, output period) are arguments.
    - A density is the array of its values, [density(j, i)] at the point [i] in x and [j] in y, instead of a chunk in memory: each
      kernel of the program writes each of its elements once and reads none of them (C18, C19 for kernels in memory; C61 and C62 for
      whole programs).  The copies to the host before each output are left out.
    - The builder treats each line in x on its own (BuilderModel); here they are built one after the other. *)
From Verif Require Export HeatModel BuilderModel.

Section Advection.
Context (A : arith).
Notation num := (num A).
Open Scope num_scope.
Open Scope Z_scope.

(** characteristics_advection.cpp:177-188: the initial density at the point (x, y); [exp] is Kokkos::exp, 0.1 is 1 / 10. *)
Definition initial_density (exp : num -> num) (x y : num) : num :=
  (lit_hot A * exp ((- (x * x + y * y)) / (nofz A 1 / nofz A 10) / nofz A 2))%N_.

(** characteristics_advection.cpp:82-95 [display], for a density on the domain [xy]. *)
Definition density_display (xy : domain) (time : num) (density : arr2 num) : res (display_line A) :=
  sum <- rbind (host_transform_reduce xy (Ok (nofz A 0)) (fun a b => x <- a ;; y <- b ;; Ok (x + y)%N_)
                  (fun e => i <- get hx e ;; j <- get hy e ;; aget2 density j i)) (fun r => r) ;;
  let mean_density := (sum / nofz A (dom_size xy))%N_ in
  domain_y <- dom_select [hy] xy ;;
  let yslice := dom_size domain_y / 2 in
  domain_x <- dom_select [hx] xy ;;
  l <- map_res (fun i => aget2 density yslice i) (zrange (dom_size domain_x)) ;;
  Ok (mk_line A time mean_density yslice l).

Context (s : bspline_space A) (m : scratch A) (X : solvers A) (bd : builder A) (nx ny : Z) (points : Z -> num).
(** characteristics_advection.cpp:258: [spline_builder(coef, last_density)], one line after the other. *)
Definition build_lines (junk : Z -> Z -> num) (last : arr2 num) (coef : Z -> chunk_1d A) : res (Z -> chunk_1d A) :=
  for_range 0 ny (fun j coef =>
    c <- build A s PERIODIC PERIODIC X bd (junk j) (coef j) (mk_arr nx (a2_at last j)) None None ;;
    Ok (fun k => if k =? j then c else coef k)) coef.
(** characteristics_advection.cpp:251-259: the feet of the characteristics, and the values of the splines there. *)
Definition advection_step (junk : Z -> Z -> num) (displacement : num) (last next : arr2 num) (coef : Z -> chunk_1d A) : res (arr2 num * (Z -> chunk_1d A)) :=
  let feet (_ i : Z) := (points i - displacement)%N_ in
  coef <- build_lines junk last coef ;;
  next <- evaluate A s m (periodic_rule A) (periodic_rule A) ny nx feet coef next ;;
  Ok (next, coef).
(** The state of the loop in time: [last_density], [next_density], [coef], [last_output], and what was displayed. *)
Record advection_state := mk_adv { v_last : arr2 num; v_next : arr2 num; v_coef : Z -> chunk_1d A; v_output : Z; v_lines : list (display_line A) }.
(** characteristics_advection.cpp:237-274: one iteration. *)
Definition advection_iteration (xy : domain) (junk : Z -> Z -> Z -> num) (displacement : num) (time : Z -> num) (t_output_period : Z)
    (iter : Z) (st : advection_state) : res advection_state :=
  ' (next, coef) <- advection_step (junk iter) displacement (v_last st) (v_next st) (v_coef st) ;;
  if t_output_period <=? elem_minus iter (v_output st) then
    l <- density_display xy (time iter) next ;; Ok (mk_adv next (v_last st) coef iter (v_lines st ++ [l]))
  else Ok (mk_adv next (v_last st) coef (v_output st) (v_lines st)).
End Advection.

(** characteristics_advection.cpp:99-282 [main].  [junk_next], [junk_coef] are the contents of the allocations and [junk] that of the
    temporary storage of the builder.  Result: what is displayed. *)
Definition advection_main (A : arith) (ceil exp : num A -> num A) (solver : spline_solver) (X : solvers A) (degree : Z)
    (x_start x_end : num A) (nb_x_points : Z) (vx : num A) (y_start y_end : num A) (nb_y_points : Z) (start_time end_time : num A) (t_output_period : Z) (max_dt : num A)
    (m : scratch A) (junk_next junk_coef : Z -> Z -> num A) (junk : Z -> Z -> Z -> num A) : res (list (display_line A)) :=
  s <- ub_construct A hx degree true x_start x_end nb_x_points ;;
  u <- ug_sampling A s ;;
  let nx := greville_domain_size PERIODIC PERIODIC degree (ub_nbasis A s) in
  x_domain <- mk_domain [(hx, 0)] [(hx, nx)] ;;
  ' (sy, y_domain) <- us_init A hy y_start y_end nb_y_points ;;
  ' (times, time_domain) <- time_steps A ceil start_time end_time max_dt ;;
  xy <- dom_merge [hx; hy] [x_domain; y_domain] ;;
  let ny := nb_y_points in
  let last := mk_arr2 ny nx (fun j i => initial_density A exp (us_coordinate A u i) (us_coordinate A sy j)) in
  first <- one_elem (front time_domain) ;;
  l <- density_display A xy (us_coordinate A times first) last ;;
  bd <- builder_construct A (Uniform s) m solver PERIODIC PERIODIC 0 nx (us_coord A u) ;;
  let coef j := mk_chunk_1d A 0 (mk_arr (ub_size A s) (junk_coef j)) in
  steps <- remove_first time_domain [(ht, 1)] ;;
  b <- one_elem (dom_begin steps) ;; e <- one_elem (dom_end steps) ;;
  st <- for_range b e (advection_iteration A (Uniform s) m X bd nx ny (us_coordinate A u) xy junk (vx * us_step A times)%N_ (us_coordinate A times) t_output_period)
          (mk_adv A last (mk_arr2 ny nx junk_next) coef first [l]) ;;
  last_iter <- one_elem (back time_domain) ;;
  if v_output A st <? last_iter then
    l <- density_display A xy (us_coordinate A times last_iter) (v_last A st) ;; Ok (v_lines A st ++ [l])
  else Ok (v_lines A st).
