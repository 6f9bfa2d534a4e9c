(** Model of examples/characteristics_advection.cpp without PERIODIC_DOMAIN, the variant that its line 17 offers ("Comment this to run
    non-periodic simulation"), over the arithmetic [A]: closures GREVILLE at both ends, value 0 outside of the interval in x.

    Simplifications: those of AdvectionModel. *)
From Verif Require Export AdvectionModel.

Section Open.
Context (A : arith).
Notation num := (num A).
Open Scope num_scope.
Open Scope Z_scope.
Context (s : bspline_space A) (m : scratch A) (X : solvers A) (bd : builder A) (nx ny : Z) (points : Z -> num).
(** characteristics_advection.cpp:258 with the closures of line 39: [spline_builder(coef, last_density)], one line after the other. *)
Definition open_build_lines (junk : Z -> Z -> num) (last : arr2 num) (coef : Z -> chunk_1d A) : res (Z -> chunk_1d A) :=
  for_range 0 ny (fun j coef =>
    c <- build A s GREVILLE GREVILLE X bd (junk j) (coef j) (mk_arr nx (a2_at last j)) None None ;;
    Ok (fun k => if k =? j then c else coef k)) coef.
(** characteristics_advection.cpp:251-259 with the extrapolation rule of line 40: the feet of the characteristics, and the values of the splines there. *)
Definition open_step (junk : Z -> Z -> num) (displacement : num) (last next : arr2 num) (coef : Z -> chunk_1d A) : res (arr2 num * (Z -> chunk_1d A)) :=
  let feet (_ i : Z) := (points i - displacement)%N_ in
  coef <- open_build_lines junk last coef ;;
  next <- evaluate A s m (null_rule A) (null_rule A) ny nx feet coef next ;;
  Ok (next, coef).
(** characteristics_advection.cpp:237-274: one iteration. *)
Definition open_iteration (xy : domain) (junk : Z -> Z -> Z -> num) (displacement : num) (time : Z -> num) (t_output_period : Z)
    (iter : Z) (st : advection_state A) : res (advection_state A) :=
  ' (next, coef) <- open_step (junk iter) displacement (v_last A st) (v_next A st) (v_coef A st) ;;
  if t_output_period <=? elem_minus iter (v_output A st) then
    l <- density_display A xy (time iter) next ;; Ok (mk_adv A next (v_last A st) coef iter (v_lines A st ++ [l]))
  else Ok (mk_adv A next (v_last A st) coef (v_output A st) (v_lines A st)).
End Open.

(** characteristics_advection.cpp:99-282 [main].  Result: what is displayed, or [None] for the exception of a sampling whose points
    are not in increasing order (line 138).  The coordinates of the points in x, which the kernels read, are read once. *)
Definition open_main (A : arith) (ceil exp : num A -> num A) (solver : spline_solver) (X : solvers A) (degree : Z)
    (x_start x_end : num A) (nb_x_points : Z) (vx : num A) (y_start y_end : num A) (nb_y_points : Z) (start_time end_time : num A) (t_output_period : Z) (max_dt : num A)
    (m : scratch A) (junk_next junk_coef : Z -> Z -> num A) (junk : Z -> Z -> Z -> num A) : res (option (list (display_line A))) :=
  s <- ub_construct A hx degree false x_start x_end nb_x_points ;;
  p <- ug_points A GREVILLE GREVILLE s ;;
  match p with
  | None => Ok None
  | Some u =>
      let nx := greville_domain_size GREVILLE GREVILLE degree (ub_nbasis A s) in
      x_domain <- mk_domain [(hx, 0)] [(hx, nx)] ;;
      ' (sy, y_domain) <- us_init A hy y_start y_end nb_y_points ;;
      ' (times, time_domain) <- time_steps A ceil start_time end_time max_dt ;;
      xy <- dom_merge [hx; hy] [x_domain; y_domain] ;;
      let ny := nb_y_points in
      xs <- map_res (ns_coordinate A u) (zrange nx) ;;
      let points i := nth (Z.to_nat i) xs (nofz A 0) in
      let last := mk_arr2 ny nx (fun j i => initial_density A exp (points i) (us_coordinate A sy j)) in
      first <- one_elem (front time_domain) ;;
      l <- density_display A xy (us_coordinate A times first) last ;;
      bd <- builder_construct A (Uniform s) m solver GREVILLE GREVILLE 0 nx (ns_coordinate A u) ;;
      let coef j := mk_chunk_1d A 0 (mk_arr (ub_size A s) (junk_coef j)) in
      steps <- remove_first time_domain [(ht, 1)] ;;
      b <- one_elem (dom_begin steps) ;; e <- one_elem (dom_end steps) ;;
      st <- for_range b e (open_iteration A (Uniform s) m X bd nx ny points xy junk (vx * us_step A times)%N_ (us_coordinate A times) t_output_period)
              (mk_adv A last (mk_arr2 ny nx junk_next) coef first [l]) ;;
      last_iter <- one_elem (back time_domain) ;;
      if v_output A st <? last_iter then
        l <- density_display A xy (us_coordinate A times last_iter) (v_last A st) ;; Ok (Some (v_lines A st ++ [l]))
      else Ok (Some (v_lines A st))
  end.
