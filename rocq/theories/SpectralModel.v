(** Model of examples/heat_equation_spectral.cpp, over the real numbers.

    Simplifications.
    - The constants of the parameters (end points, numbers of points, coefficients, times, output period) are arguments.
    - A temperature or a spectrum is a domain and its values (FFTModel), instead of a chunk in memory; each transform sets all the values
      of its result.  The copies to the host before each output are left out.
    - The transforms of Kokkos-FFT are arguments, as in FFTModel. *)
From Verif Require Export AdvectionModel FFTModel.
Local Open Scope Z_scope.

(** heat_equation_spectral.cpp:26-28 and 40-42: the two Fourier dimensions. *)
Definition hfx : tag := 4%nat.
(** See heat_equation_spectral.cpp:26-28, 40-42. *)
Definition hfy : tag := 5%nat.
(** See heat_equation_spectral.cpp:161-165: the Fourier dimension of a dimension. *)
Definition fourier_of_dim (q : tag) : tag := if Nat.eqb q hx then hfx else hfy.

(** heat_equation_spectral.cpp:57-71 [display]: the statements are those of characteristics_advection.cpp:82-95. *)
Definition spectral_display (xy : domain) (time : R) (temp : chunk_nd Real_) : res (display_line RA) :=
  match view_shape (nd_domain temp) with
  | [nx; ny] => density_display RA xy time (mk_arr2 ny nx (fun j i => nd_at temp [i; j] : num RA))
  | _ => Rejected
  end.

(** heat_equation_spectral.cpp:144-151: the initial temperature at the point (x, y). *)
Definition initial_temp (x y : R) : R := (9999 / 1000 * (if nltb RA (x * x + y * y) (1 / 4) then 1 else 0))%R.

Section Step.
Context (L : fft_library) (samplings : tag -> uniform_sampling RA) (fx fy : periodic_sampling RA) (kx ky dt : R).
(** heat_equation_spectral.cpp:185-190: the functor, at the element (p, q). *)
Definition damp_call (p q : Z) (Ff : list Z -> C) : res (list Z -> C) :=
  rkx <- ps_coordinate RA fx p ;; rky <- ps_coordinate RA fy q ;;
  let v := (Ff [p; q] * RtoC (1 - (kx * rkx * rkx + ky * rky * rky) * dt))%C in
  Ok (fun i => if list_eq_dec Z.eq_dec i [p; q] then v else Ff i).
(** heat_equation_spectral.cpp:182-191: [parallel_for_each]; each call changes its own element. *)
Definition damp (Ff : chunk_nd Complex_) : res (chunk_nd Complex_) :=
  match view_shape (nd_domain Ff) with
  | [n1; n2] =>
      v <- for_range 0 n1 (fun p v => for_range 0 n2 (fun q v => damp_call p q v) v) (nd_at Ff : list Z -> C) ;;
      Ok (mk_chunk_nd (t := Complex_) (nd_domain Ff) v)
  | _ => Rejected
  end.
(** heat_equation_spectral.cpp:179-192 *)
Definition spectral_iterate (k_mesh : domain) (last_temp : chunk_nd Real_) : res (chunk_nd Real_) :=
  Ff <- fft L samplings N_BACKWARD Real_ Complex_ last_temp k_mesh ;;
  Ff <- damp Ff ;;
  ifft L samplings N_BACKWARD Complex_ Real_ Ff (nd_domain last_temp).
(** The state of the loop in time: [_last_temp], [last_output], and what was displayed. *)
Record spectral_state := mk_spectral { f_last : chunk_nd Real_; f_output : Z; f_lines : list (display_line RA) }.
(** heat_equation_spectral.cpp:170-202: one iteration. *)
Definition spectral_iteration (xy k_mesh : domain) (time : Z -> R) (t_output_period : Z) (iter : Z) (st : spectral_state) : res spectral_state :=
  next_temp <- spectral_iterate k_mesh (f_last st) ;;
  if t_output_period <=? elem_minus iter (f_output st) then
    l <- spectral_display xy (time iter) next_temp ;; Ok (mk_spectral next_temp iter (f_lines st ++ [l]))
  else Ok (mk_spectral next_temp (f_output st) (f_lines st)).
End Step.

(** heat_equation_spectral.cpp:73-208 [main].  Result: what is displayed. *)
Definition spectral_main (L : fft_library) (ceil : R -> R) (x_start x_end : R) (nb_x_points : Z) (kx y_start y_end : R) (nb_y_points : Z) (ky start_time end_time : R)
    (t_output_period : Z) : res (list (display_line RA)) :=
  ' (sx, x_with_periodic_point) <- us_init RA hx x_start x_end nb_x_points ;;
  x_domain <- remove_last x_with_periodic_point [(hx, 1)] ;;
  ' (sy, y_with_periodic_point) <- us_init RA hy y_start y_end nb_y_points ;;
  y_domain <- remove_last y_with_periodic_point [(hy, 1)] ;;
  let max_rkx := (PI / us_step RA sx)%R in let max_rky := (PI / us_step RA sy)%R in
  let dt := (2 / (kx * max_rkx * max_rkx + ky * max_rky * max_rky))%R in
  ' (times, time_domain) <- time_steps RA ceil start_time end_time dt ;;
  xy <- dom_merge [hx; hy] [x_domain; y_domain] ;;
  let samplings q := if Nat.eqb q hx then sx else sy in
  let at_ (l : list Z) : R := match l with [i; j] => initial_temp (us_coordinate RA sx i) (us_coordinate RA sy j) | _ => 0%R end in
  let last := mk_chunk_nd (t := Real_) xy at_ in
  first <- one_elem (front time_domain) ;;
  l <- spectral_display xy (us_coordinate RA times first) last ;;
  px <- match x_domain with [p] => Ok p | _ => Rejected end ;;
  py <- match y_domain with [p] => Ok p | _ => Rejected end ;;
  fx <- init_fourier_space RA PI samplings hfx px ;;
  fy <- init_fourier_space RA PI samplings hfy py ;;
  k_mesh <- fourier_mesh fourier_of_dim xy false ;;
  steps <- remove_first time_domain [(ht, 1)] ;;
  b <- one_elem (dom_begin steps) ;; e <- one_elem (dom_end steps) ;;
  st <- for_range b e (spectral_iteration L samplings fx fy kx ky dt xy k_mesh (us_coordinate RA times) t_output_period) (mk_spectral last first [l]) ;;
  last_iter <- one_elem (back time_domain) ;;
  if f_output st <? last_iter then
    l <- spectral_display xy (us_coordinate RA times last_iter) (f_last st) ;; Ok (f_lines st ++ [l])
  else Ok (f_lines st).
