(** Property C62: the programs examples/uniform_heat_equation.cpp, examples/heat_equation.cpp and
    examples/non_uniform_heat_equation.cpp.
    [uniform_heat_main RA ceil x0 x1 nx kx y0 y1 ny ky t0 t1 period hm gb s] is the [main] of the first one over the
    reals, [heat_main] that of the second one, and [non_uniform_heat_main RA ceil xs kx ys ky ...] that of the third
    one with the points [xs] and [ys].  The constants of the programs are arguments.  [hm] are the addresses of the three
    allocations, [s] is the memory together with the interleavings of the calls of the successive kernels.  The
    result contains the lines printed by [display].  [heat_step] (the explicit scheme), [hot_disc], [heat_history],
    [fewest_steps], [step_bound], [heat_lines], [prints], [before], [after] are in HeatSpec. *)
From Coq Require Import ZArith List Lia Bool Reals Lra QArith Qround.
From Verif Require Import Machine ArithModel ProgramModel HeatModel HeatSpec HeatReals HeatPoints HeatAny HeatTheorems.
Import ListNotations.
Local Open Scope Z_scope.

(** * C62 *)
(** The two programs with evenly spaced points print the same lines: the time, the mean and the slice in the middle at
    the steps shown, of the temperature that starts with the disc and evolves by the scheme.  The steps are the
    fewest ones not longer than the bound 1 / (2 (kx / dx^2 + ky / dy^2)); nothing depends on what the memory
    contained nor on the interleaving, and nothing is undefined. *)
Theorem C62_evenly_spaced : forall nx ny gb hm ceil x0 x1 kx y0 y1 ky t0 t1 period,
  heat_sizes nx ny -> (forall n, length (gb n) = n) -> heat_allocations nx ny hm -> rounds_up ceil ->
  (x0 < x1)%R -> (y0 < y1)%R -> (0 < kx)%R -> (0 < ky)%R -> (t0 < t1)%R ->
  let dx := spacing x0 x1 nx in let dy := spacing y0 y1 ny in let bound := step_bound kx (1 / (dx * dx)) ky (1 / (dy * dy)) in
  ((t1 - t0) / bound <= IZR (2 ^ 61))%R -> 0 < period -> forall m,
  exists N T, fewest_steps t0 t1 bound N /\
    heat_history nx ny (evenly x0 x1 nx) (evenly y0 y1 ny) (fun _ => dx) (fun _ => dx) (fun _ => dy) (fun _ => dy) kx ky ((t1 - t0) / IZR N) T /\
    prints (fun ss => uniform_heat_main RA ceil x0 x1 nx kx y0 y1 ny ky t0 t1 period hm gb (mk_machine m ss)) (heat_lines nx ny t0 t1 period N T) /\
    prints (fun ss => heat_main RA ceil x0 x1 nx kx y0 y1 ny ky t0 t1 period hm gb (mk_machine m ss)) (heat_lines nx ny t0 t1 period N T).
Proof. exact even_run. Qed.
Print Assumptions C62_evenly_spaced.
(** The times printed go up from the start to the end, every value stays between 0 and 9.999, and the mean is always the same. *)
Theorem C62_evenly_spaced_output : forall ceil x0 x1 nx kx y0 y1 ny ky t0 t1 period hm gb m ss m' shown,
  heat_sizes nx ny -> (forall n, length (gb n) = n) -> heat_allocations nx ny hm -> rounds_up ceil ->
  (x0 < x1)%R -> (y0 < y1)%R -> (0 < kx)%R -> (0 < ky)%R -> (t0 < t1)%R -> 0 < period ->
  let dx := spacing x0 x1 nx in let dy := spacing y0 y1 ny in
  ((t1 - t0) / step_bound kx (1 / (dx * dx)) ky (1 / (dy * dy)) <= IZR (2 ^ 61))%R ->
  uniform_heat_main RA ceil x0 x1 nx kx y0 y1 ny ky t0 t1 period hm gb (mk_machine m ss) = Ok (m', shown) \/
  heat_main RA ceil x0 x1 nx kx y0 y1 ny ky t0 t1 period hm gb (mk_machine m ss) = Ok (m', shown) ->
  printed_times t0 t1 shown /\ printed_within 0 (9999 / 1000) shown /\ same_mean shown.
Proof. exact even_output. Qed.
Print Assumptions C62_evenly_spaced_output.
(** The same for the program with any increasing points: the distances around a point are those to its neighbours;
    before the first point and after the last one they are the last and the first one of the points. *)
Theorem C62_non_uniform : forall nx ny gb hm ceil X Y kx mx ky my t0 t1 period,
  heat_sizes nx ny -> (forall n, length (gb n) = n) -> heat_allocations nx ny hm -> rounds_up ceil ->
  rising nx X -> rising ny Y -> (0 < kx)%R -> (0 < ky)%R -> (t0 < t1)%R ->
  largest nx (fun i => 1 / (before nx X i * after nx X i))%R mx -> largest ny (fun j => 1 / (before ny Y j * after ny Y j))%R my ->
  ((t1 - t0) / step_bound kx mx ky my <= IZR (2 ^ 61))%R -> 0 < period -> forall m,
  exists N T, fewest_steps t0 t1 (step_bound kx mx ky my) N /\
    heat_history nx ny X Y (before nx X) (after nx X) (before ny Y) (after ny Y) kx ky ((t1 - t0) / IZR N) T /\
    prints (fun ss => non_uniform_heat_main RA ceil (map X (indices nx)) kx (map Y (indices ny)) ky t0 t1 period hm gb (mk_machine m ss))
      (heat_lines nx ny t0 t1 period N T).
Proof. exact non_uniform_run. Qed.
Print Assumptions C62_non_uniform.
(** Again the times go up from the start to the end and every value stays between 0 and 9.999. *)
Theorem C62_non_uniform_output : forall ceil nx X kx mx ny Y ky my t0 t1 period hm gb m ss m' shown,
  heat_sizes nx ny -> (forall n, length (gb n) = n) -> heat_allocations nx ny hm -> rounds_up ceil ->
  rising nx X -> rising ny Y -> (0 < kx)%R -> (0 < ky)%R -> (t0 < t1)%R -> 0 < period ->
  largest nx (fun i => 1 / (before nx X i * after nx X i))%R mx -> largest ny (fun j => 1 / (before ny Y j * after ny Y j))%R my ->
  ((t1 - t0) / step_bound kx mx ky my <= IZR (2 ^ 61))%R ->
  non_uniform_heat_main RA ceil (map X (indices nx)) kx (map Y (indices ny)) ky t0 t1 period hm gb (mk_machine m ss) = Ok (m', shown) ->
  printed_times t0 t1 shown /\ printed_within 0 (9999 / 1000) shown.
Proof. exact non_uniform_output. Qed.
Print Assumptions C62_non_uniform_output.
(** The heat of the temperatures of [C62_non_uniform] is conserved when the first and the last distance are equal. *)
Theorem C62_heat_conserved : forall nx ny X Y kx ky dt T, heat_sizes nx ny -> rising nx X -> rising ny Y ->
  (X 1%Z - X 0%Z = X (nx - 1)%Z - X (nx - 2)%Z)%R -> (Y 1%Z - Y 0%Z = Y (ny - 1)%Z - Y (ny - 2)%Z)%R ->
  let lx := before nx X in let rx := after nx X in let ly := before ny Y in let ry := after ny Y in
  heat_history nx ny X Y lx rx ly ry kx ky dt T -> forall k, heat nx ny lx rx ly ry (T k) = heat nx ny lx rx ly ry (T O).
Proof. exact points_conserved. Qed.
Print Assumptions C62_heat_conserved.
(** It is not for all points: with points at 0, 1, 3 it grows in the first step. *)
Theorem C62_heat_conserved_refuted : exists nx ny X Y, heat_sizes nx ny /\ rising nx X /\ rising ny Y /\
  let lx := before nx X in let rx := after nx X in let ly := before ny Y in let ry := after ny Y in
  forall kx ky dt T, (0 < kx)%R -> (0 < dt)%R -> heat_history nx ny X Y lx rx ly ry kx ky dt T ->
    (heat nx ny lx rx ly ry (T O) < heat nx ny lx rx ly ry (T 1%nat))%R.
Proof. exact points_not_conserved. Qed.
Print Assumptions C62_heat_conserved_refuted.
(** Whatever the arithmetic, binary64 included: what the two programs with evenly spaced points do depends neither on what
    the memory contained nor on the interleaving. *)
Theorem C62_any_arithmetic : forall A nx ny gb hm ceil x0 x1 kx y0 y1 ky t0 t1 period,
  heat_sizes nx ny -> (forall n, length (gb n) = n) -> heat_allocations nx ny hm -> 0 < period ->
  steady (uniform_heat_main A ceil x0 x1 nx kx y0 y1 ny ky t0 t1 period hm gb) /\
  steady (heat_main A ceil x0 x1 nx kx y0 y1 ny ky t0 t1 period hm gb).
Proof. exact programs_any. Qed.
Print Assumptions C62_any_arithmetic.
(** Hypotheses that are met, and the lines printed by the programs run over the rationals. *)
Example C62_ex : heat_sizes 3 3 /\ (forall n, length (repeat 7 n) = n) /\ heat_allocations 3 3 (mk_hm 100 200 300) /\ rounds_up up_ceil /\
  ((5 - 0) / step_bound (1 / 10) (1 / (spacing (-1) 1 3 * spacing (-1) 1 3)) (1 / 5) (1 / (spacing (-1) 1 3 * spacing (-1) 1 3)) <= IZR (2 ^ 61))%R /\
  rising 3 three /\ rising 3 IZR /\
  largest 3 (fun i => 1 / (before 3 three i * after 3 three i))%R (1 / 2) /\ largest 3 (fun j => 1 / (before 3 IZR j * after 3 IZR j))%R 1 /\
  ((1 - 0) / step_bound 1 (1 / 2) 1 1 <= IZR (2 ^ 61))%R /\
  let ss := repeat (concat (repeat (seq 0 36) 20)) 60 in
  let ceil (x : Q) : Q := inject_Z (Qceiling x) in
  let lines := [mk_line QA 0%Q (1111 # 1000)%Q 1 [0%Q; (9999 # 1000)%Q; 0%Q];
                mk_line QA (10 # 3)%Q (1111 # 1000)%Q 1 [(1111 # 4000)%Q; (1111 # 400)%Q; (1111 # 4000)%Q];
                mk_line QA 5%Q (1111 # 1000)%Q 1 [(9999 # 8000)%Q; (3333 # 4000)%Q; (9999 # 8000)%Q]] in
  rbind (uniform_heat_main QA ceil (-1 # 1)%Q 1%Q 3 (1 # 10)%Q (-1 # 1)%Q 1%Q 3 (1 # 5)%Q 0%Q 5%Q 2 (mk_hm 100 200 300) (repeat 7)
    (mk_machine (fun a => inject_Z a) ss)) (fun r => Ok (snd r)) = Ok lines /\
  rbind (heat_main QA ceil (-1 # 1)%Q 1%Q 3 (1 # 10)%Q (-1 # 1)%Q 1%Q 3 (1 # 5)%Q 0%Q 5%Q 2 (mk_hm 100 200 300) (repeat 7)
    (mk_machine (fun a => inject_Z a) ss)) (fun r => Ok (snd r)) = Ok lines /\
  rbind (non_uniform_heat_main QA ceil [0%Q; 1%Q; 3%Q] 1%Q [0%Q; 1%Q; 2%Q] 1%Q 0%Q 1%Q 2 (mk_hm 100 200 300) (repeat 7)
    (mk_machine (fun a => inject_Z a) ss)) (fun r => Ok (snd r)) =
  Ok [mk_line QA 0%Q (1111 # 1000)%Q 1 [0%Q; 0%Q; 0%Q];
      mk_line QA (2 # 3)%Q (52217 # 40500)%Q 1 [(1111 # 1000)%Q; (1111 # 750)%Q; (1111 # 750)%Q];
      mk_line QA 1%Q (478841 # 364500)%Q 1 [(1111 # 600)%Q; (1111 # 1125)%Q; (1111 # 1125)%Q]].
Proof.
  split; [unfold heat_sizes; lia|]. split; [apply repeat_length|]. split; [unfold heat_allocations; cbn; lia|]. split; [exact up_ceil_ok|].
  split. { unfold step_bound, spacing. change (IZR (3 - 1)) with 2%R. assert (A := IZR_le (2 ^ 10) (2 ^ 61) ltac:(lia)). change (IZR (2 ^ 10)) with 1024%R in A.
    replace ((5 - 0) / (1 / (2 * (1 / 10 * (1 / ((1 - -1) / 2 * ((1 - -1) / 2))) + 1 / 5 * (1 / ((1 - -1) / 2 * ((1 - -1) / 2)))))))%R with 3%R by field. lra. }
  split; [exact three_rising|]. split; [apply even_rising|]. split; [apply three_largest|]. split; [apply three_largest|].
  split. { unfold step_bound. assert (A := IZR_le (2 ^ 10) (2 ^ 61) ltac:(lia)). change (IZR (2 ^ 10)) with 1024%R in A. lra. }
  split; [vm_compute; reflexivity|]. split; [vm_compute; reflexivity|]. vm_compute. reflexivity.
Qed.
(** In binary64 the program ends, and shows the value in the middle at three times. *)
Example C62_any_ex :
  rbind (uniform_heat_main FA (fun x => x) (nofz FA (-1)) (nofz FA 1) 3 (nofz FA 1) (nofz FA (-1)) (nofz FA 1) 3 (nofz FA 1) (nofz FA 0) (nofz FA 1) 2
    (mk_hm 100 200 300) (repeat 7) (mk_machine (nofz FA) (repeat (concat (repeat (seq 0 36) 20)) 60)))
    (fun r => Ok (map (fun l => (l_time FA l, nth 1 (l_values FA l) (nofz FA 0))) (snd r))) =
  Ok [(SpecFloat.S754_zero false, SpecFloat.S754_finite false 5628936584259699 (-49));
      (SpecFloat.S754_finite false 4503599627370496 (-53), SpecFloat.S754_finite false 5628936584259699 (-51));
      (SpecFloat.S754_finite false 4503599627370496 (-52), SpecFloat.S754_finite false 6332553657292161 (-52))].
Proof. vm_compute. reflexivity. Qed.
