(** Property C64: the program examples/heat_equation_spectral.cpp.  [spectral_main L ceil a b (nx + 1) kx c e (ny + 1) ky t0 t1 period] is its
    [main] over the reals, with the constants of the program as arguments: nx + 1 points on [a, b], of which the last is the first one again,
    ny + 1 points on [c, e], diffusion coefficients [kx] and [ky], times from [t0] to [t1], an output every [period] steps.  [L] are the
    transforms of Kokkos-FFT.  The result is the lines printed.  [wave], [spectral_step], [spectral_history], [spectral_dt], [spectral_inputs]
    are in SpectralSpec, [fewest_steps], [heat_lines], [total] and the predicates on lines in HeatSpec. *)
From Coq Require Import ZArith List Lia Reals Lra.
From Verif Require Import ArithModel HeatSpec HeatTheorems FFTSpec FFTTheorems SpectralModel SpectralSpec SpectralTheorems SpectralFindings.
Import ListNotations.
Local Open Scope Z_scope.

(** * C64 *)
(** There is exactly one history: the hot disc, then at each step each wave is multiplied by one minus the step times its rate of decay.  The
    program ends and prints it. *)
Theorem C64_prints : forall nx ny a b c e kx ky t0 t1 period L ceil, spectral_inputs nx ny a b c e kx ky t0 t1 period L ceil ->
  exists N T, fewest_steps t0 t1 (spectral_dt nx ny a b c e kx ky) N /\ spectral_history nx ny a b c e kx ky (spectral_dt nx ny a b c e kx ky) T /\
  (forall N' T', fewest_steps t0 t1 (spectral_dt nx ny a b c e kx ky) N' -> spectral_history nx ny a b c e kx ky (spectral_dt nx ny a b c e kx ky) T' ->
     N' = N /\ forall n i j, 0 <= i < nx -> 0 <= j < ny -> T' n i j = T n i j) /\
  spectral_main L ceil a b (nx + 1) kx c e (ny + 1) ky t0 t1 period = Ok (heat_lines nx ny t0 t1 period N T).
Proof. exact spectral_prints. Qed.
Print Assumptions C64_prints.
(** The times go up from the start to the end, and the mean temperature printed is always the same. *)
Theorem C64_heat_conserved : forall nx ny a b c e kx ky t0 t1 period L ceil, spectral_inputs nx ny a b c e kx ky t0 t1 period L ceil ->
  exists lines, spectral_main L ceil a b (nx + 1) kx c e (ny + 1) ky t0 t1 period = Ok lines /\ printed_times t0 t1 lines /\ same_mean lines.
Proof. exact spectral_output. Qed.
Print Assumptions C64_heat_conserved.
(** The sum of the squares of the temperatures never grows: the step is not too long. *)
Theorem C64_stable : forall nx ny a b c e kx ky t0 t1 period L ceil, spectral_inputs nx ny a b c e kx ky t0 t1 period L ceil ->
  forall T, spectral_history nx ny a b c e kx ky (spectral_dt nx ny a b c e kx ky) T -> forall n, (energy nx ny (T (S n)) <= energy nx ny (T n))%R.
Proof. exact spectral_stable. Qed.
Print Assumptions C64_stable.
(** The length of a step is not the difference of the times printed, however: the lines are not those of the scheme with the step
    (t1 - t0) / N that leads from one printed time to the next. *)
Theorem C64_times_refuted : forall L, exact_library L -> forall ceil, rounds_up ceil ->
  exists t1 lines N, spectral_main L ceil (-1) 1 3 1 (-1) 1 3 1 0 t1 1 = Ok lines /\ printed_times 0 t1 lines /\
  fewest_steps 0 t1 (spectral_dt 2 2 (-1) 1 (-1) 1 1 1) N /\
  forall T, spectral_history 2 2 (-1) 1 (-1) 1 1 1 ((t1 - 0) / IZR N) T -> lines <> heat_lines 2 2 0 t1 1 N T.
Proof. exact times_wrong. Qed.
Print Assumptions C64_times_refuted.
(** And it is so long that the highest wave only changes sign: the temperature need not tend to its mean. *)
Theorem C64_settles_refuted : forall T, spectral_history 2 2 (-1) 1 (-1) 1 1 1 (spectral_dt 2 2 (-1) 1 (-1) 1 1 1) T ->
  ~ Un_cv (fun n => T n 0 1) (total 2 2 (T O) / 4).
Proof. exact never_settles. Qed.
Print Assumptions C64_settles_refuted.
(** Hypotheses that are met: the constants of the program, and transforms that are the sums of the definition. *)
Example C64_ex : spectral_inputs 9 99 (-1) 1 (-1) 1 (1 / 100) (2 / 1000) 0 10 10 sums up_ceil.
Proof.
  constructor; try lra; try lia; [| exact up_ceil_ok | exact sums_exact].
  unfold spectral_dt, spacing. change (9 + 1 - 1) with 9. change (99 + 1 - 1) with 99. pose proof PI_RGT_0 as P. pose proof PI_4 as P4.
  assert (0 < PI ^ 2)%R by now apply pow_lt. assert (PI ^ 2 <= 16)%R by (replace 16%R with (4 * 4)%R by lra; replace (PI ^ 2)%R with (PI * PI)%R by ring; apply Rmult_le_compat; lra).
  replace (1 / 100 * (PI / ((1 - -1) / 9)) ^ 2 + 2 / 1000 * (PI / ((1 - -1) / 99)) ^ 2)%R with ((81 / 400 + 9801 / 2000) * PI ^ 2)%R by field.
  set (u := (PI ^ 2)%R) in *. clearbody u. replace ((10 - 0) / (2 / ((81 / 400 + 9801 / 2000) * u)))%R with (5 * ((81 / 400 + 9801 / 2000) * u))%R by (field; lra).
  apply Rle_trans with 1000%R; [lra|]. apply IZR_le. lia.
Qed.
(** A history exists for the refutations (C64_prints), and its first wave is not zero: *)
Example C64_ex_wave : wave 2 2 (fun i j => if ((i =? 1) && (j =? 1))%bool then 1%R else 0%R) 0 1 = RtoC (-1).
Proof. rewrite wave_2 by lia. cbn. f_equal. lra. Qed.
