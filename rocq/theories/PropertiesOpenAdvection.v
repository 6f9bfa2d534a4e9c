(** Property C66: the program examples/characteristics_advection.cpp, not periodic in x (PERIODIC_DOMAIN not defined, line 17).
    [open_main RA ceil exp solver X d a b nx vx c e ny t0 t1 period max_dt m junk_next junk_coef junk] is its [main] over the reals, with
    the arguments of C63.  The result is the lines printed, or [None] for an exception.  [open_moved] (one step), [open_history],
    [open_point], [open_inputs] are in OpenAdvectionSpec, [fewest_steps], [heat_lines] and the predicates on lines in HeatSpec. *)
From Coq Require Import ZArith List Lia Reals Lra QArith Qround.
From Verif Require Import ArithModel HeatSpec HeatTheorems LinearGauss BuilderFindings OpenAdvectionSpec OpenAdvectionTheorems.
Import ListNotations.
Local Open Scope Z_scope.

(** * C66 *)
(** There is exactly one history: the gaussian, then at each step and on each line the values at x - vx dt of the spline through the values
    before, and 0 where x - vx dt is outside of the interval.  If the program succeeds it prints this history, whatever was in memory. *)
Theorem C66_prints : forall d nx ny a b vx c e t0 t1 max_dt period solver X ceil exp, open_inputs d nx ny a b c e t0 t1 max_dt period solver X ceil ->
  exists N D, fewest_steps t0 t1 max_dt N /\ open_history d nx ny a b c e exp (vx * ((t1 - t0) / IZR N)) D /\
  (forall N' D', fewest_steps t0 t1 max_dt N' -> open_history d nx ny a b c e exp (vx * ((t1 - t0) / IZR N')) D' ->
     N' = N /\ forall n i j, 0 <= i < nx + d -> 0 <= j < ny -> D' n i j = D n i j) /\
  forall m junk_next junk_coef junk out,
    open_main RA ceil exp solver X d a b nx vx c e ny t0 t1 period max_dt m junk_next junk_coef junk = Ok out ->
    out = Some (heat_lines (nx + d) ny t0 t1 period N D).
Proof. exact open_prints. Qed.
Print Assumptions C66_prints.
(** It succeeds with the sparse solver, if the iteration converges for the matrices that can be inverted. *)
Theorem C66_runs : forall d nx ny a b vx c e t0 t1 max_dt period solver X ceil exp, open_inputs d nx ny a b c e t0 t1 max_dt period solver X ceil ->
  solver = GINKGO -> regular_bicgstab X -> forall m junk_next junk_coef junk,
  exists lines, open_main RA ceil exp solver X d a b nx vx c e ny t0 t1 period max_dt m junk_next junk_coef junk = Ok (Some lines).
Proof. exact open_runs. Qed.
Print Assumptions C66_runs.
(** The times go up from the start to the end. *)
Theorem C66_times : forall d nx ny a b vx c e t0 t1 max_dt period solver X ceil exp, open_inputs d nx ny a b c e t0 t1 max_dt period solver X ceil ->
  forall m junk_next junk_coef junk lines,
  open_main RA ceil exp solver X d a b nx vx c e ny t0 t1 period max_dt m junk_next junk_coef junk = Ok (Some lines) -> printed_times t0 t1 lines.
Proof. exact open_times. Qed.
Print Assumptions C66_times.
(** With splines of degree 1 every value printed stays between 0 and 9.999. *)
Theorem C66_bounds_degree_1 : forall d nx ny a b vx c e t0 t1 max_dt period solver X ceil exp, open_inputs d nx ny a b c e t0 t1 max_dt period solver X ceil ->
  d = 1 -> (forall x, (x <= 0)%R -> (0 <= exp x <= 1)%R) -> forall m junk_next junk_coef junk lines,
  open_main RA ceil exp solver X d a b nx vx c e ny t0 t1 period max_dt m junk_next junk_coef junk = Ok (Some lines) -> printed_within 0 (9999 / 1000) lines.
Proof. exact open_linear. Qed.
Print Assumptions C66_bounds_degree_1.
(** When a step is longer than the interval, in either direction, nothing is left after the first one. *)
Theorem C66_swept : forall d nx ny a b vx c e t0 t1 max_dt period solver X ceil exp, open_inputs d nx ny a b c e t0 t1 max_dt period solver X ceil ->
  forall N, fewest_steps t0 t1 max_dt N -> (b - a < Rabs (vx * ((t1 - t0) / IZR N)))%R ->
  forall m junk_next junk_coef junk lines,
  open_main RA ceil exp solver X d a b nx vx c e ny t0 t1 period max_dt m junk_next junk_coef junk = Ok (Some lines) ->
  lines = heat_lines (nx + d) ny t0 t1 period N (fun n i j => if Nat.eqb n 0 then gaussian exp (open_point d nx a b i) (y_point ny c e j) else 0%R).
Proof. exact open_swept. Qed.
Print Assumptions C66_swept.
(** Unlike the periodic one, the program cannot be used with a high degree (10 excepted): an exception, whatever the other constants. *)
Theorem C66_high_degree_refuted : forall d nx (a b : R), 9 <= d -> d <> 10 -> 3 <= nx -> (a < b)%R -> nx + 1 + 2 * d < 2 ^ 31 ->
  forall ceil exp solver X vx c e ny t0 t1 period max_dt m junk_next junk_coef junk,
  open_main RA ceil exp solver X d a b nx vx c e ny t0 t1 period max_dt m junk_next junk_coef junk = Ok None.
Proof. exact open_high_degree. Qed.
Print Assumptions C66_high_degree_refuted.
(** Nor does it conserve the mean density that it prints, which can grow while part of the density leaves; and with degree 2 negative
    densities are printed.  Run over the rationals, with a function of values 0 and 1 in place of the exponential. *)
Definition q_step (x : Q) : Q := if Qle_bool (-1 # 1) x then 1%Q else 0%Q.
Definition q_open (d nx : Z) (vx : Q) : res (option (list (display_line QA))) :=
  open_main QA (fun x => inject_Z (Qceiling x)) q_step GINKGO q_solvers d (-1 # 1)%Q 1%Q nx vx (-1 # 1)%Q 0%Q 2 0%Q 1%Q 1 (1 # 2)%Q q_junk
    (fun _ _ => 7 # 1)%Q (fun _ _ => 7 # 1)%Q (fun _ _ _ => 7 # 1)%Q.
Theorem C66_mass_refuted : exists first second third, q_open 2 3 (- 1 # 3)%Q = Ok (Some [first; second; third]) /\
  (forall v, In v (l_values QA first) -> 0 <= v <= 9999 # 1000)%Q /\ (l_mean QA first < l_mean QA third)%Q /\ (exists v, In v (l_values QA second) /\ v < 0)%Q.
Proof.
  eexists _, _, _. split; [vm_compute; reflexivity|]. split; [|split].
  - intros v Hv. cbn [l_values In] in Hv. repeat (destruct Hv as [<-|Hv]; [split; discriminate|]). destruct Hv.
  - reflexivity.
  - eexists. split; [left; reflexivity | reflexivity].
Qed.
Print Assumptions C66_mass_refuted.
(** Hypotheses that are met: the constants of the program, with the sparse solver; degree 1; a step longer than the interval. *)
Example C66_ex : open_inputs 3 100 100 (-1) 1 (-1) 1 0 10 (1 / 10) 10 GINKGO gauss_solvers up_ceil /\ regular_bicgstab gauss_solvers /\
  (forall x, (x <= 0)%R -> (0 <= Rtrigo_def.exp x <= 1)%R) /\ open_inputs 1 5 2 (-1) 1 (-1) 0 0 1 (1 / 2) 1 GINKGO gauss_solvers up_ceil /\
  fewest_steps 0 10 (1 / 10) 100 /\ (1 - -1 < Rabs (30 * ((10 - 0) / IZR 100)))%R.
Proof.
  assert (Hbig : (100 <= IZR (2 ^ 61))%R) by (apply IZR_le; lia).
  split; [|split; [exact gauss_regular|split; [|split; [|split]]]].
  - constructor; try lra; try lia; [repeat split; lia | exact up_ceil_ok | exact gauss_exact | apply open_ginkgo_drops_nothing; repeat split; lia].
  - intros x Hx. split; [apply Rlt_le, exp_pos|]. rewrite <- exp_0. destruct (Rle_lt_or_eq_dec _ _ Hx) as [H| ->]; [apply Rlt_le, exp_increasing, H | lra].
  - constructor; try lra; try lia; [repeat split; lia | exact up_ceil_ok | exact gauss_exact | apply open_ginkgo_drops_nothing; repeat split; lia].
  - split; [lia|]. change (100 - 1) with 99. lra.
  - rewrite Rabs_pos_eq by lra. lra.
Qed.
(** Lines that are printed: degree 1, a quarter of a cell per step; two cells per step, after which nothing is left. *)
Example C66_run : q_open 1 4 (1 # 4)%Q = Ok (Some [
    mk_line QA 0%Q (9999 # 10000)%Q 1 [0%Q; 0%Q; (9999 # 1000)%Q; 0%Q; 0%Q];
    mk_line QA (1 # 2)%Q (9999 # 10000)%Q 1 [0%Q; 0%Q; (29997 # 4000)%Q; (9999 # 4000)%Q; 0%Q];
    mk_line QA 1%Q (9999 # 10000)%Q 1 [0%Q; 0%Q; (89991 # 16000)%Q; (29997 # 8000)%Q; (9999 # 16000)%Q]]) /\
  q_open 1 4 2%Q = Ok (Some [
    mk_line QA 0%Q (9999 # 10000)%Q 1 [0%Q; 0%Q; (9999 # 1000)%Q; 0%Q; 0%Q];
    mk_line QA (1 # 2)%Q (9999 # 10000)%Q 1 [0%Q; 0%Q; 0%Q; 0%Q; (9999 # 1000)%Q];
    mk_line QA 1%Q 0%Q 1 [0%Q; 0%Q; 0%Q; 0%Q; 0%Q]]).
Proof. split; vm_compute; reflexivity. Qed.
