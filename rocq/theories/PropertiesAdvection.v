(** Property C63: the program examples/characteristics_advection.cpp, periodic in x.
    [advection_main RA ceil exp solver X d a b nx vx c e ny t0 t1 period max_dt m junk_next junk_coef junk] is its [main] over the reals,
    with the constants of the program as arguments: splines of degree [d] on [nx] cells of [a, b], velocity [vx], [ny] points of [c, e],
    times from [t0] to [t1] by steps of at most [max_dt], an output every [period] steps.  [X] are the external linear solvers, [m] and the
    last three arguments what the memory contains.  The result is the lines printed.  [moved] (one step), [advection_history],
    [gaussian], [x_point], [advection_inputs] are in AdvectionSpec, [fewest_steps], [heat_lines] and the predicates on lines in HeatSpec. *)
From Coq Require Import ZArith List Lia Reals Lra QArith Qround.
From Verif Require Import ArithModel HeatSpec HeatTheorems LinearGauss BuilderFindings AdvectionSpec AdvectionTheorems.
Import ListNotations.
Local Open Scope Z_scope.

(** * C63 *)
(** There is exactly one history: the gaussian, then at each step and on each line the values at x - vx dt of the periodic spline through the
    values before.  If the program succeeds it prints this history, whatever was in memory. *)
Theorem C63_prints : forall d nx ny a b vx c e t0 t1 max_dt period solver X ceil exp, advection_inputs d nx ny a b c e t0 t1 max_dt period solver X ceil ->
  exists N D, fewest_steps t0 t1 max_dt N /\ advection_history d nx ny a b c e exp (vx * ((t1 - t0) / IZR N)) D /\
  (forall N' D', fewest_steps t0 t1 max_dt N' -> advection_history d nx ny a b c e exp (vx * ((t1 - t0) / IZR N')) D' ->
     N' = N /\ forall n i j, 0 <= i < nx -> 0 <= j < ny -> D' n i j = D n i j) /\
  forall m junk_next junk_coef junk lines,
    advection_main RA ceil exp solver X d a b nx vx c e ny t0 t1 period max_dt m junk_next junk_coef junk = Ok lines -> lines = heat_lines nx ny t0 t1 period N D.
Proof. exact advection_prints. Qed.
Print Assumptions C63_prints.
(** It succeeds with the sparse solver, if the iteration converges for the matrices that can be inverted. *)
Theorem C63_runs : forall d nx ny a b vx c e t0 t1 max_dt period solver X ceil exp, advection_inputs d nx ny a b c e t0 t1 max_dt period solver X ceil ->
  solver = GINKGO -> regular_bicgstab X -> forall m junk_next junk_coef junk,
  exists lines, advection_main RA ceil exp solver X d a b nx vx c e ny t0 t1 period max_dt m junk_next junk_coef junk = Ok lines.
Proof. exact advection_runs. Qed.
Print Assumptions C63_runs.
(** The times go up from the start to the end, and the mean density printed is always the same: mass is conserved. *)
Theorem C63_mass : forall d nx ny a b vx c e t0 t1 max_dt period solver X ceil exp, advection_inputs d nx ny a b c e t0 t1 max_dt period solver X ceil ->
  forall m junk_next junk_coef junk lines,
  advection_main RA ceil exp solver X d a b nx vx c e ny t0 t1 period max_dt m junk_next junk_coef junk = Ok lines -> printed_times t0 t1 lines /\ same_mean lines.
Proof. exact advection_output. Qed.
Print Assumptions C63_mass.
(** When a step goes over a whole number [q] of cells, the initial density is translated without any error. *)
Theorem C63_whole_cells : forall d nx ny a b vx c e t0 t1 max_dt period solver X ceil exp, advection_inputs d nx ny a b c e t0 t1 max_dt period solver X ceil ->
  forall N q, fewest_steps t0 t1 max_dt N -> (vx * ((t1 - t0) / IZR N) = IZR q * ((b - a) / IZR nx))%R ->
  forall m junk_next junk_coef junk lines,
  advection_main RA ceil exp solver X d a b nx vx c e ny t0 t1 period max_dt m junk_next junk_coef junk = Ok lines ->
  lines = heat_lines nx ny t0 t1 period N (fun n i j => gaussian exp (x_point d nx a b ((i - Z.of_nat n * q) mod nx)) (y_point ny c e j)).
Proof. exact advection_whole_cells. Qed.
Print Assumptions C63_whole_cells.
(** With splines of degree 1 every value printed stays between 0 and 9.999, *)
Theorem C63_bounds_degree_1 : forall d nx ny a b vx c e t0 t1 max_dt period solver X ceil exp, advection_inputs d nx ny a b c e t0 t1 max_dt period solver X ceil ->
  d = 1 -> (forall x, (x <= 0)%R -> (0 <= exp x <= 1)%R) -> forall m junk_next junk_coef junk lines,
  advection_main RA ceil exp solver X d a b nx vx c e ny t0 t1 period max_dt m junk_next junk_coef junk = Ok lines -> printed_within 0 (9999 / 1000) lines.
Proof. exact advection_linear. Qed.
Print Assumptions C63_bounds_degree_1.
(** but not with those of the program, of degree 3: negative densities and densities above the initial maximum are printed.  Run over the
    rationals, with a function of values 0 and 1 in place of the exponential. *)
Definition q_exp (x : Q) : Q := if Qle_bool (-1 # 1) x then 1%Q else 0%Q.
Definition q_run (d nx : Z) (vx : Q) : res (list (display_line QA)) :=
  advection_main QA (fun x => inject_Z (Qceiling x)) q_exp GINKGO q_solvers d (-1 # 1)%Q 1%Q nx vx (-1 # 1)%Q 0%Q 2 0%Q 1%Q 1 (1 # 2)%Q q_junk
    (fun _ _ => 7 # 1)%Q (fun _ _ => 7 # 1)%Q (fun _ _ _ => 7 # 1)%Q.
Theorem C63_bounds_degree_3_refuted : exists first second third, q_run 3 5 (1 # 3)%Q = Ok [first; second; third] /\
  (forall v, In v (l_values QA first) -> 0 <= v <= 9999 # 1000)%Q /\
  (exists v, In v (l_values QA second) /\ v < 0)%Q /\ (exists v, In v (l_values QA second) /\ (9999 # 1000) < v)%Q.
Proof.
  eexists _, _, _. split; [vm_compute; reflexivity|]. split; [|split].
  - intros v Hv. cbn [l_values In] in Hv. repeat (destruct Hv as [<-|Hv]; [split; discriminate|]). destruct Hv.
  - eexists. split; [left; reflexivity | reflexivity].
  - eexists. split; [do 3 right; left; reflexivity | reflexivity].
Qed.
Print Assumptions C63_bounds_degree_3_refuted.
(** Hypotheses that are met: the constants of the program, with the sparse solver, where each of the 100 steps goes over exactly one cell. *)
Example C63_ex : advection_inputs 3 100 100 (-1) 1 (-1) 1 0 10 (1 / 10) 10 GINKGO gauss_solvers up_ceil /\ regular_bicgstab gauss_solvers /\
  (forall x, (x <= 0)%R -> (0 <= Rtrigo_def.exp x <= 1)%R) /\ advection_inputs 1 5 2 (-1) 1 (-1) 0 0 1 (1 / 2) 1 GINKGO gauss_solvers up_ceil /\
  fewest_steps 0 10 (1 / 10) 100 /\ (2 / 10 * ((10 - 0) / IZR 100) = IZR 1 * ((1 - -1) / IZR 100))%R.
Proof.
  assert (Hbig : (100 <= IZR (2 ^ 61))%R) by (apply IZR_le; lia).
  split; [|split; [exact gauss_regular|split; [|split; [|split]]]].
  - constructor; try lra; try lia; [repeat split; lia | exact up_ceil_ok | exact gauss_exact | apply ginkgo_drops_nothing; repeat split; lia].
  - intros x Hx. split; [apply Rlt_le, exp_pos|]. rewrite <- exp_0. destruct (Rle_lt_or_eq_dec _ _ Hx) as [H| ->]; [apply Rlt_le, exp_increasing, H | lra].
  - constructor; try lra; try lia; [repeat split; lia | exact up_ceil_ok | exact gauss_exact | apply ginkgo_drops_nothing; repeat split; lia].
  - split; [lia|]. change (100 - 1) with 99. lra.
  - lra.
Qed.
(** Lines that are printed: degree 1, a quarter of a cell per step; degree 2, a whole cell per step. *)
Example C63_run : q_run 1 4 (1 # 4)%Q = Ok [
    mk_line QA 0%Q (9999 # 8000)%Q 1 [0%Q; 0%Q; (9999 # 1000)%Q; 0%Q];
    mk_line QA (1 # 2)%Q (9999 # 8000)%Q 1 [0%Q; 0%Q; (29997 # 4000)%Q; (9999 # 4000)%Q];
    mk_line QA 1%Q (9999 # 8000)%Q 1 [(9999 # 16000)%Q; 0%Q; (89991 # 16000)%Q; (29997 # 8000)%Q]] /\
  q_run 2 4 1%Q = Ok [
    mk_line QA 0%Q (9999 # 4000)%Q 1 [0%Q; (9999 # 1000)%Q; (9999 # 1000)%Q; 0%Q];
    mk_line QA (1 # 2)%Q (9999 # 4000)%Q 1 [0%Q; 0%Q; (9999 # 1000)%Q; (9999 # 1000)%Q];
    mk_line QA 1%Q (9999 # 4000)%Q 1 [(9999 # 1000)%Q; 0%Q; 0%Q; (9999 # 1000)%Q]].
Proof. split; vm_compute; reflexivity. Qed.
