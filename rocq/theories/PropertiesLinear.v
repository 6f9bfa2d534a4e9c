(** Properties C38 to C40: the linear problems of the spline builders. [create], [shape_of], [sensible] and
    [assignments] are in LinearContract, the shapes and what it means to solve a system in LinearSpec. *)
From Coq Require Import Bool Reals Lia Lra List QArith.
From Verif Require Import LinearModel LinearSpec LinearContract LinearLemmas.
Import ListNotations.
Local Open Scope Z_scope.

(** * C38 *)
(** In every storage, an entry that the storage keeps reads as the last value it was given, zero if none; the others read as zero. *)
Theorem C38_round_trip : forall A c h, sensible c -> assignments A (shape_of c) h ->
  exists p0 p, create A c = Ok p0 /\ set_all A p0 h = Ok p /\
    forall i j, 0 <= i < sh_n (shape_of c) -> 0 <= j < sh_n (shape_of c) ->
      get_element A p i j = Ok (kept (nofz A 0) (shape_of c) h i j).
Proof. exact st_round_trip. Qed.
Print Assumptions C38_round_trip.
(** A periodic band matrix of size 46341 or more cannot be made: the product n * n overflows an [int]. *)
Theorem C38_periodic_overflow_refuted : exists n kl ku, 0 <= kl < n /\ 0 <= ku < n /\ n < 2 ^ 31 /\
  make_new_periodic_band_matrix RA n kl ku false = Undef.
Proof. exists 46341, 1, 1. repeat split; try lia. Qed.
Print Assumptions C38_periodic_overflow_refuted.
(** A symmetric band of size 4 with two sub-diagonals bordered by one row and column on each side; some entries written twice. *)
Example C38_example :
  let c := Some_blocks 6 2 2 true 1 1 in
  let h := [(1, 2, inject_Z 5); (2, 1, inject_Z 7); (0, 5, inject_Z 3); (5, 0, inject_Z 4); (3, 3, inject_Z 2); (3, 3, inject_Z 1)] in
  sensible c /\ assignments QA (shape_of c) h /\ sh_kind (shape_of c) = Symmetric 2 /\
  kept (0 # 1)%Q (shape_of c) h 1 2 = (7 # 1)%Q /\ kept (0 # 1)%Q (shape_of c) h 0 5 = (3 # 1)%Q /\
  kept (0 # 1)%Q (shape_of c) h 3 3 = (1 # 1)%Q /\ kept (0 # 1)%Q (shape_of c) h 4 1 = (0 # 1)%Q.
Proof. cbn zeta. split; [cbn; lia|]. split; [repeat constructor; cbn; try lia; discriminate|]. repeat split; vm_compute; reflexivity. Qed.
Example C38_example_periodic : sensible (A_periodic_band 20 2 2 true) /\
  shape_of (A_periodic_band 20 2 2 true) = mk_shape 20 0 18 (Symmetric 2) /\ sensible (A_periodic_band 7 2 2 true) /\
  shape_of (A_periodic_band 7 2 2 true) = mk_shape 7 0 7 General.
Proof. cbn. repeat split; try lia; reflexivity. Qed.

(** * C39 *)
(** Exact solvers of the blocks make exact solutions of the whole system, provided that no entry smaller than 1e-14 is dropped. *)
Theorem C39_exact : forall X c h p0 p tr b x, exact_solvers X -> sensible c -> assignments RA (shape_of c) h ->
  create RA c = Ok p0 -> set_all RA p0 h = Ok p -> let M := kept 0%R (shape_of c) h in
  none_negligible (shape_of c) M -> setup_and_solve RA X p b tr = Ok x ->
  a_len b = required_rows p /\ a_len x = a_len b /\ solves (sh_n (shape_of c)) M tr (a_at x) (a_at b).
Proof. exact st_exact. Qed.
Print Assumptions C39_exact.
(** Otherwise the residual of each equation is of the order of 1e-14: [y] is the solution of the main block for the right-hand
    side, [g] for a column of the matrix. *)
Theorem C39_residual : forall X c h p0 p tr b x, exact_solvers X -> sensible c -> assignments RA (shape_of c) h ->
  create RA c = Ok p0 -> set_all RA p0 h = Ok p -> setup_and_solve RA X p b tr = Ok x ->
  let s := shape_of c in let n := sh_n s in let top := sh_top s in let m := sh_main s in let M := kept 0%R s h in
  let others := rsum n (fun j => if in_main s j then 0 else Rabs (a_at x j))%R in
  if tr then
    forall j, 0 <= j < n -> exists g,
      (in_main s j = false -> forall i, 0 <= i < m -> rsum m (fun l => M (top + i)%Z (top + l)%Z * g l)%R = M (top + i)%Z j) /\
      (Rabs (rsum n (fun i => M i j * a_at x i) - a_at b j) <=
       / 10 ^ 14 * (if in_main s j then others else rsum m (fun l => Rabs (a_at b (top + l)%Z)) + rsum m (fun l => Rabs (g l)) * others))%R
  else
    exists y, (forall i, 0 <= i < m -> rsum m (fun l => M (top + i)%Z (top + l)%Z * y l)%R = a_at b (top + i)%Z) /\
    forall i, 0 <= i < n ->
      (Rabs (rsum n (fun j => M i j * a_at x j) - a_at b i) <=
       / 10 ^ 14 * ((if in_main s i then 0 else rsum m (fun l => Rabs (y l))) + rsum m (fun l => Rabs (M i (top + l)%Z)) * others))%R.
Proof. exact st_residual. Qed.
Print Assumptions C39_residual.
(** The entries that are dropped do change the solution, even with exact solvers. *)
Theorem C39_dropped_refuted : exists X c h p0 p b x, exact_solvers X /\ sensible c /\ assignments RA (shape_of c) h /\
  create RA c = Ok p0 /\ set_all RA p0 h = Ok p /\ setup_and_solve RA X p b false = Ok x /\
  ~ solves (sh_n (shape_of c)) (kept 0%R (shape_of c) h) false (a_at x) (a_at b).
Proof. exact st_dropped. Qed.
Print Assumptions C39_dropped_refuted.
(** Nothing fails if the solvers of the blocks do not: all accesses are in bounds, for right-hand sides with the required number of rows. *)
Theorem C39_total : forall X c h p0 p tr b, total_solvers X -> sensible c -> assignments RA (shape_of c) h ->
  create RA c = Ok p0 -> set_all RA p0 h = Ok p -> 1 <= sh_main (shape_of c) \/ sh_kind (shape_of c) = General -> a_len b = required_rows p ->
  exists x, setup_and_solve RA X p b tr = Ok x /\ a_len x = a_len b.
Proof. exact st_total. Qed.
Print Assumptions C39_total.
(** The hypotheses are met: a solver of systems with one unknown, and the matrix with rows (1, 1), (0, 1). *)
Example C39_example : exists X c h p0 p b x, exact_solvers X /\ sensible c /\ assignments RA (shape_of c) h /\
  create RA c = Ok p0 /\ set_all RA p0 h = Ok p /\ none_negligible (shape_of c) (kept 0%R (shape_of c) h) /\
  setup_and_solve RA X p b false = Ok x.
Proof.
  destruct (pair_run 1) as (p0 & p & x & H). exists one_unknown, pair_creation, (pair_history 1), p0, p, pair_rhs, x.
  split; [exact one_unknown_exact|]. split; [exact pair_sensible|]. split; [apply pair_assignments|]. split; [apply H|]. split; [apply H|].
  split; [exact pair_not_negligible | apply H].
Qed.
Example C39_example_total : total_solvers (@mk_solvers RA (fun _ _ b => Ok b) (fun _ _ _ _ b => Ok b) (fun _ b => Ok b) (fun _ _ b => Ok b) (fun _ _ b => Ok b)).
Proof. repeat split; intros; intros b Hb; exists b; (split; [reflexivity | exact Hb]). Qed.
(** A run in rational numbers with 3x3 blocks of sizes 1, 2, 1, the blocks being solved by Cramer's rule. *)
Definition cramer (a : arr2 Q) (tr : bool) (b : arr Q) : res (arr Q) :=
  let m := fun i j => if tr then a2_at a j i else a2_at a i j in
  let m00 := m 0 0 in let m01 := m 0 1 in let m10 := m 1 0 in let m11 := m 1 1 in let b0 := a_at b 0 in let b1 := a_at b 1 in
  let d := (m00 * m11 - m01 * m10)%Q in
  if (a2_n a =? 2) && negb (Qeq_bool d 0)
  then Ok (mk_arr 2 (fun k => if k =? 0 then Qred ((b0 * m11 - m01 * b1) / d) else Qred ((m00 * b1 - b0 * m10) / d)))
  else Rejected.
Definition rational_solvers : solvers QA :=
  @mk_solvers QA cramer (fun _ _ _ _ _ => Rejected) (fun _ _ => Rejected) (fun _ _ _ => Rejected) cramer.
Definition matrix_4 (i j : Z) : Q := inject_Z (nth (Z.to_nat (4 * i + j)) [2; 1; 0; 3;  1; 4; 1; 0;  0; 1; 5; 2;  7; 0; 1; 1] 0).
Definition history_4 : list (Z * Z * Q) := map (fun k => (Z.of_nat k / 4, Z.of_nat k mod 4, matrix_4 (Z.of_nat k / 4) (Z.of_nat k mod 4))) (seq 0 16).
Definition residual_4 (tr : bool) (x b : arr Q) (i : Z) : bool :=
  Qeq_bool (fold_right Qplus 0%Q (map (fun k => (if tr then matrix_4 (Z.of_nat k) i else matrix_4 i (Z.of_nat k)) * a_at x (Z.of_nat k))%Q (seq 0 4))) (a_at b i).
Example C39_example_3x3 :
  let c := Some_blocks 4 1 1 false 1 1 in let b := mk_arr 5 (fun k => inject_Z (k * k + 1)) in
  sensible c /\ forall tr, match rbind (create QA c) (fun p0 => rbind (set_all QA p0 history_4) (fun p => setup_and_solve QA rational_solvers p b tr)) with
    | Ok x => a_len x = 5 /\ forall i, 0 <= i < 4 -> residual_4 tr x b i = true
    | _ => False end.
Proof.
  cbn zeta. split; [cbn; lia|]. intros tr.
  assert (H : match rbind (create QA (Some_blocks 4 1 1 false 1 1)) (fun p0 => rbind (set_all QA p0 history_4) (fun p => setup_and_solve QA rational_solvers p (mk_arr 5 (fun k => inject_Z (k * k + 1))) tr)) with
    | Ok x => a_len x = 5 /\ forallb (fun k => residual_4 tr x (mk_arr 5 (fun k => inject_Z (k * k + 1))) (Z.of_nat k)) (seq 0 4) = true
    | _ => False end) by (destruct tr; vm_compute; split; reflexivity).
  revert H. destruct (rbind _ _) as [x | |]; [|tauto|tauto]. intros [H1 H2]. split; [exact H1|]. intros i Hi. rewrite forallb_forall in H2.
  rewrite <- (Z2Nat.id i) by lia. apply H2. apply in_seq. lia.
Qed.

(** * C40 *)
(** The chunks are consecutive and not empty, cover all the right-hand sides, are not larger than the limit; each right-hand side ends
    up related to its initial value as the solver of one chunk relates them ([P]). *)
Theorem C40_chunks : forall A (apply : arr2 (num A) -> res (arr2 (num A))) (P : (Z -> num A) -> (Z -> num A) -> Prop) limit (b : arr2 (num A)),
  (forall u u' v v', (forall i, u i = u' i) -> (forall i, v i = v' i) -> P u v -> P u' v') ->
  1 <= a2_m b < 2 ^ 63 -> 1 <= limit ->
  (forall c, a2_n c = a2_n b -> 1 <= a2_m c <= limit ->
     exists x, apply c = Ok x /\ a2_m x = a2_m c /\ forall k, 0 <= k < a2_m c -> P (fun i => a2_at c i k) (fun i => a2_at x i k)) ->
  exists x chunks, sparse_solve A apply (a2_n b) limit b = Ok (x, chunks) /\ a2_n x = a2_n b /\ a2_m x = a2_m b /\
    consecutive 0 (a2_m b) chunks /\ Forall (fun '(lo, hi) => hi - lo <= limit) chunks /\
    forall k, 0 <= k < a2_m b -> P (fun i => a2_at b i k) (fun i => a2_at x i k).
Proof. exact sp_chunks. Qed.
Print Assumptions C40_chunks.
(** If the iterative solver solves the columns it is given, all the columns are solved. *)
Theorem C40_solves : forall (apply : arr2 R -> res (arr2 R)) M tr limit (b : arr2 R), 1 <= a2_m b < 2 ^ 63 -> 1 <= limit ->
  (forall c, a2_n c = a2_n b -> 1 <= a2_m c <= limit ->
     exists x, apply c = Ok x /\ a2_m x = a2_m c /\ forall k, 0 <= k < a2_m c -> solves (a2_n b) M tr (fun i => a2_at x i k) (fun i => a2_at c i k)) ->
  exists x chunks, sparse_solve RA apply (a2_n b) limit b = Ok (x, chunks) /\
    forall k, 0 <= k < a2_m b -> solves (a2_n b) M tr (fun i => a2_at x i k) (fun i => a2_at b i k).
Proof. exact sp_solves. Qed.
Print Assumptions C40_solves.
(** A solver that does not converge makes the call throw. *)
Theorem C40_not_converged : forall A (apply : arr2 (num A) -> res (arr2 (num A))) limit (b : arr2 (num A)), 1 <= a2_m b < 2 ^ 63 -> 1 <= limit ->
  (forall c, apply c = Rejected) -> sparse_solve A apply (a2_n b) limit b = Rejected.
Proof. exact sp_rejected. Qed.
Print Assumptions C40_not_converged.
(** Without right-hand sides the number of chunks is a division by zero. *)
Theorem C40_no_column_refuted : exists n limit, 1 <= limit /\ forall apply, sparse_solve RA apply n limit (mk_arr2 n 0 (fun _ _ => 0%R)) = Undef.
Proof. exists 4, 8. split; [lia | reflexivity]. Qed.
Print Assumptions C40_no_column_refuted.
(** 10 right-hand sides by chunks of at most 4; the solver is the one of the identity. *)
Example C40_example : (forall c : arr2 R, 1 <= a2_m c <= 4 -> exists x, Ok c = Ok x /\ a2_m x = a2_m c) /\
  match sparse_solve QA (fun c => Ok c) 3 4 (mk_arr2 3 10 (fun i j => inject_Z (i + j))) with
  | Ok (x, chunks) => chunks = [(0, 4); (4, 8); (8, 10)] | _ => False end.
Proof. split; [intros c _; exists c; auto | vm_compute; reflexivity]. Qed.
