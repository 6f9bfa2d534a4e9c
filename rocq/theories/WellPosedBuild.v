(** Builders of well posed problems. *)
From Coq Require Import Bool Reals ZArith Lia Lra ZifyBool List.
From Verif Require Import BSplineSpec BSplineMath BSplineDeriv EvaluatorSpec EvaluatorSpace EvaluatorProofs EvaluatorProofs2 EvaluatorLemmas BuilderSpec BuilderLemmas LinearKernel LinearProofs2
  SplineTower SplineUnique Spline2DSpec Spline2DMath Spline2DBuild WellPosedSpec WellPosedProofs.
Local Open Scope bool_scope. Local Open Scope Z_scope.

(** If any values can be interpolated, there are at most d + 1 points in a cell. *)
Theorem not_crowded s d periodic ncells t a b lower upper n x : facts s d periodic ncells t a b ->
  (forall v wl wu, exists c, solution periodic t a b d ncells lower upper n x v wl wu c) -> forall k, ~ crowded t d ncells n x k.
Proof.
  intros F Hex k [Hk Hc]. pose proof (f_d _ _ _ _ _ _ _ F) as Hd. unfold points_in in Hc. set (f := fun k0 : nat => _) in Hc. set (l := filter f (seq 0 (Z.to_nat n))) in Hc.
  assert (Hnd : NoDup l) by (apply NoDup_filter, seq_NoDup).
  assert (Hl : forall j, 0 <= j < d + 2 -> 0 <= Z.of_nat (nth (Z.to_nat j) l O) < n /\ (t k <= x (Z.of_nat (nth (Z.to_nat j) l O)) <= t (k + 1)%Z)%R).
  { intros j Hj. assert (I : In (nth (Z.to_nat j) l O) l) by (apply nth_In; lia). apply filter_In in I. destruct I as [I E]. apply in_seq in I. unfold f in E.
    destruct (Rle_dec _ _) as [L|]; [|discriminate]. destruct (Rle_dec _ _) as [L'|] in E; [|discriminate]. split; [lia | split; assumption]. }
  set (idx j := Z.of_nat (nth (Z.to_nat j) l O)) in *.
  assert (Hinj : forall i j, 0 <= i < d + 2 -> 0 <= j < d + 2 -> idx i = idx j -> i = j).
  { intros i j Hi Hj E. apply Nat2Z.inj in E. apply (proj1 (NoDup_nth l O)) in E; [lia | exact Hnd | lia | lia]. }
  destruct (kernel (Z.to_nat (d + 1)) (d + 2) (fun i j => V t k d i (x (idx j))) ltac:(lia)) as (u & (j0 & Hj0 & Nj0) & Hu).
  set (v z := zsum (d + 2) (fun j => if z =? idx j then u j else 0%R)).
  assert (Hv : forall j, 0 <= j < d + 2 -> v (idx j) = u j).
  { intros j Hj. unfold v. rewrite (zsum_pivot _ _ j Hj), Z.eqb_refl. rewrite zsum_zero; [lra|]. intros m Hm. destruct (Z.eqb_spec (idx j) (idx (skip j m))) as [E|E]; [|reflexivity].
    apply Hinj in E; [|exact Hj | unfold skip; destruct (m <? j) eqn:?; lia]. unfold skip in E. destruct (m <? j) eqn:?; lia. }
  destruct (Hex v (fun _ => 0%R) (fun _ => 0%R)) as (c & Hc' & _).
  assert (Hval : forall j, 0 <= j < d + 2 -> zsum (d + 1) (fun i => c (k - d + i)%Z * V t k d i (x (idx j)))%R = u j).
  { intros j Hj. rewrite <- Hv by exact Hj. destruct (Hl j Hj) as [H1 H2]. fold (idx j) in H1, H2. rewrite <- (Hc' (idx j) H1). rewrite (piece_closed _ _ _ _ _ _ _ F k c _ Hk H2), <- (pieces_0 _ _ _ _ _ _ _ F c k _ Hk).
    unfold pieces. cbn [dcoef]. rewrite Z.sub_0_r. reflexivity. }
  assert (S0 : zsum (d + 2) (fun j => u j * u j)%R = 0%R).
  { transitivity (zsum (d + 2) (fun j => zsum (d + 1) (fun i => c (k - d + i)%Z * (V t k d i (x (idx j)) * u j))))%R.
    - apply zsum_ext. intros j Hj. rewrite <- (Hval j Hj) at 1. rewrite Rmult_comm, <- zsum_scal. apply zsum_ext. intros i Hi. ring.
    - rewrite zsum_swap. apply zsum_zero. intros i Hi. rewrite zsum_scal, Hu by lia. ring. }
  assert (P : forall m, 0 <= m -> (forall j, 0 <= j < m -> u j = 0%R) \/ (0 < zsum m (fun j => u j * u j))%R).
  { intros m Hm. pattern m. apply natlike_ind; [left; intros; lia | | exact Hm]. intros m' Hm' IH. unfold Z.succ. rewrite zsum_S by exact Hm'. destruct (Req_dec (u m') 0) as [E|E].
    - destruct IH as [IH|IH]; [left | right; rewrite E; lra]. intros j Hj. destruct (Z.eq_dec j m') as [->|]; [exact E | apply IH; lia].
    - right. assert (0 < u m' * u m')%R by (apply Rsqr_pos_lt; exact E). destruct IH as [IH|IH]; [rewrite zsum_zero by (intros j Hj; rewrite IH by exact Hj; ring); lra | lra]. }
  destruct (P (d + 2) ltac:(lia)) as [P0|P0]; [exact (Nj0 (P0 j0 Hj0)) | lra].
Qed.

(** The grid of a well posed problem is accepted. *)
Theorem accepts : forall s d periodic ncells t a b lower upper start n coord x,
  interpolation GINKGO s d periodic ncells t a b lower upper start n coord x -> increasing_points n x -> n = points_expected periodic d ncells lower upper ->
  well_posed periodic t a b d ncells lower upper n x ->
  forall m, exists bd, builder_construct RA s m GINKGO lower upper start n coord = Ok bd.
Proof.
  intros until x. intros IP Hinc Hn [_ Hex] m. pose proof (space_facts _ _ _ _ _ _ _ (i_space _ _ _ _ _ _ _ _ _ _ _ _ _ _ IP)) as F.
  destruct (constructs _ _ _ _ _ _ _ _ _ _ _ _ _ _ IP Hinc Hn (not_crowded _ _ _ _ _ _ _ _ _ _ _ F Hex) m) as (off & _ & K). destruct (K I) as (bd & E & _). exists bd. exact E.
Qed.
(** LAPACK: the matrix has to fit in the storage used. *)
Theorem accepts_lapack : forall s d periodic ncells t a b lower upper start n coord x,
  interpolation LAPACK s d periodic ncells t a b lower upper start n coord x -> increasing_points n x -> n = points_expected periodic d ncells lower upper ->
  well_posed periodic t a b d ncells lower upper n x ->
  forall m, exists off, compute_offset RA s m start coord = Ok off /\
    (suited LAPACK (bs_uniform RA s) periodic t a b d ncells lower upper x off -> exists bd, builder_construct RA s m LAPACK lower upper start n coord = Ok bd).
Proof.
  intros until x. intros IP Hinc Hn [_ Hex] m. pose proof (space_facts _ _ _ _ _ _ _ (i_space _ _ _ _ _ _ _ _ _ _ _ _ _ _ IP)) as F.
  destruct (constructs _ _ _ _ _ _ _ _ _ _ _ _ _ _ IP Hinc Hn (not_crowded _ _ _ _ _ _ _ _ _ _ _ F Hex) m) as (off & E & K). exists off. split; [exact E|]. intros S. destruct (K S) as (bd & E' & _). exists bd. exact E'.
Qed.

(** The builder succeeds, and returns the only spline that interpolates. *)
Theorem builds_unique : forall s d periodic ncells t a b lower upper start n coord x,
  interpolation GINKGO s d periodic ncells t a b lower upper start n coord x -> at_most_one periodic t a b d ncells lower upper n x ->
  forall m bd, builder_construct RA s m GINKGO lower upper start n coord = Ok bd -> (periodic = true -> 0 <= bd_offset bd <= d) ->
  forall X junk sp v dl du, exact_solvers X -> regular_bicgstab X -> has_coefficients sp (ncells + d) -> derivatives_given lower d dl -> derivatives_given upper d du -> a_len v = n ->
  exists c, build RA s lower upper X bd junk sp v dl du = Ok c /\ has_coefficients c (ncells + d) /\
    interpolates periodic t a b d ncells n lower upper x (a_at v) dl du (coefficient c) /\
    forall c', interpolates periodic t a b d ncells n lower upper x (a_at v) dl du c' -> forall i, 0 <= i < ncells + d -> c' i = coefficient c i.
Proof.
  intros until x. intros IP Hu m bd Hbd Hoff X junk sp v dl du Hex Hreg Hsp Hdl Hdu Hv.
  pose proof (space_facts _ _ _ _ _ _ _ (i_space _ _ _ _ _ _ _ _ _ _ _ _ _ _ IP)) as F.
  destruct (constructed_points _ _ _ _ _ _ _ _ _ _ _ _ _ _ IP m bd Hbd) as [Hn Hop].
  assert (Hoff' : 0 <= bd_offset bd <= d). { pose proof (f_d _ _ _ _ _ _ _ F). destruct periodic; [apply Hoff; reflexivity | rewrite Hop by reflexivity; lia]. }
  destruct (sparse_builds _ _ _ _ _ _ _ _ _ _ _ _ _ IP m bd Hbd Hoff' X Hex) with (junk := junk) (sp := sp) (v := v) (dl := dl) (du := du) as (c & E & Hc & Hi); try assumption.
  - intros A HA1 HA2 HA3. rewrite <- HA1. apply Hreg; [congruence|]. rewrite HA1.
    pose proof (collocation_nonsingular s d periodic ncells t a b F lower upper n x (i_closures _ _ _ _ _ _ _ _ _ _ _ _ _ _ IP) Hn (bd_offset bd) Hu (proj1 Hoff') Hop) as NS.
    intros y Hy. apply NS. intros i Hi'. rewrite <- (Hy i Hi'). rewrite !rsum_zsum. apply zsum_ext. intros j Hj. rewrite HA3 by lia. reflexivity.
  - exists c. split; [exact E|]. split; [exact Hc|]. split; [exact Hi|]. intros c' Hc' i Hi'. exact (Hu (a_at v) (asked lower dl) (asked upper du) c' (coefficient c) Hc' Hi i Hi').
Qed.

(** The same on an axis. *)
Definition posed (A : axis) : Prop :=
  well_posed (ax_periodic A) (ax_knots A) (ax_min A) (ax_max A) (ax_degree A) (ax_cells A) (ax_lower A) (ax_upper A) (ax_points A) (ax_point A).
Lemma interp_solution A v w c : interp A v w c -> solution (ax_periodic A) (ax_knots A) (ax_min A) (ax_max A) (ax_degree A) (ax_cells A) (ax_lower A) (ax_upper A) (ax_points A) (ax_point A) v (w Lower) (w Upper) c.
Proof. intros (H1 & H2 & H3). split; [exact H1|]. split; [exact (H2 Lower)|]. split; [exact (H2 Upper) | exact H3]. Qed.
Lemma solution_interp A v w c : solution (ax_periodic A) (ax_knots A) (ax_min A) (ax_max A) (ax_degree A) (ax_cells A) (ax_lower A) (ax_upper A) (ax_points A) (ax_point A) v (w Lower) (w Upper) c -> interp A v w c.
Proof. intros (H1 & H2 & H3 & H4). split; [exact H1|]. split; [intros []; assumption | exact H4]. Qed.
Theorem posed_determined A : posed A -> determined A.
Proof. intros [H _] v w c c' Hc Hc' i Hi. exact (H v (w Lower) (w Upper) c c' (interp_solution _ _ _ _ Hc) (interp_solution _ _ _ _ Hc') i Hi). Qed.
Theorem posed_never_fails : forall s A X bd, posed A -> builder_for GINKGO s A bd -> (ax_periodic A = true -> 0 <= bd_offset bd <= ax_degree A) -> exact_solvers X -> regular_bicgstab X -> never_fails s A X bd.
Proof.
  intros s A X bd [Hu _] (start & coord & m & IP & E & _) Hoff Hex Hreg junk sp v dl du H1 H2 H3 H4.
  destruct (builds_unique _ _ _ _ _ _ _ _ _ _ _ _ _ IP Hu m bd E Hoff X junk sp v dl du Hex Hreg H1 H2 H3 H4) as (c & Ec & _). exists c. exact Ec.
Qed.

(** The result depends neither on the solver, nor on what the memory held, nor on the positions of the points in the dimension. *)
Theorem same_result : forall A, determined A -> forall solver1 s1 bd1 X1 solver2 s2 bd2 X2, builder_for solver1 s1 A bd1 -> exact_solvers X1 -> builder_for solver2 s2 A bd2 -> exact_solvers X2 ->
  forall junk1 sp1 junk2 sp2 v dl du c1 c2, has_coefficients sp1 (ax_size A) -> has_coefficients sp2 (ax_size A) ->
  build RA s1 (ax_lower A) (ax_upper A) X1 bd1 junk1 sp1 v dl du = Ok c1 -> build RA s2 (ax_lower A) (ax_upper A) X2 bd2 junk2 sp2 v dl du = Ok c2 ->
  forall i, 0 <= i < ax_size A -> coefficient c1 i = coefficient c2 i.
Proof.
  intros A Hd solver1 s1 bd1 X1 solver2 s2 bd2 X2 B1 E1 B2 E2 junk1 sp1 junk2 sp2 v dl du c1 c2 S1 S2 R1 R2.
  destruct (builder_exact _ _ _ _ _ B1 E1 _ _ _ _ _ _ S1 R1) as [_ I1]. destruct (builder_exact _ _ _ _ _ B2 E2 _ _ _ _ _ _ S2 R2) as [_ I2]. exact (Hd _ _ _ _ I1 I2).
Qed.
(** A spline is reproduced: built from its values and derivatives, and evaluated at any point. *)
Theorem reproduces : forall A, determined A -> forall solver s bd X, builder_for solver s A bd -> exact_solvers X ->
  forall g : Z -> R, (ax_periodic A = true -> periodic_coefficients g (ax_degree A) (ax_cells A)) ->
  forall v dl du, (forall i, 0 <= i < ax_points A -> a_at v i = spline_1d A g (ax_point A i)) -> derivatives_1d A Lower g (asked (ax_lower A) dl) -> derivatives_1d A Upper g (asked (ax_upper A) du) ->
  forall junk sp c, has_coefficients sp (ax_size A) -> build RA s (ax_lower A) (ax_upper A) X bd junk sp v dl du = Ok c ->
  (forall i, 0 <= i < ax_size A -> coefficient c i = g i) /\
  forall m lower upper y, (ax_min A <= y <= ax_max A)%R -> eval RA s m lower upper y c = Ok (spline_1d A g y : num RA).
Proof.
  intros A Hd solver s bd X B E g Hg v dl du Hv Hl Hu junk sp c Hsp R. destruct (builder_exact _ _ _ _ _ B E _ _ _ _ _ _ Hsp R) as [Hc I].
  assert (C : forall i, 0 <= i < ax_size A -> coefficient c i = g i).
  { apply (Hd _ _ _ _ I). split; [|split; [intros []; assumption | exact Hg]]. intros i Hi. symmetry. exact (Hv i Hi). }
  split; [exact C|]. intros m lower upper y Hy. rewrite <- (spline_1d_ext A _ _ y C). exact (eval_inside _ _ _ _ _ _ _ (builder_space _ _ _ _ B) m lower upper c y Hc Hy).
Qed.

(** Two dimensions. *)
Theorem builds_2d : forall s1 s2 A1 A2 X bd1 bd2, builder_for GINKGO s1 A1 bd1 -> builder_for GINKGO s2 A2 bd2 -> posed A1 -> posed A2 ->
  (ax_periodic A1 = true -> 0 <= bd_offset bd1 <= ax_degree A1) -> (ax_periodic A2 = true -> 0 <= bd_offset bd2 <= ax_degree A2) -> exact_solvers X -> regular_bicgstab X ->
  forall D, data_given A1 A2 D -> forall junk junk_min junk_max work1 work_min work_max work2 sp, has_coefficients_2d sp (ax_size A1) (ax_size A2) ->
  exists c, run_2d s1 s2 A1 A2 X bd1 bd2 junk junk_min junk_max work1 work_min work_max work2 sp D = Ok c /\ has_coefficients_2d c (ax_size A1) (ax_size A2) /\
    interpolates_2d A1 A2 D (coefficient_2d c) /\ periodic_2d A1 A2 (coefficient_2d c).
Proof.
  intros s1 s2 A1 A2 X bd1 bd2 B1 B2 P1 P2 O1 O2 Hex Hreg D HD junk junk_min junk_max work1 work_min work_max work2 sp Hsp.
  destruct (build_2d_total GINKGO GINKGO s1 s2 A1 A2 X bd1 bd2 B1 B2 D HD junk junk_min junk_max work1 work_min work_max work2 sp (posed_never_fails _ _ _ _ P1 B1 O1 Hex Hreg) (posed_never_fails _ _ _ _ P2 B2 O2 Hex Hreg) Hsp) as (c & E).
  exists c. split; [exact E|]. destruct (build_2d_sound GINKGO GINKGO s1 s2 A1 A2 X bd1 bd2 B1 B2 D HD Hex _ _ _ _ _ _ _ _ _ Hsp E) as [H1 H2]. split; [exact H1|]. split; [exact H2|].
  exact (build_2d_periodic GINKGO GINKGO s1 s2 A1 A2 X bd1 bd2 B1 B2 D HD Hex _ _ _ _ _ _ _ _ _ Hsp E (posed_determined A2 P2)).
Qed.
Theorem same_result_2d : forall A1 A2, determined A1 -> determined A2 ->
  forall solver1 solver2 s1 s2 bd1 bd2 X solver1' solver2' s1' s2' bd1' bd2' X', builder_for solver1 s1 A1 bd1 -> builder_for solver2 s2 A2 bd2 -> exact_solvers X ->
  builder_for solver1' s1' A1 bd1' -> builder_for solver2' s2' A2 bd2' -> exact_solvers X' ->
  forall D, data_given A1 A2 D -> forall j1 j2 j3 j4 j5 j6 j7 sp c j1' j2' j3' j4' j5' j6' j7' sp' c', has_coefficients_2d sp (ax_size A1) (ax_size A2) -> has_coefficients_2d sp' (ax_size A1) (ax_size A2) ->
  run_2d s1 s2 A1 A2 X bd1 bd2 j1 j2 j3 j4 j5 j6 j7 sp D = Ok c -> run_2d s1' s2' A1 A2 X' bd1' bd2' j1' j2' j3' j4' j5' j6' j7' sp' D = Ok c' ->
  forall i j, 0 <= i < ax_size A1 -> 0 <= j < ax_size A2 -> coefficient_2d c i j = coefficient_2d c' i j.
Proof.
  intros A1 A2 D1 D2 solver1 solver2 s1 s2 bd1 bd2 X solver1' solver2' s1' s2' bd1' bd2' X' B1 B2 Hex B1' B2' Hex' D HD j1 j2 j3 j4 j5 j6 j7 sp c j1' j2' j3' j4' j5' j6' j7' sp' c' Hsp Hsp' E E' i j Hi Hj.
  destruct (build_2d_lines solver1 solver2 s1 s2 A1 A2 X bd1 bd2 B1 B2 D HD Hex _ _ _ _ _ _ _ _ _ Hsp E) as (_ & u & w & L2 & L1 & Ld).
  destruct (build_2d_lines solver1' solver2' s1' s2' A1 A2 X' bd1' bd2' B1' B2' D HD Hex' _ _ _ _ _ _ _ _ _ Hsp' E') as (_ & u' & w' & L2' & L1' & Ld').
  apply (D2 (u' i) (fun e => w' e i)); [|exact (L2' i Hi) | exact Hj]. apply (interp_ext A2 (u i) _ (fun e => w e i)); [| |exact (L2 i Hi)].
  - intros k Hk. exact (D1 _ _ _ _ (L1 k Hk) (L1' k Hk) i Hi).
  - intros e l Hl. exact (D1 _ _ _ _ (Ld e l Hl) (Ld' e l Hl) i Hi).
Qed.
