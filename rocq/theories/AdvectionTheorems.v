(** The advection program: what it prints. *)
From Coq Require Import Bool Reals Lia Lra ZifyBool List Sorted.
From Verif Require Import Machine MachineProofs TypeSeqModel TaggedModel DomainModel DomainSpec DomainProofs ListAux DomainProofs2 SpanModel ReduceModel ArithModel
  UniformProofs ProgramModel ProgramProofs GridProofs LineProofs SamplingModel SamplingSpec SamplingProofs PointsProofs HeatModel HeatSpec HeatProofs HeatReals
  AdvectionSpec AdvectionMath AdvectionMove AdvectionProofs LoopModel LoopProofs EvaluatorSpace PointsSpec PointsProofs3 PointsLemmas SplineLemmas2 LinearGauss HeatTheorems.
Import ListNotations.
Local Open Scope bool_scope. Local Open Scope Z_scope.
Local Arguments Z.pow : simpl never.

Section Main.
Context (d nx ny : Z) (a b vx c e t0 t1 max_dt : R) (period : Z) (solver : spline_solver) (X : solvers RA) (ceil exp : R -> R).
Hypothesis Hsz : advection_sizes d nx ny.
Hypothesis Hab : (a < b)%R.
Hypothesis Hce : (c < e)%R.
Hypothesis Ht : (t0 < t1)%R.
Hypothesis Hdt : (0 < max_dt)%R.
Hypothesis Hst : ((t1 - t0) / max_dt <= IZR (2 ^ 61))%R.
Hypothesis Hper : 0 < period.
Hypothesis Hceil : rounds_up ceil.
Hypothesis Hex : exact_solvers X.
Hypothesis Hdrop : nothing_dropped solver d nx a b.
Notation main := (advection_main RA ceil exp solver X d a b nx vx c e ny t0 t1 period max_dt).
Lemma shown_more (n : nat) : (Z.of_nat n mod period =? 0) = false -> shown_steps period n = filter (fun k => Z.of_nat k mod period =? 0) (seq 0 (S n)) ++ [n].
Proof.
  intros H. unfold shown_steps. rewrite seq_S, !filter_app. cbn [filter plus]. rewrite H, Nat.eqb_refl, app_nil_r. cbn [orb]. f_equal.
  apply filter_ext_in. intros k Hk. apply in_seq in Hk. replace (Nat.eqb k n) with false by (symmetry; apply Nat.eqb_neq; lia). now rewrite orb_false_r.
Qed.
Lemma main_ok m junk_next junk_coef junk N D : fewest_steps t0 t1 max_dt N -> advection_history d nx ny a b c e exp (vx * ((t1 - t0) / IZR N)) D ->
  post (solver = GINKGO /\ regular_bicgstab X) (fun lines => lines = heat_lines nx ny t0 t1 period N D) (main m junk_next junk_coef junk).
Proof.
  intros HN (H0 & HD). pose proof Hsz as (S1 & S2 & S3 & S4). unfold advection_main.
  destruct (pts_uniform hx d true a b nx PERIODIC PERIODIC S1 ltac:(lia) Hab S3 ltac:(unfold is_uniform_points; rewrite ?orb_true_r; reflexivity) (conj eq_refl eq_refl)) as (s & u & Es & Eu & _ & Hu & _ & _ & _ & Eg & _).
  rewrite Es. cbn [rbind]. rewrite Eu. cbn [rbind]. rewrite Eg. rewrite mk_domain_1' by lia. cbn [rbind].
  destruct (us_init_ok hy c e ny Hce ltac:(lia)) as (sy & Ey & Hy & _). rewrite Ey. cbn [rbind].
  destruct (time_ok ceil t0 t1 max_dt Hceil Ht Hdt Hst) as (times & N' & Et & HN' & N2 & Hcoord & Hstep).
  assert (N' = N) as -> by (eapply fewest_unique; eauto). rewrite Et. cbn [rbind]. rewrite merge_xy by lia. cbn [rbind]. rewrite !Z.add_0_l.
  cbn [front dom_begin map fst snd one_elem rbind].
  assert (Hxp : forall k, 0 <= k < 2 ^ 63 -> us_coordinate RA u k = (x_point d nx a b k : num RA)) by (intros k Hk; rewrite Hu by exact Hk; symmetry; apply (x_point_greville d nx a b S1)).
  set (last := mk_arr2 _ _ _).
  assert (HL : holds nx ny last (D O)).
  { split; [reflexivity|]. split; [reflexivity|]. intros i j Hi Hj. rewrite H0 by auto. unfold last. cbn [a2_at]. unfold initial_density, gaussian, lit_hot. rewrite Hxp, Hy by lia.
    cbn [RA nmul ndiv nadd nopp nofz num]. change (num RA) with R in *. unfold y_point, pt. set (x := x_point d nx a b i). set (y := (c + IZR j * ((e - c) / IZR (ny - 1)))%R).
    assert (E : (- (x * x + y * y) / (1 / 10) / 2)%R = (- (x * x + y * y) / (2 * (1 / 10)))%R) by field. rewrite E. reflexivity. }
  rewrite (display_ok nx ny _ last (D O)) by (lia || exact HL). cbn [rbind].
  eapply post_bind; [exact (constructed d nx ny a b solver X Hsz Hab Hdrop s Es u Hxp m)|]. intros bd (Hbd & Hoff).
  assert (Er : remove_first [(ht, (0, N + 1))] [(ht, 1)] = Ok [(ht, (1, N + 1))]).
  { destruct HN as [HN _]. unfold remove_first, front. cbn [dom_begin map fst snd]. rewrite elem_add_1 by lia. cbn [rbind]. rewrite extents_1' by lia. cbn [rbind].
    rewrite vect_sub_1 by lia. cbn [rbind]. rewrite mk_domain_1' by lia. f_equal. f_equal. f_equal. f_equal; lia. }
  rewrite Er. cbn [rbind dom_begin dom_end map fst snd one_elem]. destruct HN as [HN HN3].
  set (delta := (vx * ((t1 - t0) / IZR N))%R) in *.
  assert (Ed : nmul RA vx (us_step RA times) = delta) by (rewrite Hstep; reflexivity). rewrite Ed.
  eapply post_bind.
  - apply (post_for _ (inv d nx ny D (us_coordinate RA times) period)); [lia| |].
    + split; [exact HL|]. split; [reflexivity|]. split; [reflexivity|]. split; [|split].
      * intros j Hj. split; [reflexivity|]. cbn [v_coef]. unfold c1_size. cbn [c1_vals a_len].
        exact (f_size _ _ _ _ _ _ _ (space_facts _ _ _ _ _ _ _ (space d nx a b S1 S2 S3 Hab s hx Es))).
      * change (1 - 1) with 0. rewrite Z.div_0_l, Z.mul_0_r by lia. reflexivity.
      * unfold lines_before. change (Z.to_nat 1) with 1%nat. cbn [seq filter]. change (Z.of_nat 0) with 0. rewrite Z.mod_0_l by lia. reflexivity.
    + intros k st Hk Hi. refine (iteration_ok d nx ny a b solver X Hsz Hab Hex Hdrop s Es u Hxp m bd Hbd Hoff D delta HD (us_coordinate RA times) period Hper junk k st _ Hi). lia.
  - intros st (I1 & I2 & I3 & I4 & I5 & I6). replace (N + 1 - 1) with N in * by lia.
    assert (Eb : back [(ht, (0, N + 1))] = [(ht, N)]). { rewrite back_1 by lia. do 2 f_equal. lia. }
    rewrite Eb. cbn [rbind one_elem]. rewrite I5. set (n := Z.to_nat N) in *.
    assert (E1 := Z.div_mod N period ltac:(lia)). assert (E2 := Z.mod_pos_bound N period Hper).
    assert (El : forall k, (k <= n)%nat -> line_of nx ny (us_coordinate RA times (Z.of_nat k)) (D k) = line_of nx ny (t0 + IZR (Z.of_nat k) * (t1 - t0) / IZR N) (D k)) by (intros k Hk; rewrite Hcoord by lia; reflexivity).
    assert (Eq : forall l, (forall k, In k l -> (k <= n)%nat) -> map (fun k => line_of nx ny (us_coordinate RA times (Z.of_nat k)) (D k)) l = map (fun k => line_of nx ny (t0 + IZR (Z.of_nat k) * (t1 - t0) / IZR N) (D k)) l).
    { intros l Hl. apply map_ext_in. intros k Hk. apply El, Hl, Hk. }
    rewrite I6. unfold lines_before. replace (Z.to_nat (N + 1)) with (S n) by lia.
    rewrite Eq by (intros k Hk; apply filter_In in Hk as [Hk _]; apply in_seq in Hk; lia).
    destruct (period * (N / period) <? N) eqn:C.
    + rewrite (display_ok nx ny _ _ _ ltac:(lia) ltac:(lia) I1). cbn [rbind post]. unfold heat_lines. fold n. rewrite shown_more by (subst n; rewrite Z2Nat.id by lia; lia).
      rewrite map_app. cbn [map]. rewrite <- El by lia. subst n. rewrite Z2Nat.id by lia. reflexivity.
    + cbn [post]. unfold heat_lines. fold n. rewrite shown_all' by (subst n; rewrite Z2Nat.id by lia; lia). reflexivity.
Qed.
Lemma steps_exist : exists N, fewest_steps t0 t1 max_dt N.
Proof. destruct (time_ok ceil t0 t1 max_dt Hceil Ht Hdt Hst) as (times & N & _ & H & _). now exists N. Qed.
Lemma hist delta : exists D, advection_history d nx ny a b c e exp delta D.
Proof.
  destruct Hsz as (S1 & S2 & S3 & S4). destruct (pts_uniform hx d true a b nx PERIODIC PERIODIC S1 ltac:(lia) Hab S3 ltac:(unfold is_uniform_points; rewrite ?orb_true_r; reflexivity) (conj eq_refl eq_refl)) as (s & u & Es & _).
  exact (history_exists d nx ny a b S1 S2 S3 Hab s hx Es c e exp delta).
Qed.
End Main.

(** *** statements *)
Section Results.
Context (d nx ny : Z) (a b vx c e t0 t1 max_dt : R) (period : Z) (solver : spline_solver) (X : solvers RA) (ceil exp : R -> R).
Hypothesis I : advection_inputs d nx ny a b c e t0 t1 max_dt period solver X ceil.
Notation main := (advection_main RA ceil exp solver X d a b nx vx c e ny t0 t1 period max_dt).
Notation history N := (advection_history d nx ny a b c e exp (vx * ((t1 - t0) / IZR N))).
Let run m jn jc j N D := main_ok d nx ny a b vx c e t0 t1 max_dt period solver X ceil exp (in_sizes _ _ _ _ _ _ _ _ _ _ _ _ _ _ I) (in_x _ _ _ _ _ _ _ _ _ _ _ _ _ _ I)
  (in_y _ _ _ _ _ _ _ _ _ _ _ _ _ _ I) (in_t _ _ _ _ _ _ _ _ _ _ _ _ _ _ I) (in_dt _ _ _ _ _ _ _ _ _ _ _ _ _ _ I) (in_steps _ _ _ _ _ _ _ _ _ _ _ _ _ _ I)
  (in_period _ _ _ _ _ _ _ _ _ _ _ _ _ _ I) (in_ceil _ _ _ _ _ _ _ _ _ _ _ _ _ _ I) (in_exact _ _ _ _ _ _ _ _ _ _ _ _ _ _ I) (in_dropped _ _ _ _ _ _ _ _ _ _ _ _ _ _ I) m jn jc j N D.
Lemma steps_and_history : exists N D, fewest_steps t0 t1 max_dt N /\ history N D.
Proof.
  destruct I. destruct (steps_exist t0 t1 max_dt ceil in_t in_dt in_steps in_ceil) as (N & HN).
  destruct (hist d nx ny a b c e exp in_sizes in_x (vx * ((t1 - t0) / IZR N))%R) as (D & HD). exists N, D. auto.
Qed.
Theorem advection_prints : exists N D, fewest_steps t0 t1 max_dt N /\ history N D /\
  (forall N' D', fewest_steps t0 t1 max_dt N' -> history N' D' -> N' = N /\ forall n i j, 0 <= i < nx -> 0 <= j < ny -> D' n i j = D n i j) /\
  forall m junk_next junk_coef junk lines, main m junk_next junk_coef junk = Ok lines -> lines = heat_lines nx ny t0 t1 period N D.
Proof.
  destruct steps_and_history as (N & D & HN & HD). exists N, D. split; [exact HN|]. split; [exact HD|]. split.
  - intros N' D' HN' HD'. assert (N' = N) as -> by (eapply fewest_unique; eauto; apply I). split; [reflexivity|]. destruct I. destruct in_sizes as (S1 & S2 & S3 & S4).
    destruct (pts_uniform hx d true a b nx PERIODIC PERIODIC S1 ltac:(lia) in_x S3 ltac:(unfold is_uniform_points; rewrite ?orb_true_r; reflexivity) (conj eq_refl eq_refl)) as (s & u & Es & _).
    intros n i j Hi Hj. exact (AdvectionMove.history_unique d nx ny a b S1 S2 S3 in_x s hx Es c e exp _ D' D HD' HD n i j Hi Hj).
  - intros m jn jc j lines E. pose proof (run m jn jc j N D HN HD) as P. change (num RA) with R in *. rewrite E in P. exact P.
Qed.
Theorem advection_runs : solver = GINKGO -> regular_bicgstab X -> forall m junk_next junk_coef junk, exists lines, main m junk_next junk_coef junk = Ok lines.
Proof.
  intros Es Hr m jn jc j. destruct steps_and_history as (N & D & HN & HD). pose proof (run m jn jc j N D HN HD) as P. change (num RA) with R in *.
  destruct (main m jn jc j) as [l| |]; [now exists l | exfalso; apply P; auto..].
Qed.
Let S1 : 1 <= d. Proof. apply I. Qed.
Let S2 : d + 1 <= nx. Proof. apply I. Qed.
Let S3 : nx + 1 + 2 * d < 2 ^ 31. Proof. apply I. Qed.
Let S4 : 2 <= ny < 2 ^ 31. Proof. apply I. Qed.
Let Hab : (a < b)%R. Proof. apply I. Qed.
Lemma some_space : exists s, spline_space (Uniform s) d true nx (uniform_knots d a b nx) a b.
Proof.
  destruct (pts_uniform hx d true a b nx PERIODIC PERIODIC S1 ltac:(lia) Hab S3 ltac:(unfold is_uniform_points; rewrite ?orb_true_r; reflexivity) (conj eq_refl eq_refl)) as (s & u & Es & _).
  exists s. exact (space d nx a b S1 S2 S3 Hab s hx Es).
Qed.
Theorem advection_output : forall m junk_next junk_coef junk lines, main m junk_next junk_coef junk = Ok lines -> printed_times t0 t1 lines /\ same_mean lines.
Proof.
  intros m jn jc j lines E. destruct advection_prints as (N & D & HN & HD & _ & HP). rewrite (HP _ _ _ _ _ E). split.
  - apply lines_times; [apply I | apply HN].
  - apply lines_mean. intros k. destruct some_space as (s & Sp). apply (moved_total d nx a b S1 S2 Hab (Uniform s) (space_facts _ _ _ _ _ _ _ Sp) ny (vx * ((t1 - t0) / IZR N))%R). apply HD.
Qed.
Theorem advection_whole_cells : forall N q, fewest_steps t0 t1 max_dt N -> (vx * ((t1 - t0) / IZR N) = IZR q * ((b - a) / IZR nx))%R ->
  forall m junk_next junk_coef junk lines, main m junk_next junk_coef junk = Ok lines ->
  lines = heat_lines nx ny t0 t1 period N (fun n i j => gaussian exp (x_point d nx a b ((i - Z.of_nat n * q) mod nx)) (y_point ny c e j)).
Proof.
  intros N q HN Hq m jn jc j lines E. destruct advection_prints as (N' & D & HN' & HD & _ & HP). assert (N' = N) as -> by (eapply fewest_unique; eauto; apply I).
  rewrite (HP _ _ _ _ _ E). destruct some_space as (s & Sp). destruct HD as (H0 & HD). apply heat_lines_ext; try lia.
  assert (Mx : forall z, 0 <= z mod nx < nx) by (intros; apply Z.mod_pos_bound; lia).
  induction k as [|k IH]; intros i j' Hi Hj.
  - rewrite H0 by auto. replace (i - Z.of_nat 0 * q) with i by lia. now rewrite Z.mod_small by lia.
  - rewrite (moved_cells d nx a b S1 S2 Hab (Uniform s) (space_facts _ _ _ _ _ _ _ Sp) ny q _ _ _ Hq (HD k)) by auto.
    rewrite IH by auto. do 2 f_equal. rewrite Zminus_mod_idemp_l. f_equal. lia.
Qed.
Theorem advection_linear : d = 1 -> (forall x, (x <= 0)%R -> (0 <= exp x <= 1)%R) ->
  forall m junk_next junk_coef junk lines, main m junk_next junk_coef junk = Ok lines -> printed_within 0 (9999 / 1000) lines.
Proof.
  intros Ed He m jn jc j lines E. destruct advection_prints as (N & D & HN & HD & _ & HP). rewrite (HP _ _ _ _ _ E). destruct some_space as (s & Sp). destruct HD as (H0 & HD).
  apply lines_within; try lia. induction k as [|k IH]; intros i j' Hi Hj.
  - rewrite H0 by auto. unfold gaussian. set (x := x_point d nx a b i). set (y := y_point ny c e j').
    assert (L : (- (x * x + y * y) / (2 * (1 / 10)) <= 0)%R). { assert (0 <= x * x)%R by apply Rle_0_sqr. assert (0 <= y * y)%R by apply Rle_0_sqr. lra. }
    specialize (He _ L). lra.
  - refine (moved_linear d nx a b S1 S2 Hab (Uniform s) (space_facts _ _ _ _ _ _ _ Sp) ny _ _ _ _ _ Ed _ (HD k) i j' Hi Hj). exact IH.
Qed.
End Results.
Lemma ginkgo_drops_nothing d nx a b : advection_sizes d nx 2 -> nothing_dropped GINKGO d nx a b.
Proof.
  intros (S1 & S2 & S3 & S4). split; [cbn; unfold unknowns; lia|]. cbn [problem_of shape_of]. unfold unknowns. split.
  - intros i l Hi Hm. exfalso. cbn in Hi. unfold in_main in Hm. cbn in Hm. lia.
  - intros j y Hj Hm. exfalso. cbn in Hj. unfold in_main in Hm. cbn in Hm. lia.
Qed.
