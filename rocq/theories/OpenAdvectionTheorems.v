(** The non-periodic advection program: what it prints. *)
From Coq Require Import Bool Reals Lia Lra ZifyBool List Sorted.
From Verif Require Import Machine MachineProofs TypeSeqModel TaggedModel DomainModel DomainSpec DomainProofs ListAux DomainProofs2 SpanModel ReduceModel ArithModel
  UniformProofs ProgramModel ProgramProofs GridProofs LineProofs SamplingModel SamplingSpec SamplingProofs PointsProofs HeatModel HeatSpec HeatProofs HeatReals
  AdvectionSpec AdvectionMath AdvectionMove AdvectionProofs AdvectionTheorems OpenAdvectionSpec OpenAdvectionProofs PointsProofs2 BSplineMath BSplineDeriv IntegralMath IntegralMath2 LoopModel LoopProofs EvaluatorSpace EvaluatorProofs PointsSpec PointsProofs3 PointsLemmas SplineLemmas2 LinearGauss HeatTheorems.
Import ListNotations.
Local Open Scope bool_scope. Local Open Scope Z_scope.
Local Arguments Z.pow : simpl never.

Lemma shown_more_than period (n : nat) : (Z.of_nat n mod period =? 0) = false -> shown_steps period n = filter (fun k => Z.of_nat k mod period =? 0) (seq 0 (S n)) ++ [n].
Proof.
  intros H. unfold shown_steps. rewrite seq_S, !filter_app. cbn [filter plus]. rewrite H, Nat.eqb_refl, app_nil_r. cbn [orb]. f_equal.
  apply filter_ext_in. intros k Hk. apply in_seq in Hk. replace (Nat.eqb k n) with false by (symmetry; apply Nat.eqb_neq; lia). now rewrite orb_false_r.
Qed.
Section Main.
Context (d nx ny : Z) (a b vx c e t0 t1 max_dt : R) (period : Z) (solver : spline_solver) (X : solvers RA) (ceil exp : R -> R).
Hypothesis Hsz : open_sizes d nx ny.
Hypothesis Hab : (a < b)%R.
Hypothesis Hce : (c < e)%R.
Hypothesis Ht : (t0 < t1)%R.
Hypothesis Hdt : (0 < max_dt)%R.
Hypothesis Hst : ((t1 - t0) / max_dt <= IZR (2 ^ 61))%R.
Hypothesis Hper : 0 < period.
Hypothesis Hceil : rounds_up ceil.
Hypothesis Hex : exact_solvers X.
Hypothesis Hdrop : open_nothing_dropped solver d nx a b.
Notation main := (open_main RA ceil exp solver X d a b nx vx c e ny t0 t1 period max_dt).
Notation np := (nx + d).
Lemma open_main_ok m junk_next junk_coef junk N D : fewest_steps t0 t1 max_dt N -> open_history d nx ny a b c e exp (vx * ((t1 - t0) / IZR N)) D ->
  post (solver = GINKGO /\ regular_bicgstab X) (fun lines => lines = Some (heat_lines np ny t0 t1 period N D)) (main m junk_next junk_coef junk).
Proof.
  intros HN (H0 & HD). pose proof Hsz as (S1 & S2 & S3 & S4). unfold open_main.
  destruct (open_grid d nx a b S1 S2 Hab S3) as (s & Es & Eu & Eg & _ & _ & _ & _ & SP). set (x := open_point d nx a b) in *.
  rewrite Es. cbn [rbind]. rewrite Eu. cbn [rbind]. rewrite Eg. rewrite mk_domain_1' by lia. cbn [rbind].
  destruct (us_init_ok hy c e ny Hce ltac:(lia)) as (sy & Ey & Hy & _). rewrite Ey. cbn [rbind].
  destruct (time_ok ceil t0 t1 max_dt Hceil Ht Hdt Hst) as (times & N' & Et & HN' & N2 & Hcoord & Hstep).
  assert (N' = N) as -> by (eapply fewest_unique; eauto). rewrite Et. cbn [rbind]. rewrite merge_xy by lia. cbn [rbind]. rewrite !Z.add_0_l.
  assert (Hco : forall i, 0 <= i < np -> ns_coordinate RA (mk_ns RA (points_of np x) 0) i = Ok (x i : num RA)) by (intros i Hi; apply points_coord; [exact Hi | lia]).
  rewrite (map_res_ok _ (fun i => x i : num RA)) by (intros i Hi; apply in_zrange in Hi; apply Hco; lia). cbn [rbind].
  set (points := fun i => nth (Z.to_nat i) _ _).
  assert (Hp : forall i, 0 <= i < np -> points i = x i).
  { intros i Hi. unfold points, zrange. rewrite map_map. rewrite (nth_indep _ _ (x (Z.of_nat 0))) by (rewrite map_length, seq_length; lia). rewrite (map_nth (fun k => x (Z.of_nat k))). rewrite seq_nth by lia. f_equal. lia. }
  cbn [front dom_begin map fst snd one_elem rbind].
  set (last := mk_arr2 _ _ _).
  assert (HL : holds np ny last (D O)).
  { split; [reflexivity|]. split; [reflexivity|]. intros i j Hi Hj. rewrite H0 by auto. unfold last. cbn [a2_at]. unfold initial_density, gaussian, lit_hot. change (nth (Z.to_nat i) _ _) with (points i). rewrite Hp, Hy by lia.
    cbn [RA nmul ndiv nadd nopp nofz num]. change (num RA) with R in *. unfold y_point, pt. set (y := (c + IZR j * ((e - c) / IZR (ny - 1)))%R).
    assert (E : (- (x i * x i + y * y) / (1 / 10) / 2)%R = (- (x i * x i + y * y) / (2 * (1 / 10)))%R) by field. rewrite E. reflexivity. }
  rewrite (display_ok np ny _ last (D O)) by (lia || exact HL). cbn [rbind].
  eapply post_bind; [exact (open_constructed d nx ny a b solver X Hsz Hab Hdrop s SP _ Hco points Hp m)|]. intros bd Hbd.
  assert (Er : remove_first [(ht, (0, N + 1))] [(ht, 1)] = Ok [(ht, (1, N + 1))]).
  { destruct HN as [HN _]. unfold remove_first, front. cbn [dom_begin map fst snd]. rewrite elem_add_1 by lia. cbn [rbind]. rewrite extents_1' by lia. cbn [rbind].
    rewrite vect_sub_1 by lia. cbn [rbind]. rewrite mk_domain_1' by lia. f_equal. f_equal. f_equal. f_equal; lia. }
  rewrite Er. cbn [rbind dom_begin dom_end map fst snd one_elem]. destruct HN as [HN HN3].
  set (delta := (vx * ((t1 - t0) / IZR N))%R) in *.
  assert (Ed : nmul RA vx (us_step RA times) = delta) by (rewrite Hstep; reflexivity). rewrite Ed.
  eapply post_bind.
  - apply (post_for _ (open_inv d nx ny D (us_coordinate RA times) period)); [lia| |].
    + split; [exact HL|]. split; [reflexivity|]. split; [reflexivity|]. split; [|split].
      * intros j Hj. split; [reflexivity|]. cbn [v_coef]. unfold c1_size. cbn [c1_vals a_len].
        exact (f_size _ _ _ _ _ _ _ (space_facts _ _ _ _ _ _ _ SP)).
      * change (1 - 1) with 0. rewrite Z.div_0_l, Z.mul_0_r by lia. reflexivity.
      * unfold lines_before. change (Z.to_nat 1) with 1%nat. cbn [seq filter]. change (Z.of_nat 0) with 0. rewrite Z.mod_0_l by lia. reflexivity.
    + intros k st Hk Hi. refine (open_iteration_ok d nx ny a b solver X Hsz Hab Hex Hdrop s SP _ Hco points Hp m bd Hbd D delta HD (us_coordinate RA times) period Hper junk k st _ Hi). lia.
  - intros st (I1 & I2 & I3 & I4 & I5 & I6). replace (N + 1 - 1) with N in * by lia.
    assert (Eb : back [(ht, (0, N + 1))] = [(ht, N)]). { rewrite back_1 by lia. do 2 f_equal. lia. }
    rewrite Eb. cbn [rbind one_elem]. rewrite I5. set (n := Z.to_nat N) in *.
    assert (E1 := Z.div_mod N period ltac:(lia)). assert (E2 := Z.mod_pos_bound N period Hper).
    assert (El : forall k, (k <= n)%nat -> line_of np ny (us_coordinate RA times (Z.of_nat k)) (D k) = line_of np ny (t0 + IZR (Z.of_nat k) * (t1 - t0) / IZR N) (D k)) by (intros k Hk; rewrite Hcoord by lia; reflexivity).
    assert (Eq : forall l, (forall k, In k l -> (k <= n)%nat) -> map (fun k => line_of np ny (us_coordinate RA times (Z.of_nat k)) (D k)) l = map (fun k => line_of np ny (t0 + IZR (Z.of_nat k) * (t1 - t0) / IZR N) (D k)) l).
    { intros l Hl. apply map_ext_in. intros k Hk. apply El, Hl, Hk. }
    rewrite I6. unfold lines_before. replace (Z.to_nat (N + 1)) with (S n) by lia.
    rewrite Eq by (intros k Hk; apply filter_In in Hk as [Hk _]; apply in_seq in Hk; lia).
    destruct (period * (N / period) <? N) eqn:C.
    + rewrite (display_ok np ny _ _ _ ltac:(lia) ltac:(lia) I1). cbn [rbind post]. unfold heat_lines. fold n. rewrite shown_more_than by (subst n; rewrite Z2Nat.id by lia; lia).
      rewrite map_app. cbn [map]. rewrite <- El by lia. subst n. rewrite Z2Nat.id by lia. reflexivity.
    + cbn [post]. unfold heat_lines. fold n. rewrite shown_all' by (subst n; rewrite Z2Nat.id by lia; lia). reflexivity.
Qed.
End Main.

(** *** statements *)
Section Results.
Context (d nx ny : Z) (a b vx c e t0 t1 max_dt : R) (period : Z) (solver : spline_solver) (X : solvers RA) (ceil exp : R -> R).
Hypothesis I : open_inputs d nx ny a b c e t0 t1 max_dt period solver X ceil.
Notation main := (open_main RA ceil exp solver X d a b nx vx c e ny t0 t1 period max_dt).
Notation history N := (open_history d nx ny a b c e exp (vx * ((t1 - t0) / IZR N))).
Notation np := (nx + d).
Let run m jn jc j N D := open_main_ok d nx ny a b vx c e t0 t1 max_dt period solver X ceil exp (op_sizes _ _ _ _ _ _ _ _ _ _ _ _ _ _ I) (op_x _ _ _ _ _ _ _ _ _ _ _ _ _ _ I)
  (op_y _ _ _ _ _ _ _ _ _ _ _ _ _ _ I) (op_t _ _ _ _ _ _ _ _ _ _ _ _ _ _ I) (op_dt _ _ _ _ _ _ _ _ _ _ _ _ _ _ I) (op_steps _ _ _ _ _ _ _ _ _ _ _ _ _ _ I)
  (op_period _ _ _ _ _ _ _ _ _ _ _ _ _ _ I) (op_ceil _ _ _ _ _ _ _ _ _ _ _ _ _ _ I) (op_exact _ _ _ _ _ _ _ _ _ _ _ _ _ _ I) (op_dropped _ _ _ _ _ _ _ _ _ _ _ _ _ _ I) m jn jc j N D.
Let S1 : 1 <= d <= 8. Proof. apply I. Qed.
Let S2 : 3 <= nx. Proof. apply I. Qed.
Let S3 : nx + 1 + 2 * d < 2 ^ 31. Proof. apply I. Qed.
Let S4 : 2 <= ny < 2 ^ 31. Proof. apply I. Qed.
Let Hab : (a < b)%R. Proof. apply I. Qed.
Lemma open_steps_and_history : exists N D, fewest_steps t0 t1 max_dt N /\ history N D.
Proof.
  destruct I. destruct (steps_exist t0 t1 max_dt ceil op_t op_dt op_steps op_ceil) as (N & HN).
  destruct (open_history_exists d nx a b S1 S2 S3 Hab ny c e exp (vx * ((t1 - t0) / IZR N))%R) as (D & HD). exists N, D. auto.
Qed.
Theorem open_prints : exists N D, fewest_steps t0 t1 max_dt N /\ history N D /\
  (forall N' D', fewest_steps t0 t1 max_dt N' -> history N' D' -> N' = N /\ forall n i j, 0 <= i < np -> 0 <= j < ny -> D' n i j = D n i j) /\
  forall m junk_next junk_coef junk out, main m junk_next junk_coef junk = Ok out -> out = Some (heat_lines np ny t0 t1 period N D).
Proof.
  destruct open_steps_and_history as (N & D & HN & HD). exists N, D. split; [exact HN|]. split; [exact HD|]. split.
  - intros N' D' HN' HD'. assert (N' = N) as -> by (eapply fewest_unique; eauto; apply I). split; [reflexivity|].
    intros n i j Hi Hj. exact (open_history_unique d nx a b S1 S2 S3 Hab ny c e exp _ D' D HD' HD n i j Hi Hj).
  - intros m jn jc j lines E. pose proof (run m jn jc j N D HN HD) as P. change (num RA) with R in *. rewrite E in P. exact P.
Qed.
Theorem open_runs : solver = GINKGO -> regular_bicgstab X -> forall m junk_next junk_coef junk, exists lines, main m junk_next junk_coef junk = Ok (Some lines).
Proof.
  intros Es Hr m jn jc j. destruct open_steps_and_history as (N & D & HN & HD). pose proof (run m jn jc j N D HN HD) as P. change (num RA) with R in *.
  destruct (main m jn jc j) as [l| |]; cbn [post] in P; [rewrite P; eexists; reflexivity | exfalso; apply P; auto..].
Qed.
Theorem open_times : forall m junk_next junk_coef junk lines, main m junk_next junk_coef junk = Ok (Some lines) -> printed_times t0 t1 lines.
Proof.
  intros m jn jc j lines E. destruct open_prints as (N & D & HN & HD & _ & HP). pose proof (HP _ _ _ _ _ E) as Q. assert (lines = heat_lines np ny t0 t1 period N D) as -> by congruence.
  apply lines_times; [apply I | apply HN].
Qed.
(** Displacements longer than the interval leave nothing. *)
Lemma moved_out delta D D' : (b - a < Rabs delta)%R -> open_moved d nx ny a b delta D D' -> forall i j, 0 <= i < np -> 0 <= j < ny -> D' i j = 0%R.
Proof.
  intros Hl H i j Hi Hj. destruct (H j Hj) as (k & _ & B). destruct (B i Hi) as [_ B']. pose proof (open_in d nx a b S1 S2 S3 Hab i Hi). apply B'. unfold Rabs in Hl. destruct (Rcase_abs delta); lra.
Qed.
Lemma gaussian_bounds x y : (forall x, (x <= 0)%R -> (0 <= exp x <= 1)%R) -> (0 <= gaussian exp x y <= 9999 / 1000)%R.
Proof.
  intros He. unfold gaussian. assert (L : (- (x * x + y * y) / (2 * (1 / 10)) <= 0)%R). { assert (0 <= x * x)%R by apply Rle_0_sqr. assert (0 <= y * y)%R by apply Rle_0_sqr. lra. }
  specialize (He _ L). lra.
Qed.
Theorem open_swept : forall N, fewest_steps t0 t1 max_dt N -> (b - a < Rabs (vx * ((t1 - t0) / IZR N)))%R ->
  forall m junk_next junk_coef junk lines, main m junk_next junk_coef junk = Ok (Some lines) ->
  lines = heat_lines np ny t0 t1 period N (fun n i j => if Nat.eqb n 0 then gaussian exp (open_point d nx a b i) (y_point ny c e j) else 0%R).
Proof.
  intros N HN Hl m jn jc j lines E. destruct open_prints as (N' & D & HN' & HD & _ & HP). assert (N' = N) as -> by (eapply fewest_unique; eauto; apply I).
  pose proof (HP _ _ _ _ _ E) as Q. assert (lines = heat_lines np ny t0 t1 period N D) as -> by congruence. destruct HD as (H0 & HD). apply heat_lines_ext; try lia.
  intros [|k] i j' Hi Hj; cbn [Nat.eqb]; [now apply H0|]. exact (moved_out _ _ _ Hl (HD k) i j' Hi Hj).
Qed.
(** Degree 1: the spline is the piecewise linear interpolant. *)
Lemma open_linear_value k m u : d = 1 -> 0 <= m < nx -> (0 <= u < 1)%R \/ (m = nx - 1 /\ u = 1%R) ->
  spline (uniform_knots d a b nx) b d nx k (a + (IZR m + u) * h nx a b)%R = ((1 - u) * k m + u * k (m + 1)%Z)%R.
Proof.
  intros Ed Hm Hu. destruct (open_grid d nx a b S1 S2 Hab S3) as (s & _ & _ & _ & _ & _ & _ & _ & SP). pose proof (space_facts _ _ _ _ _ _ _ SP) as F.
  assert (Hn : d + 1 <= nx) by lia. assert (Hd : 1 <= d) by lia. pose proof (h_pos d nx a b Hd Hn Hab) as Hh. pose proof (AdvectionMath.nh d nx a b Hd Hn) as Hnh.
  rewrite (spline_is_piece _ _ _ _ _ _ _ F (d + m)).
  - rewrite (piece_sum _ _ _ _ _ _ _ F) by lia. destruct (linear_weights d nx a b Hd Hn Hab u Ed) as [W0 W1].
    rewrite (zsum_ext _ _ (fun r => k (m + r)%Z * weight d nx a b r u)%R).
    + replace (d + 1) with (0 + 1 + 1) by lia. rewrite !zsum_S by lia. rewrite zsum_0, Z.add_0_r. change (0 + 1) with 1. rewrite W0, W1. ring.
    + intros r Hr. replace (d + m - d + r) with (m + r) by lia. rewrite (weight_cell d nx a b). reflexivity.
  - split; [lia|]. rewrite !t_at. replace (d + m - d) with m by lia. replace (d + m + 1 - d) with (m + 1) by lia. rewrite plus_IZR.
    destruct Hu as [Hu|[-> ->]]; [left; nra | right]. split; [rewrite minus_IZR; nra | lia].
Qed.
Lemma open_point_linear i : d = 1 -> 0 <= i < np -> open_point d nx a b i = (a + IZR i * h nx a b)%R.
Proof.
  intros Ed Hi. assert (Hn : d + 1 <= nx) by lia. assert (Hd : 1 <= d) by lia. pose proof (AdvectionMath.nh d nx a b Hd Hn) as Hnh.
  unfold open_point, uniform_point. rewrite Ed in *. fold (h nx a b). change (1 / 2) with 0. cbn [andb]. unfold edge_point, half_if_even. cbn [Z.even].
  destruct (i <=? 0) eqn:E0; [replace i with 0 by lia; rewrite Z.mul_0_l; field|].
  destruct (nx + 1 - 1 - i <=? 0) eqn:E1; [|rewrite Z.sub_0_r; ring].
  replace i with nx by lia. replace (nx + 1 - 1 - nx) with 0 by lia. rewrite Z.mul_0_l. lra.
Qed.
Lemma open_moved_linear delta D D' lo hi : d = 1 -> (lo <= 0 <= hi)%R -> (forall i j, 0 <= i < np -> 0 <= j < ny -> (lo <= D i j <= hi)%R) -> open_moved d nx ny a b delta D D' ->
  forall i j, 0 <= i < np -> 0 <= j < ny -> (lo <= D' i j <= hi)%R.
Proof.
  intros E Hz B H i j Hi Hj. destruct (H j Hj) as (k & H0 & H1). assert (Hn : d + 1 <= nx) by lia. assert (Hd : 1 <= d) by lia.
  pose proof (h_pos d nx a b Hd Hn Hab) as Hh. pose proof (AdvectionMath.nh d nx a b Hd Hn) as Hnh.
  assert (C : forall m, 0 <= m < np -> k m = D m j).
  { intros m Hm. destruct (H0 m Hm) as [A _]. rewrite (A (open_in d nx a b S1 S2 S3 Hab m Hm)). rewrite open_point_linear by assumption.
    destruct (Z.eq_dec m nx) as [->|Nm].
    - replace (a + IZR nx * h nx a b)%R with (a + (IZR (nx - 1) + 1) * h nx a b)%R by (rewrite minus_IZR; ring). rewrite open_linear_value by (auto; lia). replace (nx - 1 + 1) with nx by lia. ring.
    - replace (a + IZR m * h nx a b)%R with (a + (IZR m + 0) * h nx a b)%R by ring. rewrite open_linear_value by (auto; try lia; left; lra). ring. }
  destruct (H1 i Hi) as [V Z0]. set (x := (open_point d nx a b i - delta)%R) in *.
  destruct (Rlt_dec x a) as [L|L]; [rewrite Z0 by auto; lra|]. destruct (Rlt_dec b x) as [L'|L']; [rewrite Z0 by auto; lra|]. rewrite V by lra.
  destruct (Req_dec x b) as [Eb|Nb].
  - assert (Hb : (a + (IZR (nx - 1) + 1) * h nx a b = b)%R) by (rewrite minus_IZR; lra). pose proof (open_linear_value k (nx - 1) 1%R E ltac:(lia) (or_intror (conj eq_refl eq_refl))) as V1. rewrite Hb in V1. rewrite Eb, V1. replace (nx - 1 + 1) with nx by lia. rewrite (C nx) by lia. specialize (B nx j ltac:(lia) Hj). lra.
  - destruct (cell_fraction d nx a b Hd Hn Hab x) as (K & u & Hu & Ex).
    assert (HK : 0 <= K < nx).
    { assert (L1 : -1 < K). { apply lt_IZR. change (IZR (-1)) with (-1)%R. apply (Rmult_lt_reg_r (h nx a b)); [exact Hh|]. nra. }
      assert (L2 : K < nx). { apply lt_IZR. apply (Rmult_lt_reg_r (h nx a b)); [exact Hh|]. nra. }
      lia. }
    rewrite Ex, open_linear_value by auto. rewrite !C by lia. pose proof (B K j ltac:(lia) Hj) as B1. pose proof (B (K + 1) j ltac:(lia) Hj) as B2. clear -Hu B1 B2. nra.
Qed.
Theorem open_linear : d = 1 -> (forall x, (x <= 0)%R -> (0 <= exp x <= 1)%R) ->
  forall m junk_next junk_coef junk lines, main m junk_next junk_coef junk = Ok (Some lines) -> printed_within 0 (9999 / 1000) lines.
Proof.
  intros Ed He m jn jc j lines E. destruct open_prints as (N & D & HN & HD & _ & HP). pose proof (HP _ _ _ _ _ E) as Q. assert (lines = heat_lines np ny t0 t1 period N D) as -> by congruence. destruct HD as (H0 & HD).
  apply lines_within; try lia. induction k as [|k IH]; intros i j' Hi Hj.
  - rewrite H0 by auto. now apply gaussian_bounds.
  - refine (open_moved_linear _ _ _ _ _ Ed _ _ (HD k) i j' Hi Hj); [lra | exact IH].
Qed.
End Results.
Theorem open_high_degree : forall d nx (a b : R), 9 <= d -> d <> 10 -> 3 <= nx -> (a < b)%R -> nx + 1 + 2 * d < 2 ^ 31 ->
  forall ceil exp solver X vx c e ny t0 t1 period max_dt m junk_next junk_coef junk,
  open_main RA ceil exp solver X d a b nx vx c e ny t0 t1 period max_dt m junk_next junk_coef junk = Ok None.
Proof.
  intros d nx a b Hd H10 Hn Hab Hbig ceil exp solver X vx c e ny t0 t1 period max_dt m jn jc j.
  destruct (pts_high_degree hx d a b nx GREVILLE Hd Hn Hab Hbig ltac:(discriminate)) as (s & Es & E & _). unfold open_main. rewrite Es. cbn [rbind]. rewrite (E H10). reflexivity.
Qed.
Lemma open_ginkgo_drops_nothing d nx a b : open_sizes d nx 2 -> open_nothing_dropped GINKGO d nx a b.
Proof.
  intros (S1 & S2 & S3 & S4). split; [cbn; unfold unknowns; lia|]. cbn [problem_of shape_of]. unfold unknowns. split.
  - intros i l Hi Hm. exfalso. cbn in Hi. unfold in_main in Hm. cbn in Hm. lia.
  - intros j y Hj Hm. exfalso. cbn in Hj. unfold in_main in Hm. cbn in Hm. lia.
Qed.
