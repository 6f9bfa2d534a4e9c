(** The non-periodic advection program. *)
From Coq Require Import Bool Reals Lia Lra ZifyBool List.
From Verif Require Import Machine MachineProofs TypeSeqModel TaggedModel DomainModel DomainSpec DomainProofs ListAux DomainProofs2 SpanModel ReduceModel ArithModel
  UniformProofs ProgramModel ProgramProofs GridProofs LineProofs SamplingModel SamplingSpec SamplingProofs PointsProofs HeatModel HeatSpec HeatProofs HeatReals
  AdvectionSpec AdvectionMath AdvectionMove AdvectionProofs OpenAdvectionSpec LoopModel LoopProofs BSplineMath BSplineDeriv EvaluatorSpace EvaluatorProofs EvaluatorProofs2 EvaluatorLemmas PointsSpec PointsProofs3 PointsLemmas
  IntegralMath IntegralMath2 IntegralProofs BuilderProofs3 BuilderLemmas BuilderPoints BuilderTheorems WellPosedPoints WellPosedBuild WellPosedTheorems.
Import ListNotations.
Local Open Scope bool_scope. Local Open Scope Z_scope.
Local Arguments Z.pow : simpl never.

(** The grid: what the library provides. *)
Lemma open_grid d nx (a b : R) : 1 <= d <= 8 -> 3 <= nx -> (a < b)%R -> nx + 1 + 2 * d < 2 ^ 31 ->
  let x := open_point d nx a b in
  exists s, ub_construct RA hx d false a b nx = Ok s /\ ug_points RA GREVILLE GREVILLE s = Ok (Some (mk_ns RA (points_of (nx + d) x) 0)) /\
    greville_domain_size GREVILLE GREVILLE d (ub_nbasis RA s) = nx + d /\ increasing_points (nx + d) x /\ (forall i, 0 <= i < nx + d -> (a <= x i <= b)%R) /\
    x 0 = a /\ x (nx + d - 1) = b /\ spline_space (Uniform s) d false nx (uniform_knots d a b nx) a b.
Proof.
  intros Hd Hn Hab Hb x. destruct (pts_uniform_greville hx d a b nx GREVILLE GREVILLE ltac:(lia) ltac:(lia) Hab Hb ltac:(discriminate) ltac:(discriminate)) as (s & E1 & _ & X0 & X1 & K & ES).
  rewrite !boundary_equations in * by lia. cbn [equations] in *. replace (nx + d - 0 - 0) with (nx + d) in * by lia. cbn [is_greville] in *. fold (open_point d nx a b) in *.
  destruct (K ltac:(lia) Hn) as (E2 & Hinc & Hin). exists s. split; [exact E1|]. split; [exact E2|]. split; [exact ES|]. split; [intros i j H1 H2 H3; exact (Hinc i j (conj H1 H2) H3)|]. split; [exact Hin|].
  split; [now apply X0|]. split; [now apply X1|]. exact (uniform_space hx d false a b nx s ltac:(lia) ltac:(lia) Hab Hb E1).
Qed.

Section Move.
Context (d nx : Z) (a b : R).
Hypothesis Hd : 1 <= d <= 8.
Hypothesis Hn : 3 <= nx.
Hypothesis Hbig : nx + 1 + 2 * d < 2 ^ 31.
Hypothesis Hab : (a < b)%R.
Notation t := (uniform_knots d a b nx).
Notation xp := (open_point d nx a b).
Lemma open_posed : well_posed false t a b d nx GREVILLE GREVILLE (nx + d) xp.
Proof.
  destruct (open_grid d nx a b Hd Hn Hab Hbig) as (s & E1 & E2 & ES & Hinc & Hin & _ & _ & SP).
  assert (Hp : points_expected false d nx GREVILLE GREVILLE = nx + d) by (unfold points_expected, unknowns; cbn [equations]; lia).
  rewrite <- Hp. apply (uniform_points_well_posed (Uniform s) d nx a b SP); rewrite ?Hp; [split; discriminate | lia | intros; reflexivity | exact Hin | exact Hinc].
Qed.
Lemma open_solution v k : solution false t a b d nx GREVILLE GREVILLE (nx + d) xp v (fun _ => 0%R) (fun _ => 0%R) k <-> takes_values t b d nx (nx + d) k xp v.
Proof.
  split; [intros (H & _); exact H|]. intros H. split; [exact H|]. split; [intros i Hi; cbn [equations] in Hi; lia|]. split; [intros i Hi; cbn [equations] in Hi; lia|]. discriminate.
Qed.
Lemma open_in i : 0 <= i < nx + d -> (a <= xp i <= b)%R.
Proof. destruct (open_grid d nx a b Hd Hn Hab Hbig) as (s & _ & _ & _ & _ & Hin & _). apply Hin. Qed.
Lemma open_takes k v : takes_values t b d nx (nx + d) k xp v <-> forall i, 0 <= i < nx + d -> cut_value d nx a b k (xp i) (v i).
Proof.
  split; intros H i Hi; pose proof (open_in i Hi) as Hx.
  - split; [intros _; symmetry; now apply H | lra].
  - symmetry. now apply (H i Hi).
Qed.
Definition cut (k : Z -> R) (x : R) : R := if Rle_dec a x then if Rle_dec x b then spline t b d nx k x else 0%R else 0%R.
Lemma cut_ok k x : cut_value d nx a b k x (cut k x).
Proof. unfold cut_value, cut. destruct (Rle_dec a x), (Rle_dec x b); split; lra. Qed.
Lemma cut_unique k x f : cut_value d nx a b k x f -> f = cut k x.
Proof. intros (H1 & H2). unfold cut. destruct (Rle_dec a x), (Rle_dec x b); [apply H1; lra | apply H2; lra..]. Qed.
Lemma cut_ext k k' x : (forall i, 0 <= i < nx + d -> k i = k' i) -> cut k x = cut k' x.
Proof. intros H. unfold cut. destruct (Rle_dec a x), (Rle_dec x b); auto. apply spline_ext; [lia | exact H]. Qed.
Lemma cut_sum N (v : Z -> R) (C : Z -> Z -> R) x : 0 <= N -> cut (fun i => zsum N (fun m => v m * C m i)%R) x = zsum N (fun m => v m * cut (C m) x)%R.
Proof.
  intros HN. unfold cut. destruct (Rle_dec a x); [destruct (Rle_dec x b)|]; [apply AdvectionMove.spline_sum; lia | symmetry; apply zsum_zero; intros; ring..].
Qed.
Lemma open_moved_unique ny delta D D' D1 D2 : (forall i j, 0 <= i < nx + d -> 0 <= j < ny -> D i j = D' i j) -> open_moved d nx ny a b delta D D1 -> open_moved d nx ny a b delta D' D2 ->
  forall i j, 0 <= i < nx + d -> 0 <= j < ny -> D1 i j = D2 i j.
Proof.
  intros He H1 H2 i j Hi Hj. destruct (H1 j Hj) as (k1 & A1 & B1), (H2 j Hj) as (k2 & A2 & B2). destruct open_posed as [U _].
  assert (E : forall i, 0 <= i < nx + d -> k1 i = k2 i).
  { apply (U (fun i => D i j) (fun _ => 0%R) (fun _ => 0%R)); apply open_solution, open_takes.
    - exact A1.
    - intros m Hm. rewrite He by auto. now apply A2. }
  rewrite (cut_unique _ _ _ (B1 i Hi)), (cut_unique _ _ _ (B2 i Hi)). now apply cut_ext.
Qed.
(** The move as a linear map. *)
Lemma open_move_exists ny delta : exists W : Z -> Z -> R, forall D, open_moved d nx ny a b delta D (fun i j => zsum (nx + d) (fun m => D m j * W m i)%R).
Proof.
  destruct open_posed as [_ E].
  destruct (finite_choice (fun _ : Z => 0%R) (nx + d) (fun m k => takes_values t b d nx (nx + d) k xp (fun i => if i =? m then 1 else 0)%R)) as (C & HC).
  { intros m Hm. destruct (E (fun i => if i =? m then 1 else 0)%R (fun _ => 0%R) (fun _ => 0%R)) as (k & Hk). exists k. now apply open_solution in Hk. }
  exists (fun m i => cut (C m) (xp i - delta)). intros D j Hj. exists (fun i => zsum (nx + d) (fun m => D m j * C m i)%R). split.
  - apply open_takes. intros i Hi. rewrite AdvectionMove.spline_sum by lia. rewrite (zsum_ext _ _ (fun m => if m =? i then D i j else 0)%R); [apply zsum_delta; lia|].
    intros m Hm. rewrite (HC m Hm) by auto. rewrite (Z.eqb_sym m i). destruct (i =? m) eqn:Q; [replace m with i by lia|]; ring.
  - intros i Hi. rewrite <- cut_sum by lia. apply cut_ok.
Qed.
Lemma open_history_exists ny c e exp delta : exists D, open_history d nx ny a b c e exp delta D.
Proof.
  destruct (open_move_exists ny delta) as (W & HW).
  exists (fun n => Nat.iter n (fun D i j => zsum (nx + d) (fun m => D m j * W m i)%R) (fun i j => gaussian exp (xp i) (y_point ny c e j))).
  split; [reflexivity|]. intros n. cbn [Nat.iter nat_rect]. apply HW.
Qed.
Lemma open_history_unique ny c e exp delta D D' : open_history d nx ny a b c e exp delta D -> open_history d nx ny a b c e exp delta D' ->
  forall n i j, 0 <= i < nx + d -> 0 <= j < ny -> D n i j = D' n i j.
Proof.
  intros (I1 & S1) (I2 & S2). induction n as [|n IH]; intros i j Hi Hj; [now rewrite I1, I2|].
  exact (open_moved_unique ny delta (D n) (D' n) _ _ IH (S1 n) (S2 n) i j Hi Hj).
Qed.
End Move.

Section Program.
Context (d nx ny : Z) (a b c e : R) (solver : spline_solver) (X : solvers RA).
Hypothesis Hsz : open_sizes d nx ny.
Hypothesis Hab : (a < b)%R.
Hypothesis Hex : exact_solvers X.
Hypothesis Hdrop : open_nothing_dropped solver d nx a b.
Notation sure := (sure solver X).
Notation t := (uniform_knots d a b nx).
Notation xp := (open_point d nx a b).
Notation np := (nx + d).
Context (s : u_bsplines RA) (SP : spline_space (Uniform s) d false nx t a b).
Context (coord : Z -> res R) (Hcoord : forall i, 0 <= i < np -> coord i = Ok (xp i)) (points : Z -> R) (Hpoints : forall i, 0 <= i < np -> points i = xp i).
Context (m : scratch RA).
Lemma Hd : 1 <= d <= 8. Proof. apply Hsz. Qed.
Lemma Hn : 3 <= nx. Proof. apply Hsz. Qed.
Lemma Hbig : nx + 1 + 2 * d < 2 ^ 31. Proof. apply Hsz. Qed.
Notation F := (space_facts _ _ _ _ _ _ _ SP).
Notation posed := (open_posed d nx a b Hd Hn Hbig Hab).
Lemma open_problem : interpolation solver (Uniform s) d false nx t a b GREVILLE GREVILLE 0 np coord xp.
Proof.
  pose proof Hd. pose proof Hn. pose proof Hbig. constructor.
  - exact SP.
  - split; discriminate.
  - intros i Hi. split; [rewrite Z.add_0_l; now apply Hcoord | now apply open_in].
  - discriminate.
  - lia.
  - lia.
  - intros Q. cbn in Q. discriminate.
  - exact (proj1 Hdrop).
Qed.
Lemma open_increasing : increasing_points np xp.
Proof. destruct (open_grid d nx a b Hd Hn Hab Hbig) as (s' & _ & _ & _ & Hinc & _). exact Hinc. Qed.
Lemma open_constructed : post sure (fun bd => builder_construct RA (Uniform s) m solver GREVILLE GREVILLE 0 np coord = Ok bd) (builder_construct RA (Uniform s) m solver GREVILLE GREVILLE 0 np coord).
Proof.
  assert (K : solver = GINKGO -> exists bd, builder_construct RA (Uniform s) m solver GREVILLE GREVILLE 0 np coord = Ok bd).
  { intros Es. pose proof open_problem as IP. rewrite Es in IP |- *. apply (accepts (Uniform s) d false nx t a b GREVILLE GREVILLE 0 np coord xp IP open_increasing); [unfold points_expected, unknowns; cbn [equations]; lia | exact posed]. }
  destruct (builder_construct RA (Uniform s) m solver GREVILLE GREVILLE 0 np coord) as [bd| |] eqn:E; cbn [post]; [reflexivity | intros [Es _]; destruct (K Es) as (bd & E'); congruence..].
Qed.
Section Built.
Context (bd : builder RA) (Hbd : builder_construct RA (Uniform s) m solver GREVILLE GREVILLE 0 np coord = Ok bd).
Definition open_line (v : Z -> R) (k : chunk_1d RA) : Prop := has_coefficients k np /\ takes_values t b d nx np (coefficient k) xp v.
Lemma open_built junk sp v : has_coefficients sp np -> post sure (open_line v) (build RA (Uniform s) GREVILLE GREVILLE X bd junk sp (mk_arr np v) None None).
Proof.
  intros Hsp. pose proof (offset_open _ _ _ _ _ _ _ _ _ _ _ _ _ _ _ open_problem Hbd) as Hoff.
  assert (K : sure -> exists k, build RA (Uniform s) GREVILLE GREVILLE X bd junk sp (mk_arr np v) None None = Ok k).
  { intros [Es Hr]. pose proof open_problem as IP. pose proof Hbd as Hbd'. rewrite Es in IP, Hbd'.
    destruct (builds_posed (Uniform s) d false nx t a b GREVILLE GREVILLE 0 np coord xp IP posed m bd Hbd') with (X := X) (junk := junk) (sp := sp) (v := mk_arr np v) (dl := @None (chunk_1d RA)) (du := @None (chunk_1d RA)) as (k & E' & _); auto; try exact I; try discriminate. now exists k. }
  destruct (build RA (Uniform s) GREVILLE GREVILLE X bd junk sp (mk_arr np v) None None) as [k| |] eqn:E; cbn [post]; [|intros Q; destruct (K Q) as (k & E'); congruence..].
  destruct (suited_exact solver (Uniform s) d false nx t a b GREVILLE GREVILLE 0 np coord xp open_problem m bd Hbd) with (5 := E) as [H1 H2]; auto.
  - rewrite Hoff. apply (uniform_points_suited solver (Uniform s) d nx a b GREVILLE GREVILLE xp SP eq_refl); try discriminate. intros i Hi. unfold points_expected, unknowns in *. cbn [equations is_greville] in *.
    unfold open_point. replace (nx + d - 0 - 0) with (nx + d) by lia. reflexivity.
  - rewrite Hoff. exact (proj2 Hdrop).
  - destruct H2 as (V & _). split; [exact H1|exact V].
Qed.
Lemma open_lines_built junk (last : arr2 R) coef D : holds np ny last D -> (forall j, 0 <= j < ny -> has_coefficients (coef j) np) ->
  post sure (fun coef' => forall j, 0 <= j < ny -> open_line (fun i => D i j) (coef' j)) (open_build_lines RA (Uniform s) X bd np ny junk last coef).
Proof.
  intros (L1 & L2 & L3) Hc. unfold open_build_lines. destruct Hsz as (S1 & S2 & S3 & S4).
  eapply post_weaken; [apply (post_for sure (fun k cf => (forall j, k <= j < ny -> has_coefficients (cf j) np) /\ forall j, 0 <= j < k -> open_line (fun i => D i j) (cf j)))|].
  - lia.
  - split; [intros j Hj; apply Hc; lia | intros; lia].
  - intros k cf Hk (C1 & C2). eapply post_bind; [apply open_built; apply C1; lia|]. intros v Hv. cbn [post]. split.
    + intros j Hj. replace (j =? k) with false by lia. apply C1. lia.
    + intros j Hj. destruct (j =? k) eqn:Q; [|apply C2; lia]. replace j with k by lia. destruct Hv as (V1 & V3). split; [exact V1|].
      intros i Hi. rewrite <- L3 by lia. now apply V3.
  - intros cf (_ & C2) j Hj. apply C2. lia.
Qed.
Lemma open_eval v x : has_coefficients v np -> eval RA (Uniform s) m (null_rule RA) (null_rule RA) x v = Ok (cut d nx a b (coefficient v) x : num RA).
Proof.
  intros Hv. unfold cut. destruct (Rle_dec a x) as [H1|H1]; [destruct (Rle_dec x b) as [H2|H2]|].
  - apply (eval_inside_ok (Uniform s) d false nx t a b F); [exact Hv | lra].
  - apply (proj2 (eval_outside_ok (Uniform s) d false nx t a b F m (null_rule RA) (null_rule RA) v x eq_refl)). lra.
  - apply (proj1 (eval_outside_ok (Uniform s) d false nx t a b F m (null_rule RA) (null_rule RA) v x eq_refl)). lra.
Qed.
Lemma open_step_ok junk delta (last next : arr2 R) coef D D' : holds np ny last D -> a2_n next = ny -> a2_m next = np -> (forall j, 0 <= j < ny -> has_coefficients (coef j) np) ->
  open_moved d nx ny a b delta D D' ->
  post sure (fun r => holds np ny (fst r) D' /\ forall j, 0 <= j < ny -> has_coefficients (snd r j) np)
    (open_step RA (Uniform s) m X bd np ny points junk delta last next coef).
Proof.
  intros HL N1 N2 Hc HM. destruct Hsz as (S1 & S2 & S3 & S4). unfold open_step. eapply post_bind; [apply open_lines_built; eassumption|]. intros cf Hcf.
  destruct (eval_batched_ok (eval RA (Uniform s) m (null_rule RA) (null_rule RA)) (fun j i => cut d nx a b (coefficient (cf j)) (xp i - delta)) ny np
     (fun _ i => points i - delta)%R cf next ltac:(lia) ltac:(lia) N1 N2) as (out & Eo & O1 & O2 & O3).
  { intros j i Hj Hi. destruct (Hcf j Hj) as (C1 & C3). rewrite Hpoints by lia. now apply open_eval. }
  unfold evaluate. change (num RA) with R in *. unfold nsub. cbn [RA num]. rewrite Eo. cbn [rbind post fst snd]. split; [|intros j Hj; apply Hcf; exact Hj].
  split; [exact O1|]. split; [exact O2|].
  assert (M : open_moved d nx ny a b delta D (fun i j => a2_at out j i)).
  { intros j Hj. destruct (Hcf j Hj) as (C1 & C3). exists (coefficient (cf j)). split.
    - apply (open_takes d nx a b Hd Hn Hbig Hab). exact C3.
    - intros i Hi. rewrite O3 by auto. apply cut_ok. }
  apply (open_moved_unique d nx a b Hd Hn Hbig Hab ny delta D D); auto.
Qed.
Context (D : nat -> Z -> Z -> R) (delta : R) (HD : forall n, open_moved d nx ny a b delta (D n) (D (S n))).
Context (time : Z -> R) (period : Z) (Hper : 0 < period).
Notation lines_before := (lines_before np ny D time period).
Definition open_inv (k : Z) (st : advection_state RA) : Prop :=
  holds np ny (v_last RA st) (D (Z.to_nat (k - 1))) /\ a2_n (v_next RA st) = ny /\ a2_m (v_next RA st) = np /\
  (forall j, 0 <= j < ny -> has_coefficients (v_coef RA st j) np) /\
  v_output RA st = period * ((k - 1) / period) /\ v_lines RA st = lines_before (Z.to_nat k).
Lemma open_iteration_ok junk k st : 1 <= k < 2 ^ 63 -> open_inv k st ->
  post sure (open_inv (k + 1)) (open_iteration RA (Uniform s) m X bd np ny points (dom2 hx hy 0 np 0 ny) junk delta time period k st).
Proof.
  intros Hk (I1 & I2 & I3 & I4 & I5 & I6). destruct Hsz as (S1 & S2 & S3 & S4). unfold open_iteration.
  eapply post_bind; [exact (open_step_ok (junk k) delta (v_last RA st) (v_next RA st) (v_coef RA st) _ _ I1 I2 I3 I4 (HD _))|]. intros (nextd & cf) (R1 & R2). cbn [fst snd] in R1, R2.
  set (n := Z.to_nat (k - 1)) in *. assert (En : Z.to_nat (k + 1 - 1) = S n) by lia.
  assert (Q : 0 <= period * ((k - 1) / period) <= k - 1).
  { split; [apply Z.mul_nonneg_nonneg; [lia|apply Z.div_pos; lia]|apply Z.mul_div_le; lia]. }
  assert (Dv : (period <=? k - period * ((k - 1) / period)) = (k mod period =? 0)).
  { assert (E1 := Z.div_mod (k - 1) period ltac:(lia)). assert (E2 := Z.mod_pos_bound (k - 1) period Hper).
    destruct (Z.eq_dec ((k - 1) mod period) (period - 1)) as [e'|ne].
    - assert (M : k mod period = 0). { symmetry. apply (Z.mod_unique _ _ ((k - 1) / period + 1)); lia. }
      rewrite M. apply Z.leb_le. lia.
    - assert (M : k mod period = (k - 1) mod period + 1). { symmetry. apply (Z.mod_unique _ _ ((k - 1) / period)); lia. }
      rewrite M. destruct (period <=? k - period * ((k - 1) / period)) eqn:C; lia. }
  assert (O : (if k mod period =? 0 then k else period * ((k - 1) / period)) = period * (k / period)).
  { assert (E1 := Z.div_mod (k - 1) period ltac:(lia)). assert (E2 := Z.mod_pos_bound (k - 1) period Hper).
    assert (E3 := Z.div_mod k period ltac:(lia)). destruct (k mod period =? 0) eqn:C; [lia|]. f_equal.
    assert (E4 := Z.mod_pos_bound k period Hper). symmetry. apply (Z.div_unique _ _ _ (k mod period - 1)); lia. }
  assert (Em : elem_minus k (v_output RA st) = k - period * ((k - 1) / period)).
  { rewrite I5. unfold elem_minus, u64_sub. rewrite u64_small, i64_small by lia. reflexivity. }
  rewrite Em, Dv.
  assert (Lb : lines_before (Z.to_nat (k + 1)) = lines_before (Z.to_nat k) ++ (if k mod period =? 0 then [line_of np ny (time k) (D (S n))] else [])).
  { unfold AdvectionProofs.lines_before. replace (Z.to_nat (k + 1)) with (S (Z.to_nat k)) by lia. rewrite seq_S, filter_app, map_app. cbn [filter Nat.add]. rewrite Z2Nat.id by lia.
    f_equal. destruct (k mod period =? 0); [|reflexivity]. cbn [map]. rewrite Z2Nat.id by lia. replace (S n) with (Z.to_nat k) by lia. reflexivity. }
  destruct R1 as (Q1 & Q2 & Q3). destruct I1 as (P1 & P2 & P3).
  destruct (k mod period =? 0) eqn:Ck.
  - rewrite (display_ok np ny (time k) nextd (D (S n))) by (lia || (split; [exact Q1|split; [exact Q2|exact Q3]])). cbn [rbind post].
    split; cbn [v_last v_next v_coef v_output v_lines]; [rewrite En; split; auto|]. split; [exact P1|]. split; [exact P2|]. split; [exact R2|]. replace (k + 1 - 1) with k by lia. split; [exact O|]. rewrite I6. now rewrite Lb.
  - cbn [post]. split; cbn [v_last v_next v_coef v_output v_lines]; [rewrite En; split; auto|]. split; [exact P1|]. split; [exact P2|]. split; [exact R2|]. replace (k + 1 - 1) with k by lia. split; [now rewrite I5|]. rewrite I6, Lb. now rewrite app_nil_r.
Qed.
End Built.
End Program.
