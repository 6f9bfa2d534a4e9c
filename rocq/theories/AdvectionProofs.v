(** The advection program. *)
From Coq Require Import Bool Reals Lia Lra ZifyBool List.
From Verif Require Import Machine MachineProofs TypeSeqModel TaggedModel DomainModel DomainSpec DomainProofs ListAux DomainProofs2 SpanModel ReduceModel ArithModel
  UniformProofs ProgramModel ProgramProofs GridProofs LineProofs SamplingModel SamplingSpec SamplingProofs PointsProofs HeatModel HeatSpec HeatProofs HeatReals
  AdvectionSpec AdvectionMath AdvectionMove LoopModel LoopProofs EvaluatorSpace EvaluatorProofs EvaluatorProofs2 EvaluatorLemmas PointsSpec PointsProofs3 PointsLemmas
  BuilderProofs3 BuilderLemmas BuilderPoints BuilderTheorems WellPosedBuild WellPosedTheorems.
Import ListNotations.
Local Open Scope bool_scope. Local Open Scope Z_scope.
Local Arguments Z.pow : simpl never.
Lemma hxy : hx <> hy. Proof. discriminate. Qed.

(** [e] returns a value that satisfies [P], or fails; under [total] it does not fail. *)
Definition post {T} (total : Prop) (P : T -> Prop) (e : res T) : Prop := match e with Ok v => P v | _ => ~ total end.
Lemma post_bind {S T} total (P : S -> Prop) (Q : T -> Prop) (e : res S) (f : S -> res T) : post total P e -> (forall v, P v -> post total Q (f v)) -> post total Q (rbind e f).
Proof. intros H1 H2. destruct e as [v| |]; cbn [rbind post] in *; auto. Qed.
Lemma post_for {T} total (P : Z -> T -> Prop) (body : Z -> T -> res T) lo hi (st : T) : lo <= hi -> P lo st ->
  (forall k st, lo <= k < hi -> P k st -> post total (P (k + 1)) (body k st)) -> post total (P hi) (for_range lo hi body st).
Proof.
  intros Hle H0 H. unfold for_range. replace (P hi) with (P (lo + Z.of_nat (Z.to_nat (hi - lo)))) by (f_equal; lia).
  assert (H' : forall k st, lo <= k < lo + Z.of_nat (Z.to_nat (hi - lo)) -> P k st -> post total (P (k + 1)) (body k st)) by (intros; apply H; auto; lia). clear H Hle.
  revert H'. generalize (Z.to_nat (hi - lo)) as n. intros n. revert lo st H0. induction n as [|n IH]; intros lo' st' H0 H'; cbn [for_n].
  - cbn [post]. now replace (lo' + Z.of_nat 0) with lo' by lia.
  - eapply post_bind; [apply H'; [lia|exact H0]|]. intros v Hv. replace (lo' + Z.of_nat (S n)) with (lo' + 1 + Z.of_nat n) by lia. apply IH; auto. intros. apply H'; auto. lia.
Qed.
Lemma post_weaken {T} total (P Q : T -> Prop) e : post total P e -> (forall v, P v -> Q v) -> post total Q e.
Proof. destruct e; cbn [post]; auto. Qed.

Definition holds (nx ny : Z) (arr : arr2 R) (D : Z -> Z -> R) : Prop := a2_n arr = ny /\ a2_m arr = nx /\ forall i j, 0 <= i < nx -> 0 <= j < ny -> a2_at arr j i = D i j.

Lemma display_ok nx ny time (arr : arr2 R) D : 1 <= nx < 2 ^ 31 -> 1 <= ny < 2 ^ 31 -> holds nx ny arr D ->
  density_display RA (dom2 hx hy 0 nx 0 ny) time arr = Ok (line_of nx ny time D).
Proof.
  intros Hx Hy (H1 & H2 & H3). unfold density_display.
  rewrite (reduce2 RA _ (nadd RA) (nofz RA 0) (fun i j => D i j)); try lia.
  2:{ intros i j Hi Hj. change (get hx (el hx hy i j)) with (Ok (A := Z) i). change (get hy (el hx hy i j)) with (Ok (A := Z) j). cbn [rbind].
      change (num RA) with R in *. rewrite aget2_ok by lia. now rewrite H3. }
  cbn [rbind]. rewrite sel_dom by lia. cbn [rbind].
  assert (Sx : dom_select [hx] (dom2 hx hy 0 nx 0 ny) = Ok [(hx, (0, nx))]).
  { change (dom_select [hx] (dom2 hx hy 0 nx 0 ny)) with (Ok (A := domain) [(hx, (0, u64_add 0 (i64 (u64_sub nx 0))))]).
    unfold u64_sub. rewrite (u64_small (nx - 0)) by lia. rewrite i64_small by lia. unfold u64_add. rewrite u64_small by lia. do 4 f_equal. lia. }
  rewrite Sx. cbn [rbind].
  assert (S1 : dom_size (dom2 hx hy 0 nx 0 ny) = nx * ny).
  { assert (B : box_count (dom2 hx hy 0 nx 0 ny) = nx * ny) by (rewrite (count2 hx hy hxy); ring). rewrite dom_size_exact; [exact B | apply dom2_wf; [exact hxy|lia..] |]. rewrite B. clear -Hx Hy. nia. }
  assert (S2 : forall q n, 1 <= n < 2 ^ 31 -> dom_size [(q, (0, n))] = n).
  { intros q n Hn. rewrite dom_size_exact; [| apply dom1_wf; lia |]; unfold box_count; cbn [fold_right fst snd]; lia. }
  rewrite S1, !S2 by lia. change (num RA) with R in *.
  rewrite (map_res_ok _ (fun i => D i (ny / 2))).
  2:{ intros i Hi. apply in_zrange in Hi. rewrite aget2_ok by lia. rewrite H3; [reflexivity|lia..]. }
  cbn [rbind]. unfold line_of. do 2 f_equal. rewrite <- grid_sum_total. unfold grid_sum, sum_over, indices, zrange. cbn [ndiv nofz RA].
  replace (nx - 0) with nx by lia. replace (ny - 0) with ny by lia. f_equal.
Qed.

Section Program.
Context (d nx ny : Z) (a b c e : R) (solver : spline_solver) (X : solvers RA).
Hypothesis Hsz : advection_sizes d nx ny.
Hypothesis Hab : (a < b)%R.
Hypothesis Hce : (c < e)%R.
Hypothesis Hex : exact_solvers X.
Hypothesis Hdrop : nothing_dropped solver d nx a b.
Definition sure : Prop := solver = GINKGO /\ regular_bicgstab X.
Notation t := (uniform_knots d a b nx).
Notation xp := (x_point d nx a b).
Context (s : u_bsplines RA) (Hs : ub_construct RA hx d true a b nx = Ok s).
Context (u : uniform_sampling RA) (Hu : forall k, 0 <= k < 2 ^ 63 -> us_coordinate RA u k = (xp k : num RA)).
Context (m : scratch RA).
Lemma Hd : 1 <= d. Proof. apply Hsz. Qed.
Lemma Hn : d + 1 <= nx. Proof. apply Hsz. Qed.
Lemma Hbig : nx + 1 + 2 * d < 2 ^ 31. Proof. apply Hsz. Qed.
Notation SP := (space d nx a b Hd Hn Hbig Hab s hx Hs).
Notation F := (space_facts _ _ _ _ _ _ _ SP).
Lemma problem : interpolation solver (Uniform s) d true nx t a b PERIODIC PERIODIC 0 nx (us_coord RA u) xp.
Proof.
  destruct Hsz as (S1 & S2 & S3 & S4). constructor.
  - exact SP.
  - now split.
  - intros i Hi. split; [unfold us_coord; rewrite Z.add_0_l; rewrite Hu by lia; reflexivity|]. pose proof (x_point_in d nx a b Hd Hn Hab i Hi). lra.
  - intros _. exact S2.
  - lia.
  - lia.
  - intros Q. cbn in Q. discriminate.
  - exact (proj1 Hdrop).
Qed.
Lemma increasing : increasing_points nx xp.
Proof. intros i j _ Hij _. now apply (x_point_lt d nx a b Hd Hn Hab). Qed.
Lemma greville_x : forall i, 0 <= i < nx -> xp i = greville t d (i + d / 2).
Proof. intros i _. apply (x_point_greville d nx a b Hd). Qed.
Lemma constructed : post sure (fun bd => builder_construct RA (Uniform s) m solver PERIODIC PERIODIC 0 nx (us_coord RA u) = Ok bd /\ bd_offset bd = d / 2)
  (builder_construct RA (Uniform s) m solver PERIODIC PERIODIC 0 nx (us_coord RA u)).
Proof.
  destruct (builder_construct RA (Uniform s) m solver PERIODIC PERIODIC 0 nx (us_coord RA u)) as [bd| |] eqn:E; cbn [post].
  - split; [reflexivity|]. destruct (construct_inv (Uniform s) d true nx t a b F PERIODIC PERIODIC m solver 0 nx (us_coord RA u) bd E) as [_ E1].
    pose proof (uniform_offset solver (Uniform s) d nx a b 0 nx (us_coord RA u) xp problem eq_refl eq_refl greville_x m) as E2. change (num RA) with R in *. rewrite E1 in E2.
    assert (bd_offset bd = d / 2 - 0) by congruence. lia.
  - intros [Es _]. pose proof problem as IP. rewrite Es in IP, E. destruct (accepts (Uniform s) d true nx t a b PERIODIC PERIODIC 0 nx (us_coord RA u) xp IP increasing) with (m := m) as (bd & E'); [unfold points_expected, unknowns; cbn [equations]; lia | apply (AdvectionMove.posed d nx a b Hd Hn Hbig Hab s hx Hs) | congruence].
  - intros [Es _]. pose proof problem as IP. rewrite Es in IP, E. destruct (accepts (Uniform s) d true nx t a b PERIODIC PERIODIC 0 nx (us_coord RA u) xp IP increasing) with (m := m) as (bd & E'); [unfold points_expected, unknowns; cbn [equations]; lia | apply (AdvectionMove.posed d nx a b Hd Hn Hbig Hab s hx Hs) | congruence].
Qed.
Section Built.
Context (bd : builder RA) (Hbd : builder_construct RA (Uniform s) m solver PERIODIC PERIODIC 0 nx (us_coord RA u) = Ok bd) (Hoff : bd_offset bd = d / 2).
Definition line_spline (v : Z -> R) (k : chunk_1d RA) : Prop := has_coefficients k (nx + d) /\ periodic_coefficients (coefficient k) d nx /\ takes_values t b d nx nx (coefficient k) xp v.
Lemma built junk sp v : has_coefficients sp (nx + d) ->
  post sure (line_spline v) (build RA (Uniform s) PERIODIC PERIODIC X bd junk sp (mk_arr nx v) None None).
Proof.
  intros Hsp. destruct (build RA (Uniform s) PERIODIC PERIODIC X bd junk sp (mk_arr nx v) None None) as [k| |] eqn:E; cbn [post].
  - destruct (suited_exact solver (Uniform s) d true nx t a b PERIODIC PERIODIC 0 nx (us_coord RA u) xp problem m bd Hbd) with (5 := E) as [H1 H2]; auto.
    + rewrite Hoff. exact (uniform_suited solver (Uniform s) d nx a b 0 nx (us_coord RA u) xp problem eq_refl greville_x).
    + rewrite Hoff. exact (proj2 Hdrop).
    + destruct H2 as (V & _ & _ & P). split; [exact H1|]. split; [now apply P|exact V].
  - intros [Es Hr]. pose proof problem as IP. pose proof Hbd as Hbd'. rewrite Es in IP, Hbd'. destruct (builds_posed (Uniform s) d true nx t a b PERIODIC PERIODIC 0 nx (us_coord RA u) xp IP (AdvectionMove.posed d nx a b Hd Hn Hbig Hab s hx Hs) m bd Hbd') with (X := X) (junk := junk) (sp := sp) (v := mk_arr nx v) (dl := @None (chunk_1d RA)) (du := @None (chunk_1d RA)) as (k & E' & _); auto; try exact I.
    + intros _. rewrite Hoff. pose proof Hd. lia.
    + congruence.
  - intros [Es Hr]. pose proof problem as IP. pose proof Hbd as Hbd'. rewrite Es in IP, Hbd'. destruct (builds_posed (Uniform s) d true nx t a b PERIODIC PERIODIC 0 nx (us_coord RA u) xp IP (AdvectionMove.posed d nx a b Hd Hn Hbig Hab s hx Hs) m bd Hbd') with (X := X) (junk := junk) (sp := sp) (v := mk_arr nx v) (dl := @None (chunk_1d RA)) (du := @None (chunk_1d RA)) as (k & E' & _); auto; try exact I.
    + intros _. rewrite Hoff. pose proof Hd. lia.
    + congruence.
Qed.
Lemma lines_built junk (last : arr2 R) coef D : holds nx ny last D -> (forall j, 0 <= j < ny -> has_coefficients (coef j) (nx + d)) ->
  post sure (fun coef' => forall j, 0 <= j < ny -> line_spline (fun i => D i j) (coef' j)) (AdvectionModel.build_lines RA (Uniform s) X bd nx ny junk last coef).
Proof.
  intros (L1 & L2 & L3) Hc. unfold AdvectionModel.build_lines. destruct Hsz as (S1 & S2 & S3 & S4).
  eapply post_weaken; [apply (post_for sure (fun k cf => (forall j, k <= j < ny -> has_coefficients (cf j) (nx + d)) /\ forall j, 0 <= j < k -> line_spline (fun i => D i j) (cf j)))|].
  - lia.
  - split; [intros j Hj; apply Hc; lia | intros; lia].
  - intros k cf Hk (C1 & C2). eapply post_bind; [apply built; apply C1; lia|]. intros v Hv. cbn [post]. split.
    + intros j Hj. replace (j =? k) with false by lia. apply C1. lia.
    + intros j Hj. destruct (j =? k) eqn:Q; [|apply C2; lia]. replace j with k by lia. destruct Hv as (V1 & V2 & V3). split; [exact V1|]. split; [exact V2|].
      intros i Hi. rewrite <- L3 by lia. now apply V3.
  - intros cf (_ & C2) j Hj. apply C2. lia.
Qed.
Lemma step_ok junk delta (last next : arr2 R) coef D D' : holds nx ny last D -> a2_n next = ny -> a2_m next = nx -> (forall j, 0 <= j < ny -> has_coefficients (coef j) (nx + d)) ->
  moved d nx ny a b delta D D' ->
  post sure (fun r => holds nx ny (fst r) D' /\ forall j, 0 <= j < ny -> has_coefficients (snd r j) (nx + d))
    (advection_step RA (Uniform s) m X bd nx ny (us_coordinate RA u) junk delta last next coef).
Proof.
  intros HL N1 N2 Hc HM. destruct Hsz as (S1 & S2 & S3 & S4). unfold advection_step. eapply post_bind; [apply lines_built; eassumption|]. intros cf Hcf.
  pose proof (cell_fraction d nx a b Hd Hn Hab (xp 0 - delta)%R) as (K & fr & Hfr & Ex).
  assert (Ef : forall i, 0 <= i < nx -> (xp i - delta)%R = (a + (IZR (K + i) + fr) * h nx a b)%R) by (intros i Hi; rewrite x_point_is in *; rewrite plus_IZR; lra).
  destruct (eval_batched_ok (eval RA (Uniform s) m (periodic_rule RA) (periodic_rule RA)) (fun j i => value d nx a b (coefficient (cf j)) (K + i) fr) ny nx
     (fun _ i => us_coordinate RA u i - delta)%R cf next ltac:(lia) ltac:(lia) N1 N2) as (out & Eo & O1 & O2 & O3).
  { intros j i Hj Hi. destruct (Hcf j Hj) as (C1 & C2 & C3). rewrite Hu by lia. rewrite Ef by exact Hi.
    destruct (value_periodic d nx a b Hd Hn Hab (Uniform s) F (coefficient (cf j)) (K + i) fr Hfr) as (y & p & Hy & Ey & ->).
    apply (eval_periodic (Uniform s) d nx t a b SP) with (k := p); auto. lra. }
  unfold evaluate. change (num RA) with R in *. unfold nsub. cbn [RA num]. rewrite Eo. cbn [rbind post fst snd]. split; [|intros j Hj; apply Hcf; exact Hj].
  split; [exact O1|]. split; [exact O2|].
  assert (M : moved d nx ny a b delta D (fun i j => a2_at out j i)).
  { intros j Hj. destruct (Hcf j Hj) as (C1 & C2 & C3). exists (coefficient (cf j)). split; [exact C2|]. split.
    - apply (takes_iff d nx a b Hd Hn Hbig Hab s hx Hs). exact C3.
    - intros i Hi. rewrite O3, Ef by auto. apply (value_periodic d nx a b Hd Hn Hab (Uniform s) F); exact Hfr. }
  apply (moved_unique d nx ny a b Hd Hn Hbig Hab s hx Hs delta D D); auto.
Qed.
Context (D : nat -> Z -> Z -> R) (delta : R) (HD : forall n, moved d nx ny a b delta (D n) (D (S n))).
Context (time : Z -> R) (period : Z) (Hper : 0 < period).
Definition lines_before (k : nat) : list (display_line RA) :=
  map (fun n => line_of nx ny (time (Z.of_nat n)) (D n)) (filter (fun n => Z.of_nat n mod period =? 0) (seq 0 k)).
Definition inv (k : Z) (st : advection_state RA) : Prop :=
  holds nx ny (v_last RA st) (D (Z.to_nat (k - 1))) /\ a2_n (v_next RA st) = ny /\ a2_m (v_next RA st) = nx /\
  (forall j, 0 <= j < ny -> has_coefficients (v_coef RA st j) (nx + d)) /\
  v_output RA st = period * ((k - 1) / period) /\ v_lines RA st = lines_before (Z.to_nat k).
Lemma iteration_ok junk k st : 1 <= k < 2 ^ 63 -> inv k st ->
  post sure (inv (k + 1)) (advection_iteration RA (Uniform s) m X bd nx ny (us_coordinate RA u) (dom2 hx hy 0 nx 0 ny) junk delta time period k st).
Proof.
  intros Hk (I1 & I2 & I3 & I4 & I5 & I6). destruct Hsz as (S1 & S2 & S3 & S4). unfold advection_iteration.
  eapply post_bind; [exact (step_ok (junk k) delta (v_last RA st) (v_next RA st) (v_coef RA st) _ _ I1 I2 I3 I4 (HD _))|]. intros (nextd & cf) (R1 & R2). cbn [fst snd] in R1, R2.
  set (n := Z.to_nat (k - 1)) in *. assert (En : Z.to_nat (k + 1 - 1) = S n) by lia.
  assert (Q : 0 <= period * ((k - 1) / period) <= k - 1).
  { split; [apply Z.mul_nonneg_nonneg; [lia|apply Z.div_pos; lia]|apply Z.mul_div_le; lia]. }
  assert (Dv : (period <=? k - period * ((k - 1) / period)) = (k mod period =? 0)).
  { assert (E1 := Z.div_mod (k - 1) period ltac:(lia)). assert (E2 := Z.mod_pos_bound (k - 1) period Hper).
    destruct (Z.eq_dec ((k - 1) mod period) (period - 1)) as [e'|ne].
    - assert (M : k mod period = 0). { symmetry. apply (Z.mod_unique _ _ ((k - 1) / period + 1)); lia. }
      rewrite M. apply Z.leb_le. lia.
    - assert (M : k mod period = (k - 1) mod period + 1). { symmetry. apply (Z.mod_unique _ _ ((k - 1) / period)); lia. }
      rewrite M. destruct (period <=? k - period * ((k - 1) / period)) eqn:C; lia. }
  assert (O : (if k mod period =? 0 then k else period * ((k - 1) / period)) = period * (k / period)).
  { assert (E1 := Z.div_mod (k - 1) period ltac:(lia)). assert (E2 := Z.mod_pos_bound (k - 1) period Hper).
    assert (E3 := Z.div_mod k period ltac:(lia)). destruct (k mod period =? 0) eqn:C; [lia|]. f_equal.
    assert (E4 := Z.mod_pos_bound k period Hper). symmetry. apply (Z.div_unique _ _ _ (k mod period - 1)); lia. }
  assert (Em : elem_minus k (v_output RA st) = k - period * ((k - 1) / period)).
  { rewrite I5. unfold elem_minus, u64_sub. rewrite u64_small, i64_small by lia. reflexivity. }
  rewrite Em, Dv.
  assert (Lb : lines_before (Z.to_nat (k + 1)) = lines_before (Z.to_nat k) ++ (if k mod period =? 0 then [line_of nx ny (time k) (D (S n))] else [])).
  { unfold lines_before. replace (Z.to_nat (k + 1)) with (S (Z.to_nat k)) by lia. rewrite seq_S, filter_app, map_app. cbn [filter Nat.add]. rewrite Z2Nat.id by lia.
    f_equal. destruct (k mod period =? 0); [|reflexivity]. cbn [map]. rewrite Z2Nat.id by lia. replace (S n) with (Z.to_nat k) by lia. reflexivity. }
  destruct R1 as (Q1 & Q2 & Q3). destruct I1 as (P1 & P2 & P3).
  destruct (k mod period =? 0) eqn:Ck.
  - rewrite (display_ok nx ny (time k) nextd (D (S n))) by (lia || (split; [exact Q1|split; [exact Q2|exact Q3]])). cbn [rbind post].
    split; cbn [v_last v_next v_coef v_output v_lines]; [rewrite En; split; auto|]. split; [exact P1|]. split; [exact P2|]. split; [exact R2|]. replace (k + 1 - 1) with k by lia. split; [exact O|]. rewrite I6. now rewrite Lb.
  - cbn [post]. split; cbn [v_last v_next v_coef v_output v_lines]; [rewrite En; split; auto|]. split; [exact P1|]. split; [exact P2|]. split; [exact R2|]. replace (k + 1 - 1) with k by lia. split; [now rewrite I5|]. rewrite I6, Lb. now rewrite app_nil_r.
Qed.
End Built.
End Program.
