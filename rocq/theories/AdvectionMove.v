(** The density moved by a displacement exists and is determined. *)
From Coq Require Import Bool Reals Lia Lra ZifyBool List.
From Verif Require Import AdvectionSpec AdvectionMath LoopProofs BSplineMath BSplineDeriv EvaluatorSpace EvaluatorProofs IntegralMath IntegralMath2 IntegralProofs
  PointsSpec PointsProofs3 PointsLemmas WellPosedTheorems HeatReals.
Import ListNotations.
Local Open Scope bool_scope. Local Open Scope Z_scope.

Lemma finite_choice {T} (t0 : T) n (P : Z -> T -> Prop) : (forall m, 0 <= m < n -> exists c, P m c) -> exists C, forall m, 0 <= m < n -> P m (C m).
Proof.
  destruct (Z_lt_ge_dec n 0) as [L|L]. { intros _. exists (fun _ => t0). intros; lia. }
  pattern n. apply natlike_ind; [| |lia].
  - intros _. exists (fun _ => t0). intros; lia.
  - intros k Hk IH H. destruct IH as (C & HC). { intros m Hm. apply H. lia. } destruct (H k ltac:(lia)) as (c & Hc).
    exists (fun m => if m =? k then c else C m). intros m Hm. destruct (m =? k) eqn:E; [replace m with k by lia; exact Hc|apply HC; lia].
Qed.
Lemma spline_ext t b d n k k' x : 0 <= n + d -> (forall i, 0 <= i < n + d -> k i = k' i) -> spline t b d n k x = spline t b d n k' x.
Proof. intros Hn H. unfold spline. rewrite !sum_first_zsum. apply zsum_ext. intros i Hi. now rewrite H by lia. Qed.
Lemma spline_sum t b d n N (v : Z -> R) (C : Z -> Z -> R) x : 0 <= n + d -> 0 <= N ->
  spline t b d n (fun i => zsum N (fun m => v m * C m i)%R) x = zsum N (fun m => v m * spline t b d n (C m) x)%R.
Proof.
  intros Hn HN. unfold spline. rewrite sum_first_zsum. rewrite (zsum_ext _ _ (fun i => zsum N (fun m => v m * C m i * bspline t b (Z.to_nat d) i x)%R)).
  - rewrite zsum_exchange by lia. apply zsum_ext. intros m Hm. rewrite sum_first_zsum, <- zsum_scal. apply zsum_ext. intros i Hi. ring.
  - intros i Hi. rewrite Rmult_comm, <- zsum_scal. apply zsum_ext. intros m Hm. ring.
Qed.
Section Move.
Context (d nx ny : Z) (a b : R).
Hypothesis Hd : 1 <= d.
Hypothesis Hn : d + 1 <= nx.
Hypothesis Hbig : nx + 1 + 2 * d < 2 ^ 31.
Hypothesis Hab : (a < b)%R.
Notation t := (uniform_knots d a b nx).
Notation xp := (x_point d nx a b).
Lemma x_point_greville i : xp i = greville t d (i + d / 2).
Proof.
  rewrite greville_uniform by lia. unfold x_point. f_equal. f_equal. rewrite plus_IZR. pose proof (half_eq d) as E. unfold half_if_even in E. rewrite <- Z.negb_odd in E. destruct (Z.odd d); cbn [negb] in E; lra.
Qed.
Lemma x_point_in i : 0 <= i < nx -> (a <= xp i < b)%R.
Proof.
  intros Hi. pose proof (h_pos d nx a b Hd Hn Hab) as Hh. pose proof (AdvectionMath.nh d nx a b Hd Hn) as Hnh. rewrite x_point_is. pose proof (u0_ok d) as Hu.
  assert (A1 := IZR_le 0 i ltac:(lia)). assert (A2 := IZR_le i (nx - 1) ltac:(lia)). rewrite minus_IZR in A2. rewrite <- Rplus_0_r in Hnh. nra.
Qed.
Lemma x_point_lt i j : i < j -> (xp i < xp j)%R.
Proof. intros H. pose proof (h_pos d nx a b Hd Hn Hab). rewrite !x_point_is. apply IZR_lt in H. nra. Qed.
Context (s : u_bsplines RA) (q : tag) (Hs : ub_construct RA q d true a b nx = Ok s).
Lemma space : spline_space (Uniform s) d true nx t a b. Proof. eapply uniform_space; eauto. lia. Qed.
Notation F := (space_facts _ _ _ _ _ _ _ space).
Lemma posed : well_posed true t a b d nx PERIODIC PERIODIC nx xp.
Proof.
  apply (periodic_greville_posed (Uniform s) d nx t a b xp (d / 2) space); [left; reflexivity|]. intros i Hi. split; [apply x_point_greville|]. pose proof (x_point_in i Hi). lra.
Qed.
Lemma solution_periodic v k : solution true t a b d nx PERIODIC PERIODIC nx xp v (fun _ => 0%R) (fun _ => 0%R) k <-> (takes_values t b d nx nx k xp v /\ periodic_coefficients k d nx).
Proof.
  split.
  - intros (H1 & _ & _ & H2). split; auto.
  - intros (H1 & H2). split; [exact H1|]. split; [intros i Hi; cbn [equations] in Hi; lia|]. split; [intros i Hi; cbn [equations] in Hi; lia|]. auto.
Qed.
Lemma value_here k x : (a <= x < b)%R -> periodic_value d nx a b k x (spline t b d nx k x).
Proof. intros H. exists x, 0. split; [exact H|]. split; [change (IZR 0) with 0%R; ring | reflexivity]. Qed.
Lemma takes_iff k v : takes_values t b d nx nx k xp v <-> forall i, 0 <= i < nx -> periodic_value d nx a b k (xp i) (v i).
Proof.
  split; intros H i Hi.
  - rewrite <- (H i Hi). apply value_here, x_point_in, Hi.
  - apply (value_unique d nx a b Hd Hn Hab (Uniform s) F k (xp i)); [apply value_here, x_point_in, Hi | now apply H].
Qed.
Lemma value_ext k k' x f : (forall i, 0 <= i < nx + d -> k i = k' i) -> periodic_value d nx a b k x f -> periodic_value d nx a b k' x f.
Proof. intros H (y & m & Hy & E & ->). exists y, m. split; [exact Hy|]. split; [exact E|]. apply spline_ext; [lia | exact H]. Qed.
Lemma moved_unique delta D D' D1 D2 : (forall i j, 0 <= i < nx -> 0 <= j < ny -> D i j = D' i j) -> moved d nx ny a b delta D D1 -> moved d nx ny a b delta D' D2 ->
  forall i j, 0 <= i < nx -> 0 <= j < ny -> D1 i j = D2 i j.
Proof.
  intros He H1 H2 i j Hi Hj. destruct (H1 j Hj) as (k1 & P1 & A1 & B1), (H2 j Hj) as (k2 & P2 & A2 & B2). destruct posed as [U _].
  assert (E : forall i, 0 <= i < nx + d -> k1 i = k2 i).
  { apply (U (fun i => D i j) (fun _ => 0%R) (fun _ => 0%R)); apply solution_periodic; (split; [apply takes_iff|assumption]).
    - exact A1.
    - intros m Hm. rewrite He by auto. now apply A2. }
  apply (value_unique d nx a b Hd Hn Hab (Uniform s) F k2 (xp i - delta)%R); [|now apply B2]. apply (value_ext k1); auto.
Qed.
(** The move as a linear map. *)
Lemma move_exists delta : exists W : Z -> Z -> R, forall D, moved d nx ny a b delta D (fun i j => zsum nx (fun m => D m j * W m i)%R).
Proof.
  destruct posed as [_ E].
  destruct (finite_choice (fun _ : Z => 0%R) nx (fun m k => takes_values t b d nx nx k xp (fun i => if i =? m then 1 else 0)%R /\ periodic_coefficients k d nx)) as (C & HC).
  { intros m Hm. destruct (E (fun i => if i =? m then 1 else 0)%R (fun _ => 0%R) (fun _ => 0%R)) as (k & Hk). exists k. now apply solution_periodic. }
  pose proof (cell_fraction d nx a b Hd Hn Hab (xp 0 - delta)%R) as (K & u & Hu & Ex).
  exists (fun m i => value d nx a b (C m) (K + i) u). intros D j Hj. exists (fun i => zsum nx (fun m => D m j * C m i)%R). split; [|split].
  - intros i Hi. apply zsum_ext. intros m Hm. destruct (HC m Hm) as [_ P]. now rewrite P.
  - apply takes_iff. intros i Hi. rewrite spline_sum by lia. rewrite (zsum_ext _ _ (fun m => if m =? i then D i j else 0)%R); [apply zsum_delta; lia|].
    intros m Hm. destruct (HC m Hm) as [V _]. rewrite V by auto. rewrite (Z.eqb_sym m i). destruct (i =? m) eqn:Q; [replace m with i by lia|]; ring.
  - intros i Hi. replace (xp i - delta)%R with (a + (IZR (K + i) + u) * h nx a b)%R by (rewrite x_point_is in *; rewrite plus_IZR; lra).
    destruct (value_periodic d nx a b Hd Hn Hab (Uniform s) F (C 0) (K + i) u Hu) as (y & p & Hy & Ey & _).
    exists y, p. split; [exact Hy|]. split; [exact Ey|]. rewrite spline_sum by lia. apply zsum_ext. intros m Hm. f_equal.
    symmetry. apply (periodic_value_is d nx a b Hd Hn Hab (Uniform s) F (C m) (K + i) u _ Hu). exists y, p. auto.
Qed.
Lemma history_exists c e exp delta : exists D, advection_history d nx ny a b c e exp delta D.
Proof.
  destruct (move_exists delta) as (W & HW).
  exists (fun n => Nat.iter n (fun D i j => zsum nx (fun m => D m j * W m i)%R) (fun i j => gaussian exp (xp i) (y_point ny c e j))).
  split; [reflexivity|]. intros n. cbn [Nat.iter nat_rect]. apply HW.
Qed.
Lemma history_unique c e exp delta D D' : advection_history d nx ny a b c e exp delta D -> advection_history d nx ny a b c e exp delta D' ->
  forall n i j, 0 <= i < nx -> 0 <= j < ny -> D n i j = D' n i j.
Proof.
  intros (I1 & S1) (I2 & S2). induction n as [|n IH]; intros i j Hi Hj; [now rewrite I1, I2|].
  exact (moved_unique delta (D n) (D' n) _ _ IH (S1 n) (S2 n) i j Hi Hj).
Qed.
End Move.
