(** The builder in three dimensions. *)
From Coq Require Import Bool Reals ZArith Lia ZifyBool List FunctionalExtensionality.
From Verif Require Export Spline3DSpec.
From Verif Require Import LoopProofs EvaluatorSpace EvaluatorProofs Spline2DProofs Spline2DMath Spline2DBuild SplineNDProofs Spline3DSlices Spline3DMath BuilderTheorems.
Import ListNotations.
Local Open Scope bool_scope. Local Open Scope Z_scope.

Definition asked1 (c : closure) (w : option (chunk_nd RA)) (l j k : Z) : R := match c, w with HERMITE, Some w => cn_at w [l; j; k] | _, _ => 0%R end.
Lemma asked_slice c w l j k : asked c (oln1 (opt_the the_slice3 w k) j) l = asked1 c w l j k.
Proof. destruct c; try reflexivity. destruct w as [w|]; reflexivity. Qed.

Section First.
Context (solver1 : spline_solver) (s1 : bspline_space RA) (A1 : axis) (X : solvers RA) (bd1 : builder RA) (B1 : builder_for solver1 s1 A1 bd1).
Context (f2 n2 f3 n3 : Z) (work : Z -> Z -> Z -> R) (junk : list Z -> R) (vals : chunk_nd RA) (dmin dmax : option (chunk_nd RA)).
Hypothesis (H2 : 0 <= n2 < 2 ^ 62) (H3 : 0 <= n3 < 2 ^ 62) (HV : exists f1 n1, on_mesh vals [f1; f2; f3] [n1; n2; n3]) (Hmin : batch23 dmin f2 f3 n2 n3) (Hmax : batch23 dmax f2 f3 n2 n3).
Let alloc : chunk_nd RA := mk_chunk_nd (A := RA) [0; f2; f3] [bs_size RA s1; n2; n3] junk.
Let bl := build1_3d RA s1 (ax_lower A1) (ax_upper A1) X bd1 f2 n2 f3 n3 work alloc vals dmin dmax.
Lemma slice_batch w k : batch23 w f2 f3 n2 n3 -> batch1 f2 n2 (opt_the the_slice3 w k).
Proof. destruct w as [w|]; [|exact (fun _ => I)]. intros (f1 & n1 & E1 & E2). split; cbn; [rewrite E1 | rewrite E2]; reflexivity. Qed.
Lemma alloc_mesh : on_mesh alloc [0; f2; f3] [ax_size A1; n2; n3].
Proof. split; [reflexivity|]. cbn [alloc cn_sizes]. rewrite (proj1 (sz1 _ _ _ _ B1)). reflexivity. Qed.
Lemma first_sound r : exact_solvers X -> bl = Ok r ->
  on_mesh r [0; f2; f3] [ax_size A1; n2; n3] /\ forall j k, 0 <= j < n2 -> 0 <= k < n3 ->
  interp A1 (fun i => cn_at vals [i; j; k]) (fun e l => asked1 (edge_closure A1 e) (match e with Lower => dmin | Upper => dmax end) l j k) (fun i => cn_at r [i; j; k]).
Proof.
  intros Hex E. pose proof HV as (fv & nv & V). pose proof V as [V1 V2].
  destruct (slices3_sound 0 f2 f3 (ax_size A1) n2 n3 _ alloc r H3 alloc_mesh E) as [R1 R2].
  split; [exact R1|]. intros j k Hj Hk. destruct (R2 k Hk) as (jk & l & El & Hl). cbn beta in El.
  rewrite (slice3_ok vals fv f2 f3 nv n2 n3 k V Hk (proj2 H3)) in El. cbn [rbind] in El.
  rewrite (opt_slice3_ok dmin f2 f3 n2 n3 k Hmin Hk (proj2 H3)) in El. cbn [rbind] in El. rewrite (opt_slice3_ok dmax f2 f3 n2 n3 k Hmax Hk (proj2 H3)) in El. cbn [rbind] in El.
  rewrite <- (proj1 (sz1 _ _ _ _ B1)) in El.
  destruct (along1_sound s1 A1 X bd1 (sz1 _ _ _ _ B1) f2 n2 (work k) jk (the_slice3 vals k) (opt_the the_slice3 dmin k) (opt_the the_slice3 dmax k) H2) with (r := l) as (_ & _ & _ & _ & Q).
  - cbn. rewrite V1. reflexivity.
  - cbn. rewrite V2. reflexivity.
  - exact (slice_batch dmin k Hmin).
  - exact (slice_batch dmax k Hmax).
  - exact (fun junk sp v dl du c H1 H2 => proj2 (builder_exact solver1 s1 A1 bd1 X B1 Hex junk sp v dl du c H1 H2)).
  - exact El.
  - specialize (Q j Hj). cbn [the_slice3 c2_vals a2_at] in Q. replace (fun i => cn_at r [i; j; k]) with (fun i => a2_at (c2_vals l) i j) by (extensionality i; symmetry; apply Hl).
    replace (fun e l => asked1 (edge_closure A1 e) (match e with Lower => dmin | Upper => dmax end) l j k) with
      (fun e => match e with Lower => asked (ax_lower A1) (oln1 (opt_the the_slice3 dmin k) j) | Upper => asked (ax_upper A1) (oln1 (opt_the the_slice3 dmax k) j) end); [exact Q|].
    extensionality e. extensionality l0. destruct e; apply asked_slice.
Qed.
Lemma first_total : never_fails s1 A1 X bd1 -> nth 0 (cn_sizes vals) 0 = ax_points A1 ->
  (forall e, let w := match e with Lower => dmin | Upper => dmax end in if hermite A1 (At e) then shaped w [ax_degree A1 mod 2; f2; f3] [ax_degree A1 / 2; n2; n3] else w = None) -> exists r, bl = Ok r.
Proof.
  intros HX Hp Hd. pose proof HV as (fv & nv & V). pose proof V as [V1 V2]. apply (slices3_total 0 f2 f3 (ax_size A1) n2 n3 _ alloc H3 alloc_mesh). intros k jk Hk.
  rewrite (slice3_ok vals fv f2 f3 nv n2 n3 k V Hk (proj2 H3)). cbn [rbind].
  rewrite (opt_slice3_ok dmin f2 f3 n2 n3 k Hmin Hk (proj2 H3)). cbn [rbind]. rewrite (opt_slice3_ok dmax f2 f3 n2 n3 k Hmax Hk (proj2 H3)). cbn [rbind].
  rewrite <- (proj1 (sz1 _ _ _ _ B1)).
  apply (along1_total s1 A1 X bd1 (sz1 _ _ _ _ B1) f2 n2 (work k) jk (the_slice3 vals k) (opt_the the_slice3 dmin k) (opt_the the_slice3 dmax k) H2).
  - cbn. rewrite V1. reflexivity.
  - cbn. rewrite V2. reflexivity.
  - exact (slice_batch dmin k Hmin).
  - exact (slice_batch dmax k Hmax).
  - intros j Hj. assert (K : forall e, derivatives_given (edge_closure A1 e) (ax_degree A1) (oln1 (opt_the the_slice3 (match e with Lower => dmin | Upper => dmax end) k) j)).
    { intros e. specialize (Hd e). cbv zeta in Hd. cbn [hermite] in Hd. set (w := match e with Lower => dmin | Upper => dmax end) in *. clearbody w.
      destruct (edge_closure A1 e); [subst w; exact I | | subst w; exact I | subst w; exact I].
      destruct w as [w|]; [|contradiction]. destruct Hd as [W1 W2]. cbn. rewrite W1. unfold c1_size. cbn. rewrite W2. split; reflexivity. }
    split; [exact (K Lower) | exact (K Upper)].
  - cbn. exact Hp.
  - exact HX.
Qed.
End First.

Section Whole.
Context (solver1 solver2 solver3 : spline_solver) (s1 s2 s3 : bspline_space RA) (A1 A2 A3 : axis) (X : solvers RA) (bd1 bd2 bd3 : builder RA).
Hypothesis (B1 : builder_for solver1 s1 A1 bd1) (B2 : builder_for solver2 s2 A2 bd2) (B3 : builder_for solver3 s3 A3 bd3).
Context (D : data_3d) (f2 f3 : Z).
Hypothesis (Hf2 : 0 <= f2 < 2 ^ 64) (Hf3 : 0 <= f3 < 2 ^ 64) (Sup : supported A2 A3).
Hypothesis (HD : forall k2 k3, read A2 A3 k2 k3 = true ->
    (exists f1, shaped (D Inside k2 k3) [f1; front_of A2 f2 k2; front_of A3 f3 k3] [ax_points A1; extent_of A2 k2; extent_of A3 k3]) /\
    forall e1, if hermite A1 (At e1)
      then shaped (D (At e1) k2 k3) [ax_degree A1 mod 2; front_of A2 f2 k2; front_of A3 f3 k3] [ax_degree A1 / 2; extent_of A2 k2; extent_of A3 k3]
      else D (At e1) k2 k3 = None).
Definition entry (w : option (chunk_nd RA)) (i j k : Z) : R := match w with Some w => cn_at w [i; j; k] | None => 0%R end.
Definition shape_ok (k2 k3 : kind) (r : option (chunk_nd RA)) : Prop :=
  if read A2 A3 k2 k3 then shaped r [0; front_of A2 f2 k2; front_of A3 f3 k3] [ax_size A1; extent_of A2 k2; extent_of A3 k3] else r = None.
Definition interp_ok (k2 k3 : kind) (r : option (chunk_nd RA)) : Prop :=
  read A2 A3 k2 k3 = true -> forall j k, 0 <= j < extent_of A2 k2 -> 0 <= k < extent_of A3 k3 ->
  interp A1 (fun i => entry (D Inside k2 k3) i j k) (fun e l => asked1 (edge_closure A1 e) (D (At e) k2 k3) l j k) (fun i => entry r i j k).
Lemma extent2 k : 0 <= extent_of A2 k < 2 ^ 62.
Proof. destruct k; cbn [extent_of]; [pose proof (builder_points _ _ _ _ B2); lia | exact (proj2 (half2 _ _ _ _ B2))]. Qed.
Lemma extent3 k : 0 <= extent_of A3 k < 2 ^ 62.
Proof. destruct k; cbn [extent_of]; [pose proof (builder_points _ _ _ _ B3); lia | exact (proj2 (half2 _ _ _ _ B3))]. Qed.
Lemma given_batch23 k2 k3 e1 : read A2 A3 k2 k3 = true -> batch23 (D (At e1) k2 k3) (front_of A2 f2 k2) (front_of A3 f3 k3) (extent_of A2 k2) (extent_of A3 k3).
Proof.
  intros Hr. destruct (HD k2 k3 Hr) as [_ H]. specialize (H e1). destruct (hermite A1 (At e1)).
  - destruct (D (At e1) k2 k3) as [w|]; [|contradiction]. cbn. do 2 eexists. exact H.
  - rewrite H. exact I.
Qed.
Definition approx (k2 k3 : kind) (junk : list Z -> R) (work : Z -> Z -> Z -> R) : res (option (chunk_nd RA)) :=
  approximate_3d RA s1 (ax_lower A1) (ax_upper A1) X bd1 (read A2 A3 k2 k3) (front_of A2 f2 k2) (extent_of A2 k2) (front_of A3 f3 k3) (extent_of A3 k3) junk work
    (D Inside k2 k3) (D (At Lower) k2 k3) (D (At Upper) k2 k3).
Lemma approx_sound k2 k3 junk work r : exact_solvers X -> approx k2 k3 junk work = Ok r -> shape_ok k2 k3 r /\ interp_ok k2 k3 r.
Proof.
  intros Hex E. unfold approx, approximate_3d in E. unfold shape_ok, interp_ok. destruct (read A2 A3 k2 k3) eqn:Hr; [|split; [congruence | discriminate]]. cbv zeta in E.
  destruct (HD k2 k3 Hr) as [[f1 W] _]. destruct (D Inside k2 k3) as [w|] eqn:Ew; [|contradiction]. pose proof W as [W1 W2]. rewrite W1, W2, !Z.eqb_refl in E. cbn [andb assert_] in E.
  destruct (build1_3d _ _ _ _ _ _ _ _ _ _ _ _ _ _) as [q| |] eqn:Eq; cbn [rbind] in E; [|discriminate..]. assert (Er : r = Some q) by congruence. subst r. clear E.
  destruct (first_sound solver1 s1 A1 X bd1 B1 (front_of A2 f2 k2) (extent_of A2 k2) (front_of A3 f3 k3) (extent_of A3 k3) work junk w (D (At Lower) k2 k3) (D (At Upper) k2 k3) (extent2 k2) (extent3 k3)) with (r := q) as [Q1 Q2].
  - do 2 eexists. exact W.
  - exact (given_batch23 k2 k3 Lower Hr).
  - exact (given_batch23 k2 k3 Upper Hr).
  - exact Hex.
  - exact Eq.
  - split; [exact Q1|]. intros _ j k Hj Hk. cbn [entry].
    replace (fun e l => asked1 (edge_closure A1 e) (D (At e) k2 k3) l j k) with (fun e l => asked1 (edge_closure A1 e) (match e with Lower => D (At Lower) k2 k3 | Upper => D (At Upper) k2 k3 end) l j k); [exact (Q2 j k Hj Hk)|].
    extensionality e. destruct e; reflexivity.
Qed.
Lemma shape_of_run k2 k3 junk work r : approx k2 k3 junk work = Ok r -> shape_ok k2 k3 r.
Proof.
  intros E. unfold approx, approximate_3d in E. unfold shape_ok. destruct (read A2 A3 k2 k3) eqn:Hr; [|congruence]. cbv zeta in E.
  destruct (HD k2 k3 Hr) as [[f1 W] _]. destruct (D Inside k2 k3) as [w|] eqn:Ew; [|contradiction]. pose proof W as [W1 W2]. rewrite W1, W2, !Z.eqb_refl in E. cbn [andb assert_] in E.
  destruct (build1_3d _ _ _ _ _ _ _ _ _ _ _ _ _ _) as [q| |] eqn:Eq; cbn [rbind] in E; [|discriminate..]. assert (Er : r = Some q) by congruence. subst r. clear E.
  exact (proj1 (slices3_sound 0 _ _ (ax_size A1) _ _ _ _ q (extent3 k3) (alloc_mesh solver1 s1 A1 bd1 B1 _ _ _ _ junk) Eq)).
Qed.
Lemma approx_total k2 k3 junk work : never_fails s1 A1 X bd1 -> exists r, approx k2 k3 junk work = Ok r.
Proof.
  intros HX. unfold approx, approximate_3d. destruct (read A2 A3 k2 k3) eqn:Hr; [|eexists; reflexivity]. cbv zeta.
  destruct (HD k2 k3 Hr) as [[f1 W] He]. destruct (D Inside k2 k3) as [w|] eqn:Ew; [|contradiction]. pose proof W as [W1 W2]. rewrite W1, W2, !Z.eqb_refl. cbn [andb assert_].
  destruct (first_total solver1 s1 A1 X bd1 B1 (front_of A2 f2 k2) (extent_of A2 k2) (front_of A3 f3 k3) (extent_of A3 k3) work junk w (D (At Lower) k2 k3) (D (At Upper) k2 k3) (extent2 k2) (extent3 k3)) as [r E].
  - do 2 eexists. exact W.
  - exact (given_batch23 k2 k3 Lower Hr).
  - exact (given_batch23 k2 k3 Upper Hr).
  - exact HX.
  - rewrite W2. reflexivity.
  - intros e. specialize (He e). destruct e; exact He.
  - exists (Some r). exact (f_equal (fun q => rbind q (fun r => Ok (Some r))) E).
Qed.

(** The data of the problem in two dimensions, for each coefficient of the first. *)
Definition data_at (m : kind -> kind -> option (chunk_nd RA)) (v : chunk_nd RA) (i : Z) : data_2d :=
  mk_data_2d (the_slice1 v i) (fun e => opt_the the_slice1 (m (At e) Inside) i) (fun e => opt_the the_slice1 (m Inside (At e)) i) (fun e2 e3 => opt_the the_slice1 (m (At e2) (At e3)) i).
Definition shapes (m : kind -> kind -> option (chunk_nd RA)) (v : chunk_nd RA) : Prop := m Inside Inside = Some v /\ forall k2 k3, shape_ok k2 k3 (m k2 k3).
Lemma data_at_given m v i : shapes m v -> data_given A2 A3 (data_at m v i).
Proof.
  intros [Hv Hm]. pose proof (Hm Inside Inside) as K. rewrite Hv in K. destruct K as [K1 K2]. cbn [front_of extent_of] in K1, K2.
  unfold data_given. cbn [dt_values data_at the_slice1 c2_vals a2_n a2_m c2_front2 dt_edge1 dt_edge2 dt_corner]. rewrite K1, K2. cbn [nth]. do 2 (split; [reflexivity|]). split; [exact Hf3|].
  split; [|split].
  - intros e. specialize (Hm (At e) Inside). unfold shape_ok, read in Hm. cbn [hermite] in Hm. rewrite andb_true_r in Hm. unfold given_1.
    destruct (edge_closure A2 e); [rewrite Hm; reflexivity | | rewrite Hm; reflexivity..].
    destruct (m (At e) Inside) as [w|]; [|contradiction]. destruct Hm as [M1 M2]. cbn. rewrite M1, M2. repeat split; reflexivity.
  - intros e. specialize (Hm Inside (At e)). unfold shape_ok, read in Hm. cbn [hermite andb] in Hm. unfold given_2.
    destruct (edge_closure A3 e); [exact I | | exact I..].
    destruct (m Inside (At e)) as [w|]; [|contradiction]. destruct Hm as [M1 M2]. cbn. rewrite M1, M2. repeat split; reflexivity.
  - intros e2 e3 He. pose proof (Sup e2 e3 He) as He2. specialize (Hm (At e2) (At e3)). unfold shape_ok, read in Hm. cbn [hermite] in Hm. rewrite He, He2 in Hm. cbn [orb] in Hm. unfold given_1. rewrite He2.
    destruct (m (At e2) (At e3)) as [w|]; [|contradiction]. destruct Hm as [M1 M2]. cbn. rewrite M1, M2. repeat split; reflexivity.
Qed.
Lemma shape_batch m v k2 k3 : shapes m v -> batch_1 (m k2 k3) 0 (ax_size A1).
Proof.
  intros [_ Hm]. specialize (Hm k2 k3). unfold shape_ok in Hm. destruct (read A2 A3 k2 k3); [|rewrite Hm; exact I]. destruct (m k2 k3) as [w|]; [|exact I]. do 4 eexists. exact Hm.
Qed.
Definition second (work23 : nat -> Z -> Z -> Z -> R) (m : kind -> kind -> option (chunk_nd RA)) (v : chunk_nd RA) (i : Z) (l : chunk_2d RA) : res (chunk_2d RA) :=
  run_2d s2 s3 A2 A3 X bd2 bd3 (work23 0%nat i) (work23 1%nat i) (work23 2%nat i) (work23 3%nat i) (work23 4%nat i) (work23 5%nat i) (work23 6%nat i) l (data_at m v i).
Definition slices_of (m : kind -> kind -> option (chunk_nd RA)) (v : chunk_nd RA) (work23 : nat -> Z -> Z -> Z -> R) (i e : Z) (l : chunk_2d RA) : res (chunk_2d RA) :=
  let lo := At Lower in let up := At Upper in
  v <- slice1 RA v e ;;
  min2 <- opt_slice RA (slice1 RA) (m lo Inside) e ;; max2 <- opt_slice RA (slice1 RA) (m up Inside) e ;;
  min3 <- opt_slice RA (slice1 RA) (m Inside lo) e ;; max3 <- opt_slice RA (slice1 RA) (m Inside up) e ;;
  min2_min3 <- opt_slice RA (slice1 RA) (m lo lo) e ;; max2_min3 <- opt_slice RA (slice1 RA) (m up lo) e ;;
  min2_max3 <- opt_slice RA (slice1 RA) (m lo up) e ;; max2_max3 <- opt_slice RA (slice1 RA) (m up up) e ;;
  build_2d RA s2 s3 (ax_lower A2) (ax_upper A2) (ax_lower A3) (ax_upper A3) X bd2 bd3 (work23 0%nat i) (work23 1%nat i) (work23 2%nat i) (work23 3%nat i) (work23 4%nat i) (work23 5%nat i) (work23 6%nat i)
            l v min2 max2 min3 max3 min2_min3 max2_min3 min2_max3 max2_max3.
Lemma slices_second m v work23 i l : shapes m v -> 0 <= i < ax_size A1 -> slices_of m v work23 i (u64_add 0 i) l = second work23 m v i l.
Proof.
  intros Hs Hi. assert (Hsz : ax_size A1 < 2 ^ 62) by (pose proof (proj2 (sz1 _ _ _ _ B1)); lia). unfold slices_of. cbv zeta. pose proof (fun k2 k3 => shape_batch m v k2 k3 Hs) as Hb.
  pose proof (proj2 Hs Inside Inside) as K. rewrite (proj1 Hs) in K.
  rewrite (slice1_ok v 0 _ _ (ax_size A1) _ _ i K Hi Hsz). cbn [rbind].
  do 8 (match goal with |- context [opt_slice RA (slice1 RA) ?c _] => rewrite (opt_slice1_ok c 0 (ax_size A1) i (Hb _ _) Hi Hsz) end; cbn [rbind]). reflexivity.
Qed.
Tactic Notation "step" hyp(E) ident(r) ident(Er) := match type of E with rbind ?e _ = Ok _ => destruct e as [r| |] eqn:Er; cbn [rbind] in E; [|discriminate..] end.
Definition gather (v : chunk_nd RA) (min2 max2 min3 max3 a b c d : option (chunk_nd RA)) (k2 k3 : kind) : option (chunk_nd RA) :=
  match k2, k3 with
  | Inside, Inside => Some v | At Lower, Inside => min2 | At Upper, Inside => max2 | Inside, At Lower => min3 | Inside, At Upper => max3
  | At Lower, At Lower => a | At Lower, At Upper => b | At Upper, At Lower => c | At Upper, At Upper => d
  end.
Lemma run_split junk work work23 sp c : on_mesh sp [0; 0; 0] [ax_size A1; ax_size A2; ax_size A3] ->
  run_3d s1 s2 s3 A1 A2 A3 X bd1 bd2 bd3 junk work work23 sp D = Ok c ->
  exists m v, (forall k2 k3, exists junk work, approx k2 k3 junk work = Ok (m k2 k3)) /\ m Inside Inside = Some v /\
    map_slices RA (slice1 RA) (put_slice1 RA) 0 (ax_size A1) (slices_of m v work23) sp = Ok c.
Proof.
  intros [S1 S2] E. destruct (HD Inside Inside eq_refl) as [[f1 W] _]. unfold run_3d in E. destruct (D Inside Inside Inside) as [vals|] eqn:Ev; [|contradiction]. pose proof W as [W1 W2]. cbn [front_of extent_of] in W1, W2.
  unfold build_3d in E. rewrite W1, W2 in E. cbv zeta in E. rewrite (odd2 _ _ _ _ B2), (odd2 _ _ _ _ B3), (proj1 (half2 _ _ _ _ B2)), (proj1 (half2 _ _ _ _ B3)) in E.
  unfold arguments_of in E. cbn [derivs_min1 derivs_max1 derivs_min2 derivs_max2 derivs_min3 derivs_max3 mixed_min1_min2 mixed_max1_min2 mixed_min1_max2 mixed_max1_max2
    mixed_min2_min3 mixed_max2_min3 mixed_min2_max3 mixed_max2_max3 mixed_min1_min3 mixed_max1_min3 mixed_min1_max3 mixed_max1_max3
    mixed_min1_min2_min3 mixed_max1_min2_min3 mixed_min1_max2_min3 mixed_max1_max2_min3 mixed_min1_min2_max3 mixed_max1_min2_max3 mixed_min1_max2_max3 mixed_max1_max2_max3] in E.
  step E min2 E1. step E max2 E2. step E min3 E3. step E max3 E4. step E mm E5. step E mM E6. step E Mm E7. step E MM E8. step E v E9.
  rewrite S1, S2 in E. cbn [nth] in E. rewrite (proj1 (sz1 _ _ _ _ B1)), !Z.eqb_refl in E. cbn [andb assert_] in E.
  exists (gather v min2 max2 min3 max3 mm mM Mm MM), v. split; [|split; [reflexivity | exact E]].
  assert (K : forall A e, hermite A (At e) = is_hermite (edge_closure A e)) by reflexivity.
  intros [|[|]] [|[|]]; unfold approx, read; rewrite ?K; cbn [hermite edge_closure front_of extent_of andb]; rewrite ?andb_true_r; cbn [gather]; do 2 eexists;
    [ | exact E3 | exact E4 | exact E1 | exact E5 | exact E6 | exact E2 | exact E7 | exact E8].
  unfold approximate_3d. rewrite Ev, W1, W2, !Z.eqb_refl. cbn [andb assert_]. exact (f_equal (fun q => rbind q (fun r => Ok (Some r))) E9).
Qed.
Lemma run_join junk work work23 sp : on_mesh sp [0; 0; 0] [ax_size A1; ax_size A2; ax_size A3] -> (forall k2 k3 junk work, exists r, approx k2 k3 junk work = Ok r) ->
  (forall m v, (forall k2 k3, exists junk work, approx k2 k3 junk work = Ok (m k2 k3)) -> m Inside Inside = Some v ->
     exists c, map_slices RA (slice1 RA) (put_slice1 RA) 0 (ax_size A1) (slices_of m v work23) sp = Ok c) ->
  exists c, run_3d s1 s2 s3 A1 A2 A3 X bd1 bd2 bd3 junk work work23 sp D = Ok c.
Proof.
  intros [S1 S2] Ha Hm. destruct (HD Inside Inside eq_refl) as [[f1 W] _]. unfold run_3d. destruct (D Inside Inside Inside) as [vals|] eqn:Ev; [|contradiction]. pose proof W as [W1 W2]. cbn [front_of extent_of] in W1, W2.
  unfold build_3d. rewrite W1, W2. cbv zeta. rewrite (odd2 _ _ _ _ B2), (odd2 _ _ _ _ B3), (proj1 (half2 _ _ _ _ B2)), (proj1 (half2 _ _ _ _ B3)).
  unfold arguments_of. cbn [derivs_min1 derivs_max1 derivs_min2 derivs_max2 derivs_min3 derivs_max3 mixed_min1_min2 mixed_max1_min2 mixed_min1_max2 mixed_max1_max2
    mixed_min2_min3 mixed_max2_min3 mixed_min2_max3 mixed_max2_max3 mixed_min1_min3 mixed_max1_min3 mixed_min1_max3 mixed_max1_max3
    mixed_min1_min2_min3 mixed_max1_min2_min3 mixed_min1_max2_min3 mixed_max1_max2_min3 mixed_min1_min2_max3 mixed_max1_min2_max3 mixed_min1_max2_max3 mixed_max1_max2_max3].
  assert (K : forall A e, hermite A (At e) = is_hermite (edge_closure A e)) by reflexivity.
  destruct (Ha (At Lower) Inside (junk 0%nat) (work 0%nat)) as [min2 E1]. destruct (Ha (At Upper) Inside (junk 1%nat) (work 1%nat)) as [max2 E2].
  destruct (Ha Inside (At Lower) (junk 2%nat) (work 2%nat)) as [min3 E3]. destruct (Ha Inside (At Upper) (junk 3%nat) (work 3%nat)) as [max3 E4].
  destruct (Ha (At Lower) (At Lower) (junk 4%nat) (work 4%nat)) as [mm E5]. destruct (Ha (At Lower) (At Upper) (junk 5%nat) (work 5%nat)) as [mM E6].
  destruct (Ha (At Upper) (At Lower) (junk 6%nat) (work 6%nat)) as [Mm E7]. destruct (Ha (At Upper) (At Upper) (junk 7%nat) (work 7%nat)) as [MM E8].
  destruct (Ha Inside Inside (junk 8%nat) (work 8%nat)) as [ov E9].
  pose proof E1 as F1. pose proof E2 as F2. pose proof E3 as F3. pose proof E4 as F4. pose proof E5 as F5. pose proof E6 as F6. pose proof E7 as F7. pose proof E8 as F8. pose proof E9 as F9.
  unfold approx, read in F1, F2, F3, F4, F5, F6, F7, F8, F9. rewrite ?K in F1, F2, F3, F4, F5, F6, F7, F8, F9. cbn [hermite edge_closure front_of extent_of andb] in F1, F2, F3, F4, F5, F6, F7, F8, F9.
  rewrite andb_true_r in F1, F2. change (num RA) with R in *.
  match goal with |- context [rbind ?e _] => replace e with (Ok min2) by (symmetry; exact F1) end. cbn [rbind].
  match goal with |- context [rbind ?e _] => replace e with (Ok max2) by (symmetry; exact F2) end. cbn [rbind].
  match goal with |- context [rbind ?e _] => replace e with (Ok min3) by (symmetry; exact F3) end. cbn [rbind].
  match goal with |- context [rbind ?e _] => replace e with (Ok max3) by (symmetry; exact F4) end. cbn [rbind].
  match goal with |- context [rbind ?e _] => replace e with (Ok mm) by (symmetry; exact F5) end. cbn [rbind].
  match goal with |- context [rbind ?e _] => replace e with (Ok mM) by (symmetry; exact F6) end. cbn [rbind].
  match goal with |- context [rbind ?e _] => replace e with (Ok Mm) by (symmetry; exact F7) end. cbn [rbind].
  match goal with |- context [rbind ?e _] => replace e with (Ok MM) by (symmetry; exact F8) end. cbn [rbind].
  unfold approximate_3d in F9. rewrite Ev, W1, W2, !Z.eqb_refl in F9. cbn [andb assert_] in F9.
  match type of F9 with rbind ?e _ = Ok _ => destruct e as [v| |] eqn:Er; cbn [rbind] in F9; [|discriminate..] end. cbn [rbind].
  rewrite S1, S2. cbn [nth]. rewrite (proj1 (sz1 _ _ _ _ B1)), !Z.eqb_refl. cbn [andb assert_].
  apply (Hm (gather v min2 max2 min3 max3 mm mM Mm MM) v); [|reflexivity].
  intros [|[|]] [|[|]]; cbn [gather]; do 2 eexists; [ | exact E3 | exact E4 | exact E1 | exact E5 | exact E6 | exact E2 | exact E7 | exact E8].
  replace (Some v) with ov by congruence. exact E9.
Qed.
(** What the second step is given for the coefficient [i] of the first dimension. *)
Definition d2 (m : kind -> kind -> option (chunk_nd RA)) (i : Z) (t2 t3 : site) : R :=
  if hermite A2 (kind_of t2) && hermite A3 (kind_of t3) then entry (m (kind_of t2) (kind_of t3)) i (index_of t2) (index_of t3) else 0%R.
Lemma second_lines work23 m v i sp l : exact_solvers X -> shapes m v -> has_coefficients_2d sp (ax_size A2) (ax_size A3) -> second work23 m v i sp = Ok l ->
  has_coefficients_2d l (ax_size A2) (ax_size A3) /\ exists sp sd,
  (forall j, 0 <= j < ax_size A2 -> interp A3 (sp j) (fun e => sd e j) (coefficient_2d l j)) /\
  (forall t3, valid_site A3 t3 -> interp A2 (fun j => d2 m i (AtPoint j) t3) (fun e k => d2 m i (AtEdge e k) t3) (fun j => of_site (sp j) (fun e => sd e j) t3)).
Proof.
  intros Hex Hs Hsp E. destruct (build_2d_lines solver2 solver3 s2 s3 A2 A3 X bd2 bd3 B2 B3 (data_at m v i) (data_at_given m v i Hs) Hex _ _ _ _ _ _ _ _ _ Hsp E) as (Hc & p & sd & L3 & L2 & Ld).
  split; [exact Hc|]. exists p, sd. split; [exact L3|]. intros [k|e3 l3] Ht; cbn [of_site].
  - apply (interp_ext A2 _ _ _ _ _ (fun _ _ => eq_refl) (fun _ _ _ => eq_refl)). eapply interp_ext; [| |exact (L2 k Ht)].
    + intros j Hj. cbn [data_at dt_values the_slice1 c2_vals a2_at]. unfold d2. cbn [kind_of hermite andb index_of]. rewrite (proj1 Hs). reflexivity.
    + intros e l0 Hl. cbn [data_at dt_edge1]. unfold d2. cbn [kind_of hermite index_of]. rewrite andb_true_r. unfold asked_2d.
      destruct (edge_closure A2 e); try reflexivity. destruct (m (At e) Inside) as [w|]; reflexivity.
  - eapply interp_ext; [| |exact (Ld e3 l3 Ht)].
    + intros j Hj. cbn [data_at dt_edge2]. unfold d2. cbn [kind_of hermite index_of andb]. unfold asked_2d. destruct (edge_closure A3 e3); try reflexivity. destruct (m Inside (At e3)) as [w|]; reflexivity.
    + intros e l0 Hl. cbn [data_at dt_corner]. unfold d2. cbn [kind_of hermite index_of]. unfold asked_corner, asked_2d.
      destruct (edge_closure A2 e); try reflexivity. destruct (edge_closure A3 e3); try reflexivity. destruct (m (At e) (At e3)) as [w|]; reflexivity.
Qed.
Lemma index_extent A k t : valid_site A t -> kind_of t = k -> hermite A k = true -> 0 <= index_of t < extent_of A k.
Proof.
  intros Ht <- Hh. destruct t as [i|e l]; cbn [kind_of index_of extent_of hermite] in *; [exact Ht|]. cbn in Ht. unfold edge_equations, equations in Ht. destruct (edge_closure A e); try discriminate. exact Ht.
Qed.
Lemma first_interp m t2 t3 : (forall k2 k3, interp_ok k2 k3 (m k2 k3)) -> valid_site A2 t2 -> valid_site A3 t3 ->
  interp A1 (fun i => asked_3d A1 A2 A3 D (AtPoint i) t2 t3) (fun e l => asked_3d A1 A2 A3 D (AtEdge e l) t2 t3) (fun i => d2 m i t2 t3).
Proof.
  intros Hm H2 H3. unfold d2, asked_3d. destruct (hermite A2 (kind_of t2)) eqn:E2; destruct (hermite A3 (kind_of t3)) eqn:E3; cbn [andb].
  2-4: eapply interp_ext; [| |exact (interp_zero A1)]; [intros i Hi; cbn; reflexivity | intros e l Hl; rewrite andb_false_r; rewrite ?andb_false_l; reflexivity].
  assert (Hr : read A2 A3 (kind_of t2) (kind_of t3) = true) by (unfold read; rewrite E2, E3; destruct (kind_of t2), (kind_of t3); reflexivity).
  eapply interp_ext; [| |exact (Hm _ _ Hr (index_of t2) (index_of t3) (index_extent A2 _ t2 H2 eq_refl E2) (index_extent A3 _ t3 H3 eq_refl E3))].
  - intros i Hi. reflexivity.
  - intros e l Hl. cbn [kind_of index_of hermite]. rewrite !andb_true_r. unfold asked1. destruct (edge_closure A1 e); reflexivity.
Qed.
Lemma all_approx m : exact_solvers X -> (forall k2 k3, exists junk work, approx k2 k3 junk work = Ok (m k2 k3)) -> (forall k2 k3, shape_ok k2 k3 (m k2 k3)) /\ (forall k2 k3, interp_ok k2 k3 (m k2 k3)).
Proof. intros Hex H. split; intros k2 k3; destruct (H k2 k3) as (junk & work & E); [exact (proj1 (approx_sound k2 k3 _ _ _ Hex E)) | exact (proj2 (approx_sound k2 k3 _ _ _ Hex E))]. Qed.
Definition space1 : space_of s1 A1 := builder_space _ _ _ _ B1.
Definition space2 : space_of s2 A2 := builder_space _ _ _ _ B2.
Definition space3 : space_of s3 A3 := builder_space _ _ _ _ B3.
Lemma run_lines junk work work23 sp c : exact_solvers X -> on_mesh sp [0; 0; 0] [ax_size A1; ax_size A2; ax_size A3] ->
  run_3d s1 s2 s3 A1 A2 A3 X bd1 bd2 bd3 junk work work23 sp D = Ok c ->
  on_mesh c [0; 0; 0] [ax_size A1; ax_size A2; ax_size A3] /\ exists d : Z -> site -> site -> R,
  (forall t2 t3, valid_site A2 t2 -> valid_site A3 t3 ->
     interp A1 (fun i => asked_3d A1 A2 A3 D (AtPoint i) t2 t3) (fun e l => asked_3d A1 A2 A3 D (AtEdge e l) t2 t3) (fun i => d i t2 t3)) /\
  (forall i, 0 <= i < ax_size A1 -> exists p sd,
     (forall j, 0 <= j < ax_size A2 -> interp A3 (p j) (fun e => sd e j) (fun k => cn_at c [i; j; k])) /\
     (forall t3, valid_site A3 t3 -> interp A2 (fun j => d i (AtPoint j) t3) (fun e k => d i (AtEdge e k) t3) (fun j => of_site (p j) (fun e => sd e j) t3))).
Proof.
  intros Hex Hsp E. destruct (run_split _ _ _ _ _ Hsp E) as (m & v & Ha & Hv & Em). destruct (all_approx m Hex Ha) as [Hsh Hin]. assert (Hs : shapes m v) by (split; assumption).
  destruct (slices1_sound 0 0 0 (ax_size A1) (ax_size A2) (ax_size A3) _ sp c ltac:(pose proof (proj2 (sz1 _ _ _ _ B1)); lia) Hsp Em) as [C1 C2].
  split; [exact C1|]. exists (d2 m). split; [intros t2 t3 H2 H3; exact (first_interp m t2 t3 Hin H2 H3)|].
  intros i Hi. destruct (C2 i Hi) as (jk & l & El & Hl). rewrite (slices_second m v work23 i _ Hs Hi) in El.
  assert (Hb : has_coefficients_2d (mk_chunk_2d (A := RA) 0 0 (mk_arr2 (ax_size A2) (ax_size A3) jk)) (ax_size A2) (ax_size A3)) by (repeat split).
  destruct (second_lines work23 m v i _ l Hex Hs Hb El) as (_ & p & sd & L3 & L2). exists p, sd. split; [|exact L2].
  intros j Hj. replace (fun k => cn_at c [i; j; k]) with (coefficient_2d l j) by (extensionality k; symmetry; apply Hl). exact (L3 j Hj).
Qed.
Theorem run_3d_sound junk work work23 sp c : exact_solvers X -> on_mesh sp [0; 0; 0] [ax_size A1; ax_size A2; ax_size A3] ->
  run_3d s1 s2 s3 A1 A2 A3 X bd1 bd2 bd3 junk work work23 sp D = Ok c ->
  has_coefficients_nd c (map ax_size [A1; A2; A3]) /\ interpolates_3d A1 A2 A3 D (coefficient_nd c).
Proof.
  intros Hex Hsp E. destruct (run_lines _ _ _ _ _ Hex Hsp E) as (C & d & L1 & L). split; [exact C|].
  intros t1 t2 t3 H1 H2 H3. eapply md_value; [|apply takes_functional; [|repeat constructor; assumption]].
  2:{ repeat constructor; [exists s1; exact space1 | exists s2; exact space2 | exists s3; exact space3]. }
  cbn [functional_nd]. rewrite (functional_ext A1 s1 space1 t1 _ (fun i => d i t2 t3) H1).
  - rewrite (interp_functional A1 s1 space1 _ _ _ t1 (L1 t2 t3 H2 H3) H1). destruct t1; reflexivity.
  - intros i Hi. destruct (L i Hi) as (p & sd & L3 & L2). rewrite (functional_ext A2 s2 space2 t2 _ (fun j => of_site (p j) (fun e => sd e j) t3) H2).
    + rewrite (interp_functional A2 s2 space2 _ _ _ t2 (L2 t3 H3) H2). destruct t2; reflexivity.
    + intros j Hj. exact (interp_functional A3 s3 space3 _ _ _ t3 (L3 j Hj) H3).
Qed.
Theorem run_3d_periodic junk work work23 sp c : exact_solvers X -> on_mesh sp [0; 0; 0] [ax_size A1; ax_size A2; ax_size A3] ->
  run_3d s1 s2 s3 A1 A2 A3 X bd1 bd2 bd3 junk work work23 sp D = Ok c -> determined A2 -> determined A3 -> periodic_nd [A1; A2; A3] (coefficient_nd c).
Proof.
  intros Hex Hsp E D2 D3. destruct (run_lines _ _ _ _ _ Hex Hsp E) as (C & d & L1 & L).
  pose proof (space_facts _ _ _ _ _ _ _ space1) as G1. pose proof (space_facts _ _ _ _ _ _ _ space2) as G2.
  pose proof (f_n _ _ _ _ _ _ _ G1). pose proof (f_d _ _ _ _ _ _ _ G1). pose proof (f_n _ _ _ _ _ _ _ G2). pose proof (f_d _ _ _ _ _ _ _ G2).
  split; [|intros i Hi; split; [|intros j Hj; split; [|intros k Hk; exact I]]].
  - intros Hp is His q Hq. inversion His as [|? j ? is' Hj His']; subst. inversion His' as [|? k ? is'' Hk His'']; subst. inversion His''; subst. unfold coefficient_nd.
    assert (Hi1 : 0 <= ax_cells A1 + q < ax_size A1) by (unfold ax_size; lia). assert (Hi2 : 0 <= q < ax_size A1) by (unfold ax_size; lia).
    destruct (L _ Hi1) as (p & sd & L3 & L2). destruct (L _ Hi2) as (p' & sd' & L3' & L2').
    assert (K : forall t3, valid_site A3 t3 -> of_site (p j) (fun e => sd e j) t3 = of_site (p' j) (fun e => sd' e j) t3).
    { intros t3 H3. refine (D2 _ _ (fun j => of_site (p j) (fun e => sd e j) t3) (fun j => of_site (p' j) (fun e => sd' e j) t3) _ (L2' t3 H3) j Hj). eapply interp_ext; [| |exact (L2 t3 H3)].
      - intros a Ha. exact (proj2 (proj2 (L1 (AtPoint a) t3 Ha H3)) Hp q Hq).
      - intros e a Ha. exact (proj2 (proj2 (L1 (AtEdge e a) t3 Ha H3)) Hp q Hq). }
    refine (D3 _ _ (fun k => cn_at c [ax_cells A1 + q; j; k]) (fun k => cn_at c [q; j; k]) _ (L3' j Hj) k Hk). eapply interp_ext; [| |exact (L3 j Hj)].
    + intros a Ha. exact (K (AtPoint a) Ha).
    + intros e a Ha. exact (K (AtEdge e a) Ha).
  - intros Hp is His q Hq. inversion His as [|? k ? is' Hk His']; subst. inversion His'; subst. unfold coefficient_nd. destruct (L i Hi) as (p & sd & L3 & L2).
    assert (Hj1 : 0 <= ax_cells A2 + q < ax_size A2) by (unfold ax_size; lia). assert (Hj2 : 0 <= q < ax_size A2) by (unfold ax_size; lia).
    refine (D3 _ _ (fun k => cn_at c [i; ax_cells A2 + q; k]) (fun k => cn_at c [i; q; k]) _ (L3 _ Hj2) k Hk). eapply interp_ext; [| |exact (L3 _ Hj1)].
    + intros a Ha. exact (proj2 (proj2 (L2 (AtPoint a) Ha)) Hp q Hq).
    + intros e a Ha. exact (proj2 (proj2 (L2 (AtEdge e a) Ha)) Hp q Hq).
  - intros Hp is His q Hq. inversion His; subst. destruct (L i Hi) as (p & sd & L3 & L2). exact (proj2 (proj2 (L3 j Hj)) Hp q Hq).
Qed.
Theorem run_3d_total junk work work23 sp : never_fails s1 A1 X bd1 -> never_fails s2 A2 X bd2 -> never_fails s3 A3 X bd3 -> on_mesh sp [0; 0; 0] [ax_size A1; ax_size A2; ax_size A3] ->
  exists c, run_3d s1 s2 s3 A1 A2 A3 X bd1 bd2 bd3 junk work work23 sp D = Ok c.
Proof.
  intros N1 N2 N3 Hsp. apply run_join; [exact Hsp | intros k2 k3 jk wk; exact (approx_total k2 k3 jk wk N1)|]. intros m v Ha Hv.
  assert (Hs : shapes m v). { split; [exact Hv|]. intros k2 k3. destruct (Ha k2 k3) as (jk & wk & E). exact (shape_of_run k2 k3 _ _ _ E). }
  apply (slices1_total 0 0 0 (ax_size A1) (ax_size A2) (ax_size A3)); [pose proof (proj2 (sz1 _ _ _ _ B1)); lia | exact Hsp|].
  intros i jk Hi. rewrite (slices_second m v work23 i _ Hs Hi).
  assert (Hb : has_coefficients_2d (mk_chunk_2d (A := RA) 0 0 (mk_arr2 (ax_size A2) (ax_size A3) jk)) (ax_size A2) (ax_size A3)) by (repeat split).
  exact (build_2d_total solver2 solver3 s2 s3 A2 A3 X bd2 bd3 B2 B3 (data_at m v i) (data_at_given m v i Hs) _ _ _ _ _ _ _ _ N2 N3 Hb).
Qed.
End Whole.
