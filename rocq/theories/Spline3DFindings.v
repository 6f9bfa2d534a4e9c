(** What the three-dimensional builder needs: mixed derivatives in the second and third dimensions if one of the two closures is HERMITE, and HERMITE in the second dimension if
    the third one is HERMITE. *)
From Coq Require Import Bool Reals ZArith Lia List.
From Verif Require Import Spline3DSpec Spline2DBuild Spline3DSlices LoopProofs EvaluatorSpace EvaluatorProofs Spline2DProofs.
Import ListNotations.
Local Open Scope Z_scope.
Tactic Notation "step" hyp(E) ident(r) ident(Er) := match type of E with rbind ?e _ = Ok _ => destruct e as [r| |] eqn:Er; cbn [rbind] in E; [|discriminate..] end.

Lemma run_parts s1 s2 s3 A1 A2 A3 X bd1 bd2 bd3 junk work work23 sp D c : run_3d s1 s2 s3 A1 A2 A3 X bd1 bd2 bd3 junk work work23 sp D = Ok c ->
  exists (m : side -> side -> option (chunk_nd RA)) min2 max2 min3 max3 v,
  (forall e2 e3, exists jk wk, approximate_3d RA s1 (ax_lower A1) (ax_upper A1) X bd1 (is_hermite (edge_closure A2 e2) || is_hermite (edge_closure A3 e3))
     (s_odd RA s2) (bs_degree RA s2 / 2) (s_odd RA s3) (bs_degree RA s3 / 2) jk wk (D Inside (At e2) (At e3)) (D (At Lower) (At e2) (At e3)) (D (At Upper) (At e2) (At e3)) = Ok (m e2 e3)) /\
  map_slices RA (slice1 RA) (put_slice1 RA) 0 (bs_size RA s1) (fun i e l =>
          v <- slice1 RA v e ;;
          min2 <- opt_slice RA (slice1 RA) min2 e ;;
          max2 <- opt_slice RA (slice1 RA) max2 e ;;
          min3 <- opt_slice RA (slice1 RA) min3 e ;;
          max3 <- opt_slice RA (slice1 RA) max3 e ;;
          min2_min3 <- opt_slice RA (slice1 RA) (m Lower Lower) e ;;
          max2_min3 <- opt_slice RA (slice1 RA) (m Upper Lower) e ;;
          min2_max3 <- opt_slice RA (slice1 RA) (m Lower Upper) e ;;
          max2_max3 <- opt_slice RA (slice1 RA) (m Upper Upper) e ;;
          build_2d RA s2 s3 (ax_lower A2) (ax_upper A2) (ax_lower A3) (ax_upper A3) X bd2 bd3 (work23 0%nat i) (work23 1%nat i) (work23 2%nat i) (work23 3%nat i) (work23 4%nat i) (work23 5%nat i) (work23 6%nat i)
            l v min2 max2 min3 max3 min2_min3 max2_min3 min2_max3 max2_max3) sp = Ok c.
Proof.
  intros E. unfold run_3d in E. destruct (D Inside Inside Inside) as [vals|] eqn:Ev; [|discriminate]. unfold build_3d in E.
  destruct (cn_fronts vals) as [|f1 [|f2 [|f3 [|]]]]; try discriminate. destruct (cn_sizes vals) as [|n1 [|n2 [|n3 [|]]]]; try discriminate. cbv zeta in E.
  unfold arguments_of in E. cbn [derivs_min1 derivs_max1 derivs_min2 derivs_max2 derivs_min3 derivs_max3 mixed_min1_min2 mixed_max1_min2 mixed_min1_max2 mixed_max1_max2
    mixed_min2_min3 mixed_max2_min3 mixed_min2_max3 mixed_max2_max3 mixed_min1_min3 mixed_max1_min3 mixed_min1_max3 mixed_max1_max3
    mixed_min1_min2_min3 mixed_max1_min2_min3 mixed_min1_max2_min3 mixed_max1_max2_min3 mixed_min1_min2_max3 mixed_max1_min2_max3 mixed_min1_max2_max3 mixed_max1_max2_max3] in E.
  step E min2 E1. step E max2 E2. step E min3 E3. step E max3 E4. step E mm E5. step E mM E6. step E Mm E7. step E MM E8. step E v E9.
  match type of E with assert_ ?b _ = _ => destruct b; [|discriminate] end. cbn [assert_] in E.
  exists (fun e2 e3 => match e2, e3 with Lower, Lower => mm | Lower, Upper => mM | Upper, Lower => Mm | Upper, Upper => MM end), min2, max2, min3, max3, v. split; [|exact E].
  intros [] []; do 2 eexists; [exact E5 | exact E6 | exact E7 | exact E8].
Qed.
Theorem mixed_needed s1 s2 s3 A1 A2 A3 X bd1 bd2 bd3 junk work work23 sp D c e2 e3 : edge_closure A2 e2 = HERMITE \/ edge_closure A3 e3 = HERMITE -> D Inside (At e2) (At e3) = None ->
  run_3d s1 s2 s3 A1 A2 A3 X bd1 bd2 bd3 junk work work23 sp D <> Ok c.
Proof.
  intros He Hn E. destruct (run_parts _ _ _ _ _ _ _ _ _ _ _ _ _ _ _ _ E) as (m & ? & ? & ? & ? & ? & Hm & _). destruct (Hm e2 e3) as (jk & wk & K). rewrite Hn in K. unfold approximate_3d in K.
  replace (is_hermite (edge_closure A2 e2) || is_hermite (edge_closure A3 e3)) with true in K; [discriminate|]. destruct He as [-> | ->]; [reflexivity | rewrite orb_true_r; reflexivity].
Qed.

Lemma first_pass {S} (body : Z -> S -> res S) n s r : 0 < n -> for_range 0 n body s = Ok r -> exists s', body 0 s = Ok s'.
Proof.
  intros Hn E. unfold for_range in E. destruct (Z.to_nat (n - 0)) as [|k] eqn:Ek; [lia|]. cbn [for_n] in E. destruct (body 0 s) as [s'| |]; [exists s'; reflexivity | discriminate..].
Qed.
Lemma approximated s1 l1 u1 X bd1 f2 n2 f3 n3 jk wk d dl du r : 0 <= n3 < 2 ^ 62 -> approximate_3d RA s1 l1 u1 X bd1 true f2 n2 f3 n3 jk wk d dl du = Ok r ->
  exists w, r = Some w /\ on_mesh w [0; f2; f3] [bs_size RA s1; n2; n3].
Proof.
  intros Hn E. unfold approximate_3d in E. destruct d as [d|]; [|discriminate]. destruct (cn_fronts d) as [|? [|? [|? [|]]]]; try discriminate. destruct (cn_sizes d) as [|? [|? [|? [|]]]]; try discriminate.
  match type of E with assert_ ?b _ = _ => destruct b; [|discriminate] end. cbn [assert_] in E. unfold build1_3d in E. cbv zeta in E. step E w Ew. injection E as <-. exists w. split; [reflexivity|].
  eapply (slices3_sound 0 f2 f3 (bs_size RA s1) n2 n3 _ (mk_chunk_nd (A := RA) [0; f2; f3] [bs_size RA s1; n2; n3] jk) w Hn); [split; reflexivity | exact Ew].
Qed.
(** A line of derivatives is refused if the closure is not HERMITE. *)
Lemma refused s lower upper X bd front n work sp v dmin dmax r : 0 < n -> build1 RA s lower upper X bd front n work sp v dmin dmax = Ok r ->
  (lower <> HERMITE -> match dmin with Some d => a2_n (c2_vals d) = 0 | None => True end) /\ (upper <> HERMITE -> match dmax with Some d => a2_n (c2_vals d) = 0 | None => True end).
Proof.
  intros Hn E. unfold build1, build_lines in E. destruct (first_pass _ _ _ _ Hn E) as [s' K]. cbv zeta in K. step K l El. step K vl Ev. step K a Ea. step K b Eb. step K r' Er.
  unfold build in Er. cbv zeta in Er. match type of Er with assert_ ?b _ = _ => destruct b; [|discriminate] end. cbn [assert_] in Er. match type of Er with assert_ ?b _ = _ => destruct b eqn:Hc; [|discriminate] end.
  apply andb_prop in Hc. destruct Hc as [Hl Hu].
  assert (G : forall (c : closure) (d : option (chunk_2d RA)) (q : option (chunk_1d RA)) e, c <> HERMITE -> opt_line RA (line1 RA) d e = Ok q -> check_derivs RA s c q = true -> match d with Some d => a2_n (c2_vals d) = 0 | None => True end).
  { intros c [d|] q e Hc Eq Hq; [|exact I]. unfold opt_line in Eq. step Eq l0 El0. injection Eq as <-. unfold line1 in El0. cbv zeta in El0. match type of El0 with assert_ ?b _ = _ => destruct b; [|discriminate] end. cbn [assert_] in El0. injection El0 as <-.
    unfold check_derivs in Hq. destruct c; [|congruence|..]; apply Z.eqb_eq in Hq; exact Hq. }
  split; intros Hne; [exact (G _ _ _ _ Hne Ea Hl) | exact (G _ _ _ _ Hne Eb Hu)].
Qed.
Lemma approximate_refused s2 s3 c lower2 upper2 X bd2 jk wk d dl du r : 0 < bs_degree RA s3 / 2 -> c = HERMITE -> approximate_derivs RA s2 s3 lower2 upper2 X bd2 c jk wk d dl du = Ok r ->
  (lower2 <> HERMITE -> match dl with Some d => a2_n (c2_vals d) = 0 | None => True end) /\ (upper2 <> HERMITE -> match du with Some d => a2_n (c2_vals d) = 0 | None => True end).
Proof.
  intros Hn -> E. unfold approximate_derivs in E. cbv zeta in E. destruct d as [d|]; [|discriminate]. match type of E with assert_ ?b _ = _ => destruct b; [|discriminate] end. cbn [assert_] in E. step E q Eq.
  exact (refused _ _ _ _ _ _ _ _ _ _ _ _ _ Hn Eq).
Qed.
Theorem third_hermite_only solver1 solver2 solver3 s1 s2 s3 A1 A2 A3 X bd1 bd2 bd3 junk work work23 sp D c e2 e3 :
  builder_for solver1 s1 A1 bd1 -> builder_for solver2 s2 A2 bd2 -> builder_for solver3 s3 A3 bd3 ->
  on_mesh sp [0; 0; 0] [ax_size A1; ax_size A2; ax_size A3] -> edge_closure A3 e3 = HERMITE -> edge_closure A2 e2 <> HERMITE -> 2 <= ax_degree A2 -> 2 <= ax_degree A3 ->
  run_3d s1 s2 s3 A1 A2 A3 X bd1 bd2 bd3 junk work work23 sp D <> Ok c.
Proof.
  intros B1 B2 B3 Hsp H3 H2 D2 D3 E. destruct (run_parts _ _ _ _ _ _ _ _ _ _ _ _ _ _ _ _ E) as (m & min2 & max2 & min3 & max3 & v & Hm & K).
  pose proof (proj1 (half2 _ _ _ _ B2)) as Hd2. pose proof (half2 _ _ _ _ B3) as [Hd3 Hd3']. pose proof (sz1 _ _ _ _ B1) as [Hs1 Hs1'].
  assert (G2 : 0 < ax_degree A2 / 2) by (apply Z.div_str_pos; lia). assert (G3 : 0 < ax_degree A3 / 2) by (apply Z.div_str_pos; lia).
  destruct (Hm e2 e3) as (jk & wk & Ka). replace (is_hermite (edge_closure A2 e2) || is_hermite (edge_closure A3 e3)) with true in Ka by (rewrite H3; cbn [is_hermite]; rewrite orb_true_r; reflexivity).
  rewrite Hd2, Hd3 in Ka. apply approximated in Ka; [|exact Hd3']. destruct Ka as (w & Ew & Hw). rewrite Hs1 in K, Hw.
  assert (P1 : 1 <= ax_size A1). { pose proof (space_facts _ _ _ _ _ _ _ (builder_space _ _ _ _ B1)) as F. pose proof (f_n _ _ _ _ _ _ _ F). pose proof (f_d _ _ _ _ _ _ _ F). unfold ax_size. lia. }
  destruct (slices1_sound 0 0 0 (ax_size A1) (ax_size A2) (ax_size A3) _ sp c ltac:(lia) Hsp K) as [_ C]. destruct (C 0 ltac:(lia)) as (jk' & l & El & _). clear K C E.
  step El v' Ev. step El m2 Em2. step El M2 EM2. step El m3 Em3. step El M3 EM3. step El a Ea. step El b Eb. step El p Ep. step El q Eq.
  assert (W : match e2, e3 with Lower, Lower => a | Upper, Lower => b | Lower, Upper => p | Upper, Upper => q end = Some (the_slice1 w 0)).
  { assert (Q : opt_slice RA (slice1 RA) (m e2 e3) (u64_add 0 0) = Ok (Some (the_slice1 w 0))).
    { rewrite Ew. unfold opt_slice. rewrite (slice1_ok w 0 _ _ (ax_size A1) _ _ 0 Hw ltac:(lia) ltac:(lia)). reflexivity. }
    destruct e2, e3; [rewrite Ea in Q | rewrite Ep in Q | rewrite Eb in Q | rewrite Eq in Q]; congruence. }
  assert (Z : a2_n (c2_vals (the_slice1 w 0)) <> 0). { unfold the_slice1. cbn [c2_vals a2_n]. rewrite (proj2 Hw). cbn [nth]. lia. }
  unfold build_2d in El. step El r1 E1. cbv zeta in El. step El r2 E2. step El r3 E3. rewrite <- Hd3 in G3. apply Z.
  destruct e3; [destruct (approximate_refused _ _ _ _ _ _ _ _ _ _ _ _ _ G3 H3 E1) as [R1 R2] | destruct (approximate_refused _ _ _ _ _ _ _ _ _ _ _ _ _ G3 H3 E3) as [R1 R2]];
    (destruct e2; [rewrite W in R1; exact (R1 H2) | rewrite W in R2; exact (R2 H2)]).
Qed.
