(** Greville points of non-uniform cells in binary64, with open knots. *)
From Coq Require Import Bool Reals Lia Lra Psatz ZifyBool List Floats.SpecFloat.
From Flocq Require Import Core.
From Verif Require Import BSplineModel BSplineSpec PointsModel PointsSpec LoopProofs BSplineMath BSplineDeriv BSplineProofs BSplineUniform SamplingSpec SamplingProofs CellProofs KnotProofs SplineLemmas PointsProofs EvaluatorSpec
  FloatLink FloatCell FloatCell2 FloatCell3 FloatBasis FloatStep FloatNonUniform FloatKnots FloatSpec FloatNonUniformSpec FloatKnots2 FloatIntegral FloatIntegral2.
Import ListNotations.
Local Open Scope bool_scope. Local Open Scope Z_scope.

Fixpoint fsum (f : Z -> spec_float) (k : nat) : spec_float := match k with O => nofz FA 0 | S k' => SFadd 53 1024 (fsum f k') (f (Z.of_nat k')) end.
Definition favg (f : Z -> spec_float) (d : Z) : spec_float := SFdiv 53 1024 (fsum f (Z.to_nat d)) (nofz FA d).
Lemma rnd_mono x y : (x <= y)%R -> (rnd x <= rnd y)%R.
Proof. apply rnd_le. Qed.
Section Sum.
Variables (f : Z -> spec_float) (d : Z) (B : R).
Hypothesis Hd : 1 <= d <= 1000.
Hypothesis HB : (0 <= B <= bpow radix2 919)%R.
Hypothesis Hf : forall k, 0 <= k < d -> fok (f k) /\ (Rabs (fval (f k)) <= B)%R.
Notation S k := (zsum k (fun i => fval (f i))).
Lemma sum_bnd k : 0 <= k <= d -> (Rabs (S k) <= IZR k * B)%R.
Proof.
  intros Hk. eapply Rle_trans; [apply zsum_abs|]. rewrite <- (FloatBasis.zsum_const k B) by lia. apply FloatBasis.zsum_le. intros i Hi. apply Hf. lia.
Qed.
Lemma kU k : 0 <= k <= 1000 -> (0 <= IZR k * U <= / 1000)%R.
Proof. intros Hk. pose proof U_tiny. assert (0 <= IZR k <= 1000)%R by (split; apply IZR_le; lia). split; [apply Rmult_le_pos; lra|]. apply Rle_trans with (1000 * U)%R; [apply Rmult_le_compat_r; lra | lra]. Qed.
Lemma big z : (Rabs z <= 2000 * B)%R -> (Rabs (rnd z) < bpow radix2 1024)%R.
Proof. intros Hz. apply (bnd_ok 930); [lia|]. eapply Rle_trans; [exact Hz|]. change 930 with (919 + 11). rewrite bpow_plus. change (bpow radix2 11) with 2048%R. lra. Qed.
Lemma fsum_step k : fok (fsum f k) -> 0 <= Z.of_nat k < d -> (Rabs (fval (fsum f k) - S (Z.of_nat k)) <= IZR (Z.of_nat k * Z.of_nat k) * (U * B))%R ->
  (Rabs (fval (fsum f k) + fval (f (Z.of_nat k))) <= (IZR (Z.of_nat k) + 1) * B * (1 + / 1000))%R.
Proof.
  intros Ho Hk He. destruct (Hf _ Hk) as (F1 & F2). pose proof (sum_bnd (Z.of_nat k) ltac:(lia)) as Sb. set (K := IZR (Z.of_nat k)) in *. rewrite mult_IZR in He. fold K in He.
  assert (K0 : (0 <= K)%R) by (apply IZR_le; lia). pose proof (kU (Z.of_nat k) ltac:(lia)) as KU. fold K in KU.
  assert (Q : (K * K * (U * B) <= K * B * / 1000)%R). { replace (K * K * (U * B))%R with ((K * B) * (K * U))%R by ring. apply Rmult_le_compat_l; [apply Rmult_le_pos; lra | lra]. }
  replace (fval (fsum f k) + fval (f (Z.of_nat k)))%R with ((fval (fsum f k) - S (Z.of_nat k)) + S (Z.of_nat k) + fval (f (Z.of_nat k)))%R by ring.
  eapply Rle_trans; [apply Rabs_triang|]. pose proof (Rabs_triang (fval (fsum f k) - S (Z.of_nat k)) (S (Z.of_nat k))). lra.
Qed.
Lemma fsum_add k : fok (fsum f k) -> 0 <= Z.of_nat k < d -> (Rabs (fval (fsum f k) - S (Z.of_nat k)) <= IZR (Z.of_nat k * Z.of_nat k) * (U * B))%R ->
  fok (fsum f (Datatypes.S k)) /\ fval (fsum f (Datatypes.S k)) = rnd (fval (fsum f k) + fval (f (Z.of_nat k))).
Proof.
  intros Ho Hk He. pose proof (fsum_step k Ho Hk He) as Z1. destruct (Hf _ Hk) as (F1 & _). cbn [fsum]. apply fadd_ok; [exact Ho | exact F1|]. apply big.
  eapply Rle_trans; [exact Z1|]. replace ((IZR (Z.of_nat k) + 1) * B * (1 + / 1000))%R with (((IZR (Z.of_nat k) + 1) * (1 + / 1000)) * B)%R by ring. apply Rmult_le_compat_r; [lra|].
  assert (IZR (Z.of_nat k) <= 1000)%R by (apply IZR_le; lia). lra.
Qed.
Lemma fsum_ok k : Z.of_nat k <= d -> fok (fsum f k) /\ (Rabs (fval (fsum f k) - S (Z.of_nat k)) <= IZR (Z.of_nat k * Z.of_nat k) * (U * B))%R.
Proof.
  induction k as [|k IH]; intros Hk.
  - cbn [fsum]. destruct (fofz_exact 0 ltac:(lia)) as (Z1 & Z2). split; [exact Z1|]. rewrite Z2. change (Z.of_nat 0) with 0. change (S 0) with 0%R. rewrite Rminus_0_r, Rabs_R0. change (0 * 0) with 0. lra.
  - destruct (IH ltac:(lia)) as (O & Er). assert (Hk' : 0 <= Z.of_nat k < d) by lia. destruct (fsum_add k O Hk' Er) as (O' & Ev). split; [exact O'|]. rewrite Ev.
    destruct (Hf _ Hk') as (F1 & F2). pose proof (fsum_step k O Hk' Er) as Sb. replace (Z.of_nat (Datatypes.S k)) with (Z.of_nat k + 1) by lia. rewrite zsum_S by lia.
    pose proof U_tiny as UT. assert (UB : (0 <= U * B)%R) by (apply Rmult_le_pos; lra).
    destruct (Z.eq_dec (Z.of_nat k) 0) as [E0|N0].
    + destruct k; [|lia]. cbn [fsum]. rewrite (proj2 (fofz_exact 0 ltac:(lia))). change (Z.of_nat 0) with 0 in *. change (S 0) with 0%R. rewrite !Rplus_0_l. rewrite (rnd_id (fval (f 0))) by (apply F_fval; exact F1). rewrite Rminus_diag_eq, Rabs_R0 by reflexivity. change (IZR ((0 + 1) * (0 + 1))) with 1%R. lra.
    + destruct (rnd_sum _ _ (F_fval _ O) (F_fval _ F1)) as (e & He & ->). set (w := (fval (fsum f k) + fval (f (Z.of_nat k)))%R) in *.
      replace (w * (1 + e) - (S (Z.of_nat k) + fval (f (Z.of_nat k))))%R with ((fval (fsum f k) - S (Z.of_nat k)) + w * e)%R by (unfold w; ring).
      eapply Rle_trans; [apply Rabs_triang|]. rewrite (Rabs_mult w e). set (K := IZR (Z.of_nat k)) in *. rewrite mult_IZR in *. rewrite plus_IZR. fold K in Er |- *.
      assert (K1 : (1 <= K)%R) by (apply IZR_le; lia).
      assert (G : (Rabs w * Rabs e <= (K + 1) * B * (1 + / 1000) * U)%R) by (apply Rmult_le_compat; try apply Rabs_pos; assumption).
      replace ((K + 1) * B * (1 + / 1000) * U)%R with ((K + 1) * (1 + / 1000) * (U * B))%R in G by ring.
      assert (Q : ((K * K + (K + 1) * (1 + / 1000)) * (U * B) <= (K + 1) * (K + 1) * (U * B))%R) by (apply Rmult_le_compat_r; [exact UB | nra]). lra.
Qed.
Lemma favg_ok : fok (favg f d) /\ fval (favg f d) = rnd (fval (fsum f (Z.to_nat d)) / IZR d) /\ (Rabs (fval (favg f d) - S d / IZR d) <= IZR (d + 2) * (U * B) + E)%R.
Proof.
  destruct (fsum_ok (Z.to_nat d) ltac:(lia)) as (O & Er). rewrite Z2Nat.id in Er by lia. set (y := fsum f (Z.to_nat d)) in *. destruct (fofz_exact d ltac:(lia)) as (D1 & D2).
  assert (D0 : (1 <= IZR d)%R) by (apply IZR_le; lia). pose proof (sum_bnd d ltac:(lia)) as Sb. pose proof U_tiny as UT. assert (UB : (0 <= U * B)%R) by (apply Rmult_le_pos; lra).
  assert (I0 : (0 < / IZR d)%R) by (apply Rinv_0_lt_compat; lra).
  set (er := ((fval y - S d) / IZR d)%R). assert (Be : (Rabs er <= IZR d * (U * B))%R).
  { unfold er, Rdiv. rewrite Rabs_mult, (Rabs_pos_eq (/ IZR d)) by lra. apply Rle_trans with (IZR (d * d) * (U * B) * / IZR d)%R; [apply Rmult_le_compat_r; lra|]. rewrite mult_IZR. right. field. lra. }
  set (sd := (S d / IZR d)%R). assert (Bs : (Rabs sd <= B)%R).
  { unfold sd, Rdiv. rewrite Rabs_mult, (Rabs_pos_eq (/ IZR d)) by lra. apply Rle_trans with (IZR d * B * / IZR d)%R; [apply Rmult_le_compat_r; lra|]. right. field. lra. }
  assert (Q : (fval y / IZR d = sd + er)%R) by (unfold sd, er; field; lra). pose proof (kU d ltac:(lia)) as KU.
  assert (Bq : (Rabs (fval y / IZR d) <= 2 * B)%R).
  { rewrite Q. eapply Rle_trans; [apply Rabs_triang|]. assert (IZR d * (U * B) <= B)%R; [|lra]. rewrite <- Rmult_assoc. apply Rle_trans with (/ 1000 * B)%R; [apply Rmult_le_compat_r; lra | lra]. }
  destruct (fdiv_ok y (nofz FA d) O D1 ltac:(rewrite D2; lra)) as (V1 & V2). { rewrite D2. apply big. lra. }
  rewrite D2 in V2. split; [exact V1|]. split; [exact V2|]. unfold favg. fold y. change (num FA) with spec_float in *. rewrite V2. pose proof (rnd_error (fval y / IZR d)) as R1.
  replace (rnd (fval y / IZR d) - sd)%R with ((rnd (fval y / IZR d) - fval y / IZR d) + er)%R by (rewrite Q; ring). eapply Rle_trans; [apply Rabs_triang|].
  assert (U * Rabs (fval y / IZR d) <= 2 * (U * B))%R by (replace (2 * (U * B))%R with (U * (2 * B))%R by ring; apply Rmult_le_compat_l; lra). rewrite plus_IZR. lra.
Qed.
End Sum.
Lemma fsum_mono f g d B : 1 <= d <= 1000 -> (0 <= B <= bpow radix2 919)%R -> (forall k, 0 <= k < d -> fok (f k) /\ (Rabs (fval (f k)) <= B)%R) -> (forall k, 0 <= k < d -> fok (g k) /\ (Rabs (fval (g k)) <= B)%R) ->
  (forall k, 0 <= k < d -> (fval (f k) <= fval (g k))%R) -> forall k, Z.of_nat k <= d -> (fval (fsum f k) <= fval (fsum g k))%R.
Proof.
  intros Hd HB Hf Hg Hfg. induction k as [|k IH]; intros Hk; [cbn [fsum]; lra|]. specialize (IH ltac:(lia)).
  destruct (fsum_ok f d B Hd HB Hf k ltac:(lia)) as (F1 & F2). destruct (fsum_ok g d B Hd HB Hg k ltac:(lia)) as (G1 & G2).
  rewrite (proj2 (fsum_add f d B Hd HB Hf k F1 ltac:(lia) F2)), (proj2 (fsum_add g d B Hd HB Hg k G1 ltac:(lia) G2)). apply rnd_mono. specialize (Hfg (Z.of_nat k) ltac:(lia)). lra.
Qed.
Lemma favg_mono f g d B : 1 <= d <= 1000 -> (0 <= B <= bpow radix2 919)%R -> (forall k, 0 <= k < d -> fok (f k) /\ (Rabs (fval (f k)) <= B)%R) -> (forall k, 0 <= k < d -> fok (g k) /\ (Rabs (fval (g k)) <= B)%R) ->
  (forall k, 0 <= k < d -> (fval (f k) <= fval (g k))%R) -> (fval (favg f d) <= fval (favg g d))%R.
Proof.
  intros Hd HB Hf Hg Hfg. destruct (favg_ok f d B Hd HB Hf) as (_ & -> & _). destruct (favg_ok g d B Hd HB Hg) as (_ & -> & _). apply rnd_mono.
  apply Rmult_le_compat_r; [left; apply Rinv_0_lt_compat, IZR_lt; lia|]. apply (fsum_mono f g d B); try assumption. lia.
Qed.
