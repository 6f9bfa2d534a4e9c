(** The recursion of the non-uniform B-splines in binary64: how far its results are from the exact values. *)
From Coq Require Import Bool Reals Lia Lra Psatz ZifyBool Floats.SpecFloat.
From Flocq Require Import Core.
From Verif Require Import BSplineModel BSplineSpec LoopProofs BSplineMath BSplineDeriv BSplineProofs BSplineUniform SamplingProofs FloatLink FloatCell2 FloatCell3 FloatBasis FloatStep.
Local Open Scope bool_scope. Local Open Scope Z_scope.

(** The bound of the error of the values of degree [d]. *)
Definition neps (d : Z) : R := (IZR d * (9 * U))%R.
Lemma neps_S j : (neps (j + 1) = neps j + 9 * U)%R.
Proof. unfold neps. rewrite plus_IZR. ring. Qed.
Lemma neps_small j : 0 <= j <= 1000 -> (0 <= neps j <= / 1000000)%R.
Proof.
  intros H. unfold neps. pose proof U_pos. assert (0 <= IZR j <= 1000)%R by (split; apply IZR_le; lia).
  assert (U <= / 1000000000000)%R by (eapply Rle_trans; [exact U_small|]; apply Rinv_le_contravar; [lra | apply IZR_le; lia]). split; [apply Rmult_le_pos; lra|].
  apply Rle_trans with (1000 * (9 * U))%R; [apply Rmult_le_compat_r; lra | lra].
Qed.

Lemma sm_ok z : (Rabs z <= 10000)%R -> (Rabs (rnd z) < bpow radix2 1024)%R.
Proof. intros H. apply (rnd_small _ 10000); [lia | exact H]. Qed.

Section Loops.
Context (s : n_bsplines FA) (kn : Z -> spec_float) (c d : Z) (xf : spec_float).
Let t (i : Z) : R := fval (kn i).
Let x : R := fval xf.
Hypothesis Hcoord : forall k, c - d + 1 <= k <= c + d -> nb_coord FA s k = Ok (kn k : num FA).
Hypothesis Hc0 : 0 <= c - d.
Hypothesis Hc1 : c + d < 2 ^ 63.
Hypothesis Hd : 1 <= d <= 1000.
Hypothesis mono : forall a b, c - d + 1 <= a <= b -> b <= c + d -> (t a <= t b)%R.
Hypothesis cell : (t c < t (c + 1)%Z)%R.
Hypothesis width : (bpow radix2 (-900) <= t (c + 1)%Z - t c)%R.
Hypothesis Hkn : forall k, c - d + 1 <= k <= c + d -> fok (kn k) /\ (Rabs (t k) <= bpow radix2 919)%R.
Hypothesis Hxf : fok xf.
Hypothesis Hx : (t c <= x <= t (c + 1)%Z)%R.
Notation V p r := (V t c p r x).
Notation Lp p r := (Lp t c p r x).
Notation Rp p r := (Rp t c p r x).

Definition left_f (k : Z) : spec_float := SFsub 53 1024 xf (kn (c - k)).
Definition right_f (k : Z) : spec_float := SFsub 53 1024 (kn (c + k + 1)) xf.
Lemma x_bnd : (Rabs x <= bpow radix2 919)%R.
Proof.
  destruct (Hkn c ltac:(lia)) as (_ & B1). destruct (Hkn (c + 1) ltac:(lia)) as (_ & B2). apply Rabs_le_inv in B1. apply Rabs_le_inv in B2. apply Rabs_le. lra.
Qed.
Lemma dif_ok y z : fok y -> fok z -> (Rabs (fval y) <= bpow radix2 919)%R -> (Rabs (fval z) <= bpow radix2 919)%R ->
  exists e, fok (SFsub 53 1024 y z) /\ (Rabs e <= U)%R /\ fval (SFsub 53 1024 y z) = ((fval y - fval z) * (1 + e))%R /\ (Rabs (fval y - fval z) <= bpow radix2 920)%R.
Proof.
  intros Hy Hz By Bz. pose proof (dif_bnd 919 _ _ By Bz) as B. change (919 + 1) with 920 in B. destruct (fsub_ok y z Hy Hz) as (O1 & O2); [apply (bnd_ok 920); [lia | exact B]|].
  destruct (rnd_dif _ _ (F_fval y Hy) (F_fval z Hz)) as (e & He & EQ). exists e. split; [exact O1|]. split; [exact He|]. split; [rewrite O2; exact EQ | exact B].
Qed.
Lemma left_ok k : 0 <= k < d -> exists e, fok (left_f k) /\ (Rabs e <= U)%R /\ fval (left_f k) = ((x - t (c - k)%Z) * (1 + e))%R /\ (0 <= x - t (c - k)%Z <= bpow radix2 920)%R.
Proof.
  intros Hk. destruct (Hkn (c - k) ltac:(lia)) as (O & B). destruct (dif_ok xf (kn (c - k)) Hxf O x_bnd B) as (e & H1 & H2 & H3 & H4). exists e. split; [exact H1|]. split; [exact H2|].
  split; [exact H3|]. pose proof (mono (c - k) c ltac:(lia) ltac:(lia)). fold x (t (c - k)) in H4. apply Rabs_le_inv in H4. lra.
Qed.
Lemma right_ok k : 0 <= k < d -> exists e, fok (right_f k) /\ (Rabs e <= U)%R /\ fval (right_f k) = ((t (c + k + 1)%Z - x) * (1 + e))%R /\ (0 <= t (c + k + 1)%Z - x <= bpow radix2 920)%R.
Proof.
  intros Hk. destruct (Hkn (c + k + 1) ltac:(lia)) as (O & B). destruct (dif_ok (kn (c + k + 1)) xf O Hxf B x_bnd) as (e & H1 & H2 & H3 & H4). exists e. split; [exact H1|]. split; [exact H2|].
  split; [exact H3|]. pose proof (mono (c + 1) (c + k + 1) ltac:(lia) ltac:(lia)). fold x (t (c + k + 1)) in H4. apply Rabs_le_inv in H4. lra.
Qed.
Definition lefts_f (j : Z) (l : arr spec_float) := a_len l = d /\ forall k, 0 <= k < j -> a_at l k = left_f k.
Definition rights_f (j : Z) (l : arr spec_float) := a_len l = d /\ forall k, 0 <= k < j -> a_at l k = right_f k.
Definition npart (j : Z) (v : arr spec_float) (k : Z) : R := (Rabs (fval (a_at v k) - V j k) + fval (a_at v k) * (8 * U) + 4 * T)%R.

Lemma nf_inner_loop (l r v : arr spec_float) j : 0 <= j -> j + 1 <= d -> lefts_f (j + 1) l -> rights_f (j + 1) r -> j < a_len v ->
  (forall k, 0 <= k <= j -> fok (a_at v k) /\ (0 <= fval (a_at v k) <= 2)%R) ->
  exists sv v', for_range 0 (j + 1) (nb_inner FA l r j) (nofz FA 0, v) = Ok (sv : num FA, v') /\ fok sv /\ (0 <= fval sv)%R /\ a_len v' = a_len v /\
    (forall k, 0 <= k <= j -> fok (a_at v' k) /\ (0 <= fval (a_at v' k))%R) /\
    (zsum (j + 1) (fun k => Rabs (fval (a_at v' k) - V (j + 1) k)) + Rabs (fval sv - V (j + 1) (j + 1)) <= zsum (j + 1) (npart j v))%R.
Proof.
  intros Hj Hjd (Ll & Hl) (Lr & Hr) Lv Hv. destruct (fofz_exact 0 ltac:(lia)) as (Z1 & Z2). change (num FA) with spec_float in *. set (f0 := nofz FA 0) in *.
  pose proof U_pos as HU. pose proof T_pos as HT.
  destruct (for_range_inv
    (fun i (st : num FA * arr (num FA)) => let sv := fst st in let w := snd st in
       fok sv /\ (0 <= fval sv <= 5)%R /\ a_len w = a_len v /\ (forall k, 0 <= k < i -> fok (a_at w k) /\ (0 <= fval (a_at w k))%R) /\ (forall k, i <= k <= j -> a_at w k = a_at v k) /\
       (zsum i (fun k => Rabs (fval (a_at w k) - V (j + 1) k)) + Rabs (fval sv - Lp j i) + U * fval sv <= zsum i (npart j v))%R)
    (nb_inner FA l r j) 0 (j + 1) (f0, v)) as ((sv & v') & EQ & A1 & A2 & A3 & A4 & A5 & A6).
  - lia.
  - cbn [fst snd]. cbv zeta. split; [exact Z1|]. split; [lra|]. split; [reflexivity|]. split; [intros; lia|]. split; [reflexivity|].
    rewrite !zsum_0, Z2. unfold BSplineMath.Lp. cbn [Z.eqb]. rewrite Rminus_0_r, Rabs_R0. lra.
  - intros i (sv, w) Hi (A1 & A2 & A3 & A4 & A5 & A6). cbn [fst snd] in *. change (num FA) with spec_float in *. unfold nb_inner.
    change (@aget spec_float) with (@aget (num FA)). rewrite (aget_ok w) by lia. cbn [rbind]. rewrite (aget_ok r) by lia. cbn [rbind]. rewrite (aget_ok l) by lia. cbn [rbind].
    rewrite (aset_ok w) by lia. cbn [rbind]. eexists. split; [reflexivity|]. cbn [fst snd a_len a_at nadd nmul ndiv nsub FA].
    rewrite (A5 i) by lia. rewrite (Hl (j - i)), (Hr i) by lia. destruct (Hv i ltac:(lia)) as (V1 & V2). set (fv := a_at v i) in *.
    destruct (right_ok i ltac:(lia)) as (e1 & R1 & R2 & R3 & R4). destruct (left_ok (j - i) ltac:(lia)) as (e2 & L1 & L2 & L3 & L4).
    replace (c - (j - i)) with (c - j + i) in * by ring. set (a := (t (c + i + 1)%Z - x)%R) in *. set (b := (x - t (c - j + i)%Z)%R) in *.
    set (ra := right_f i) in *. set (lb := left_f (j - i)) in *.
    assert (W0 : (bpow radix2 (-900) <= a + b)%R).
    { unfold a, b. pose proof (mono (c - j + i) c ltac:(lia) ltac:(lia)). pose proof (mono (c + 1) (c + i + 1) ltac:(lia) ltac:(lia)). lra. }
    pose proof (st_wh_pos a b (fval ra) (fval lb) e1 e2 R4 L4 W0 (F_fval ra R1) (F_fval lb L1) R2 L2 R3 L3) as (W1 & W2). pose proof (bpow_gt_0 radix2 (-901)) as W3.
    destruct (fadd_ok ra lb R1 L1) as (S1 & S2).
    { apply Rle_lt_trans with (bpow radix2 922); [rewrite Rabs_pos_eq by lra; exact W2 | apply bpow_lt; lia]. }
    set (wf := SFadd 53 1024 ra lb) in *.
    pose proof (st_th a b (fval fv) (fval ra) (fval lb) e1 e2 R4 L4 W0 (F_fval ra R1) (F_fval lb L1) R2 L2 R3 L3 V2) as T0. rewrite <- S2 in T0.
    destruct (fdiv_ok fv wf V1 S1) as (T1 & T2). { rewrite S2. lra. } { apply (bnd_ok 902); [lia|]. rewrite Rabs_pos_eq by lra. lra. }
    set (tm := SFdiv 53 1024 fv wf) in *.
    pose proof (st_bounds a b (fval fv) (fval ra) (fval lb) e1 e2 R4 L4 W0 (F_fval ra R1) (F_fval lb L1) R2 L2 R3 L3 V2) as (P0 & Q0 & P3 & Q3). rewrite <- S2, <- T2 in P0, Q0, P3, Q3.
    destruct (fmul_ok ra tm R1 T1) as (P1 & P2). { apply sm_ok, Rabs_le. lra. } set (p1 := SFmul 53 1024 ra tm) in *.
    destruct (fmul_ok lb tm L1 T1) as (Q1 & Q2). { apply sm_ok, Rabs_le. lra. } set (q1 := SFmul 53 1024 lb tm) in *.
    rewrite <- P2 in P3. rewrite <- Q2 in Q3.
    destruct (fadd_ok sv p1 A1 P1) as (N1 & N2). { apply sm_ok, Rabs_le. lra. } set (n1 := SFadd 53 1024 sv p1) in *.
    assert (N3 : (0 <= fval n1)%R) by (rewrite N2; apply rnd_pos; lra).
    split; [exact Q1|]. split; [exact Q3|]. split; [exact A3|]. split.
    { intros k Hk. destruct (Z.eq_dec k i) as [->|]; [rewrite upd_eq; now split | rewrite upd_neq by lia; apply A4; lia]. }
    split; [intros k Hk; rewrite upd_neq by lia; apply A5; lia|].
    rewrite !zsum_S by lia. rewrite upd_eq. rewrite (zsum_ext i _ (fun k => Rabs (fval (a_at w k) - V (j + 1) k))) by (intros k Hk; cbv beta; rewrite upd_neq by lia; reflexivity).
    pose proof (st_error a b (fval fv) (V j i) (fval sv) (Lp j i) (fval ra) (fval lb) e1 e2 R4 L4 W0 (F_fval ra R1) (F_fval lb L1) R2 L2 R3 L3 V2 (proj1 A2)) as SE.
    rewrite <- S2, <- T2, <- P2, <- Q2, <- N2 in SE.
    pose proof (gap t c d mono cell j i ltac:(lia) ltac:(lia)) as Gp.
    assert (Eab : (a + b = t (c + i + 1)%Z - t (c - j + i)%Z)%R) by (unfold a, b; ring). rewrite Eab in SE.
    assert (EL : Lp j (i + 1) = (b * (V j i / (t (c + i + 1)%Z - t (c - j + i)%Z)))%R).
    { unfold BSplineMath.Lp. destruct (i + 1 =? 0) eqn:EE; [lia|]. replace (i + 1 - 1) with i by ring.
      replace (c - j - 1 + (i + 1)) with (c - j + i) by ring. replace (c + (i + 1)) with (c + i + 1) by ring. reflexivity. }
    assert (EV : V (j + 1) i = (Lp j i + a * (V j i / (t (c + i + 1)%Z - t (c - j + i)%Z)))%R).
    { rewrite (V_step t c d mono cell j i x) by lia. f_equal. unfold BSplineMath.Rp. destruct (i =? j + 1) eqn:EE; [lia|]. reflexivity. }
    rewrite <- EL, <- EV in SE. unfold npart at 2. fold fv. lra.
  - cbn [fst snd] in *. exists sv, v'. split; [exact EQ|]. split; [exact A1|]. split; [lra|]. split; [exact A3|]. split; [intros k Hk; apply A4; lia|].
    assert (EL : Lp j (j + 1) = V (j + 1) (j + 1)).
    { rewrite (V_step t c d mono cell j (j + 1) x) by lia. unfold BSplineMath.Rp. rewrite Z.eqb_refl. ring. }
    rewrite EL in A6. change (num FA) with spec_float in *. assert (0 <= U * fval sv)%R by (apply Rmult_le_pos; lra). lra.
Qed.

Lemma n_V_sum p : 0 <= p <= d -> zsum (p + 1) (fun k => V p k) = 1%R.
Proof.
  intros Hp. pose proof (V_sum t c d mono cell p ltac:(lia) ltac:(lia) x) as S. rewrite (sum_f_R0_zsum (fun k => V p k)) in S.
  rewrite Z2Nat.id in S by lia. exact S.
Qed.
Lemma n_V_bounds p k : 0 <= k <= p -> p <= d -> (0 <= V p k <= 1)%R.
Proof.
  intros Hk Hp. assert (N : forall k, (0 <= V p k)%R) by (intros i; apply (V_nonneg t c d mono cell p); try lia; exact Hx).
  split; [apply N|]. rewrite <- (n_V_sum p) by lia. apply (zsum_elem (p + 1) (fun k => V p k)); [intros; apply N | lia].
Qed.
Lemma npart_bound (v : arr spec_float) j : 0 <= j -> j + 1 <= d -> (forall k, 0 <= k <= j -> (0 <= fval (a_at v k))%R) ->
  (zsum (j + 1) (fun k => Rabs (fval (a_at v k) - V j k)) <= neps j)%R -> (zsum (j + 1) (npart j v) <= neps (j + 1))%R.
Proof.
  intros Hj Hjd Hv He. pose proof U_pos as HU. pose proof T_pos as HT.
  assert (TU : (T <= U * / 1000000)%R).
  { eapply Rle_trans; [exact T_small|]. apply Rmult_le_compat_l; [lra|]. apply Rinv_le_contravar; [lra | apply IZR_le; lia]. }
  unfold npart. rewrite !zsum_plus. rewrite zsum_const by lia.
  rewrite (zsum_ext (j + 1) (fun m => fval (a_at v m) * (8 * U))%R (fun m => (8 * U) * fval (a_at v m))%R) by (intros; ring).
  rewrite zsum_scal. set (e := zsum (j + 1) (fun m => Rabs (fval (a_at v m) - V j m))) in *.
  assert (S1 : (zsum (j + 1) (fun m => fval (a_at v m)) <= 1 + e)%R).
  { rewrite <- (n_V_sum j) by lia. unfold e. rewrite <- zsum_plus. apply zsum_le. intros m Hm. pose proof (Rle_abs (fval (a_at v m) - V j m)). lra. }
  pose proof (neps_small j ltac:(lia)) as EB. rewrite neps_S.
  assert (S2 : (8 * U * zsum (j + 1) (fun m => fval (a_at v m)) <= 8 * U * (1 + / 1000000))%R) by (apply Rmult_le_compat_l; lra).
  assert (J1 : (0 <= IZR (j + 1) <= 1000)%R) by (split; apply IZR_le; lia).
  assert (S3 : (IZR (j + 1) * (4 * T) <= 1000 * (4 * T))%R) by (apply Rmult_le_compat_r; lra).
  lra.
Qed.

Lemma nf_triangle n (l r v : arr spec_float) : 0 <= n <= d -> a_len l = d -> a_len r = d -> n < a_len v -> fok (a_at v 0) -> fval (a_at v 0) = 1%R ->
  exists l' r' v', nb_triangle FA s xf c n l r v = Ok (l', r', v') /\ a_len v' = a_len v /\ (forall k, 0 <= k <= n -> fok (a_at v' k) /\ (0 <= fval (a_at v' k))%R) /\
    (zsum (n + 1) (fun k => Rabs (fval (a_at v' k) - V n k)) <= neps n)%R.
Proof.
  intros Hn Ll Lr Lv Hv0 Hv1.
  destruct (for_range_inv
    (fun j (st : arr (num FA) * arr (num FA) * arr (num FA)) =>
       lefts_f j (fst (fst st)) /\ rights_f j (snd (fst st)) /\ a_len (snd st) = a_len v /\ (forall k, 0 <= k <= j -> fok (a_at (snd st) k) /\ (0 <= fval (a_at (snd st) k))%R) /\
       (zsum (j + 1) (fun k => Rabs (fval (a_at (snd st) k) - V j k)) <= neps j)%R)
    (fun j st => let '(lefts, rights, values) := st in
      cl <- nb_coord FA s (u64_sub c j) ;;
      lefts <- aset lefts j (nsub FA xf cl)%N_ ;;
      cr <- nb_coord FA s (u64_add (u64_add c j) 1) ;;
      rights <- aset rights j (nsub FA cr xf)%N_ ;;
      ' (saved, values) <- for_range 0 (j + 1) (nb_inner FA lefts rights j) (nofz FA 0, values) ;;
      values <- aset values (j + 1) saved ;;
      Ok (lefts, rights, values)) 0 n (l, r, v)) as (((l' & r') & v') & EQ & H1 & H2 & H3 & H4 & H5).
  - lia.
  - cbn [fst snd]. split; [split; [exact Ll | intros; lia]|]. split; [split; [exact Lr | intros; lia]|]. split; [reflexivity|]. split.
    + intros k Hk. replace k with 0 by lia. change (num FA) with spec_float. split; [exact Hv0 | rewrite Hv1; lra].
    + rewrite zsum_S, zsum_0 by lia. change (num FA) with spec_float. rewrite Hv1, V_0. unfold neps. rewrite Rminus_eq_0, Rabs_R0. lra.
  - intros j ((l0, r0), v0) Hj ((L1 & H1) & (L2 & H2) & H3 & H4 & H5). change (num FA) with spec_float in *. cbn [fst snd] in *.
    assert (U1 : u64_sub c j = c - j) by (unfold u64_sub; apply u64_small; lia).
    assert (U2 : u64_add (u64_add c j) 1 = c + j + 1) by (unfold u64_add; rewrite (u64_small (c + j)) by lia; apply u64_small; lia). rewrite U1, U2. rewrite (Hcoord (c - j)) by lia. cbn [rbind]. rewrite (aset_ok l0) by lia. cbn [rbind].
    rewrite (Hcoord (c + j + 1)) by lia. cbn [rbind]. rewrite (aset_ok r0) by lia. cbn [rbind].
    assert (Hw : forall k, 0 <= k <= j -> fok (a_at v0 k) /\ (0 <= fval (a_at v0 k) <= 2)%R).
    { intros k Hk. destruct (H4 k Hk) as (G1 & G2). split; [exact G1|]. split; [exact G2|].
      pose proof (zsum_elem (j + 1) (fun k => Rabs (fval (a_at v0 k) - V j k)) k (fun _ _ => Rabs_pos _) ltac:(lia)) as G3. cbv beta in G3.
      pose proof (neps_small j ltac:(lia)) as G4. pose proof (n_V_bounds j k ltac:(lia) ltac:(lia)) as G5.
      pose proof (Rle_abs (fval (a_at v0 k) - V j k)) as G6. lra. }
    destruct (nf_inner_loop (mk_arr (a_len l0) (upd (a_at l0) j (left_f j))) (mk_arr (a_len r0) (upd (a_at r0) j (right_f j))) v0 j)
      as (sv & v1 & E1 & S1 & S2 & L3 & G1 & G2); try lia.
    { split; [exact L1|]. intros k Hk. cbn [a_at]. destruct (Z.eq_dec k j) as [->|]; [now rewrite upd_eq | rewrite upd_neq by lia; apply H1; lia]. }
    { split; [exact L2|]. intros k Hk. cbn [a_at]. destruct (Z.eq_dec k j) as [->|]; [now rewrite upd_eq | rewrite upd_neq by lia; apply H2; lia]. }
    { exact Hw. }
    unfold left_f at 1, right_f at 1 in E1. cbn [nsub FA] in *. change (num FA) with spec_float in *. rewrite E1. cbn [rbind]. rewrite (aset_ok v1) by lia. cbn [rbind]. eexists. split; [reflexivity|]. cbn [fst snd a_len a_at].
    split; [|split; [|split; [lia|split]]].
    + split; [exact L1|]. intros k Hk. cbn [a_at]. destruct (Z.eq_dec k j) as [->|]; [now rewrite upd_eq | rewrite upd_neq by lia; apply H1; lia].
    + split; [exact L2|]. intros k Hk. cbn [a_at]. destruct (Z.eq_dec k j) as [->|]; [now rewrite upd_eq | rewrite upd_neq by lia; apply H2; lia].
    + intros k Hk. destruct (Z.eq_dec k (j + 1)) as [->|]; [rewrite upd_eq; now split | rewrite upd_neq by lia; apply G1; lia].
    + rewrite (zsum_S (j + 1)) by lia. rewrite upd_eq. rewrite (zsum_ext (j + 1) _ (fun k => Rabs (fval (a_at v1 k) - V (j + 1) k))) by (intros k Hk; cbv beta; rewrite upd_neq by lia; reflexivity).
      eapply Rle_trans; [exact G2|]. apply npart_bound; [lia | lia | intros k Hk; apply (H4 k Hk) | exact H5].
  - cbn [fst snd] in *. exists l', r', v'. split; [exact EQ|]. split; [exact H3|]. split; [exact H4 | exact H5].
Qed.
End Loops.
