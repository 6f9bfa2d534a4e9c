(** The cell located in double precision is at most one past the last one. *)
From Coq Require Import Bool Reals Lia Lra ZifyBool List Floats.SpecFloat.
From Flocq Require Import Core BinarySingleNaN.
From Verif Require Import BSplineModel LoopProofs SamplingProofs FloatLink FloatCell FloatCell2.
Import ListNotations.
Local Open Scope bool_scope. Local Open Scope Z_scope.

Lemma F_fval x : fok x -> F (fval x).
Proof. apply fval_format. Qed.
Lemma bnd_ok e z : -1074 <= e < 1024 -> (Rabs z <= bpow radix2 e)%R -> (Rabs (rnd z) < bpow radix2 1024)%R.
Proof. intros He H. eapply Rle_lt_trans; [apply (rnd_bnd z e); [lia | exact H]|]. apply bpow_lt. lia. Qed.
Lemma Rabs_plus_le a b c e : (Rabs a <= c)%R -> (Rabs b <= e)%R -> (Rabs (a + b) <= c + e)%R.
Proof. intros. eapply Rle_trans; [apply Rabs_triang|]. lra. Qed.
Lemma bpow_double e : (bpow radix2 e + bpow radix2 e = bpow radix2 (e + 1))%R.
Proof. rewrite bpow_plus. change (bpow radix2 1) with 2%R. ring. Qed.
Lemma sum_bnd e a b : (Rabs a <= bpow radix2 e)%R -> (Rabs b <= bpow radix2 e)%R -> (Rabs (a + b) <= bpow radix2 (e + 1))%R.
Proof. intros. rewrite <- bpow_double. now apply Rabs_plus_le. Qed.
Lemma dif_bnd e a b : (Rabs a <= bpow radix2 e)%R -> (Rabs b <= bpow radix2 e)%R -> (Rabs (a - b) <= bpow radix2 (e + 1))%R.
Proof. intros. unfold Rminus. apply sum_bnd; [assumption | now rewrite Rabs_Ropp]. Qed.
Lemma up_bnd e f a : e <= f -> (Rabs a <= bpow radix2 e)%R -> (Rabs a <= bpow radix2 f)%R.
Proof. intros He H. eapply Rle_trans; [exact H|]. now apply bpow_le. Qed.
Lemma mul_bnd e c a : 0 <= c < 2 ^ 32 -> (Rabs a <= bpow radix2 e)%R -> (Rabs (IZR c * a) <= bpow radix2 (32 + e))%R.
Proof.
  intros Hc H. rewrite Rabs_mult, bpow_plus. apply Rmult_le_compat; try apply Rabs_pos; [|exact H]. rewrite Rabs_pos_eq by (apply IZR_le; lia).
  rewrite <- IZR_Zpower by lia. apply IZR_le. change (radix2 ^ 32) with (2 ^ 32). lia.
Qed.

Lemma fopp_ok x : fok x -> fok (SFopp x) /\ fval (SFopp x) = (- fval x)%R.
Proof.
  intros [H1 H2]. destruct x as [s|s| |s m e]; try discriminate; cbn [SFopp]; (split; [split; [exact H1 | reflexivity]|]); unfold fval, SF2R.
  - ring.
  - rewrite <- F2R_Zopp. f_equal. f_equal. now destruct s.
Qed.
Lemma tolerance_ok : fok (tolerance FA) /\ (0 < fval (tolerance FA) <= 1)%R.
Proof.
  destruct (fofz_exact 1 ltac:(lia)) as (A1 & A2). destruct (fofz_exact (10 ^ 14) ltac:(lia)) as (B1 & B2).
  assert (C0 : (1 / IZR (10 ^ 14) <= 1)%R) by (unfold Rdiv; rewrite Rmult_1_l, <- Rinv_1; apply Rinv_le_contravar; [lra | apply IZR_le; lia]).
  assert (C1 : (/ IZR (2 ^ 60) <= 1 / IZR (10 ^ 14))%R) by (unfold Rdiv; rewrite Rmult_1_l; apply Rinv_le_contravar; [apply IZR_lt | apply IZR_le]; lia).
  assert (C2 : (0 < / IZR (2 ^ 60))%R) by (apply Rinv_0_lt_compat, IZR_lt; lia).
  destruct (fdiv_ok _ _ A1 B1) as (D1 & D2).
  - rewrite B2. apply not_0_IZR. lia.
  - rewrite A2, B2. apply (bnd_ok 0); [lia|]. change (bpow radix2 0) with 1%R. rewrite Rabs_pos_eq; lra.
  - split; [exact D1|]. change (fval (tolerance FA)) with (fval (SFdiv 53 1024 (nofz FA 1) (nofz FA (10 ^ 14)))). rewrite D2, A2, B2. split.
    + eapply Rlt_le_trans; [exact C2|]. pose proof (rnd_ge (1 / IZR (10 ^ 14)) (-60) ltac:(lia)) as G. pose proof (bpowN 60 ltac:(lia)) as G60. change (- (60)) with (-60) in G60. rewrite G60 in G. exact (G C1).
    + replace 1%R with (rnd 1) at 2 by (apply (rnd_int 1); lia). apply rnd_le. exact C0.
Qed.
(** [- (hi - lo) * 1e-14 <= x - lo] for finite numbers *)
Lemma assert_ok x lo hi : fok x -> fok lo -> fok hi -> (Rabs (fval lo) <= bpow radix2 936)%R -> (Rabs (fval hi) <= bpow radix2 936)%R -> (fval lo <= fval x <= fval hi)%R ->
  in_range_assert FA x lo hi = true.
Proof.
  intros Hx Hl Hh Bl Bh Hin. destruct tolerance_ok as (T1 & T2 & T3). unfold in_range_assert. cbv zeta. cbn [nleb nsub nopp nmul FA].
  assert (Bx : (Rabs (fval x) <= bpow radix2 936)%R) by (apply Rabs_le_inv in Bl; apply Rabs_le_inv in Bh; apply Rabs_le; lra).
  assert (Z : rnd 0 = 0%R) by (apply (rnd_int 0); lia).
  destruct (fsub_ok hi lo Hh Hl) as (L1 & L2); [apply (bnd_ok 937); [lia | now apply (dif_bnd 936)]|].
  assert (LB : (Rabs (rnd (fval hi - fval lo)) <= bpow radix2 937)%R) by (apply rnd_bnd; [lia | now apply (dif_bnd 936)]).
  assert (L0 : (0 <= rnd (fval hi - fval lo))%R) by (rewrite <- Z; apply rnd_le; lra).
  destruct (fopp_ok _ L1) as (N1 & N2). rewrite L2 in N2.
  destruct (fmul_ok _ (tolerance FA) N1 T1) as (M1 & M2).
  { rewrite N2. apply (bnd_ok 937); [lia|]. rewrite Rabs_mult, Rabs_Ropp, (Rabs_pos_eq (fval (tolerance FA))) by lra. 
    apply Rle_trans with (bpow radix2 937 * 1)%R; [apply Rmult_le_compat; try lra; apply Rabs_pos | lra]. }
  rewrite N2 in M2.
  assert (M0 : (fval (SFmul 53 1024 (SFopp (SFsub 53 1024 hi lo)) (tolerance FA)) <= 0)%R).
  { rewrite M2. apply Rle_trans with (rnd 0); [|lra]. apply rnd_le. assert (0 <= rnd (fval hi - fval lo) * fval (tolerance FA))%R by (apply Rmult_le_pos; lra). lra. }
  destruct (fsub_ok x lo Hx Hl) as (X1 & X2); [apply (bnd_ok 937); [lia | now apply (dif_bnd 936)]|].
  destruct (fsub_ok hi x Hh Hx) as (Y1 & Y2); [apply (bnd_ok 937); [lia | now apply (dif_bnd 936)]|].
  rewrite !fleb_ok by assumption. rewrite X2, Y2.
  assert (0 <= rnd (fval x - fval lo))%R by (rewrite <- Z; apply rnd_le; lra). assert (0 <= rnd (fval hi - fval x))%R by (rewrite <- Z; apply rnd_le; lra).
  rewrite !R_leb_true by lra. reflexivity.
Qed.
Section Construct.
Variables (q : tag) (d n : Z) (periodic : bool) (a b : spec_float).
Hypotheses (Ha : fok a) (Hb : fok b).
Hypotheses (Hd : 1 <= d) (Hn : 1 <= n) (Hbig : n + 1 + 2 * d < 2 ^ 31).
Hypotheses (HA : (Rabs (fval a) <= bpow radix2 900)%R) (HB : (Rabs (fval b) <= bpow radix2 900)%R).
Hypothesis HL : (IZR n * bpow radix2 (-900) <= fval b - fval a)%R.
Let S := rnd (rnd (fval b - fval a) / IZR n).
Let P := rnd (IZR d * S).
Let Q := rnd (IZR (d + n) * S).
Let O := rnd (fval a - P).
Let lo := rnd (O + P).
Let hi := rnd (O + Q).

Lemma f_construct : exists s, ub_construct FA q d periodic a b n = Ok s /\ ub_ncells FA s = n /\ ub_size FA s = n + d /\ ub_degree FA s = d /\
  fok (ub_step FA s) /\ fval (ub_step FA s) = S /\ fok (ub_rmin FA s) /\ fval (ub_rmin FA s) = lo /\ fok (ub_rmax FA s) /\ fval (ub_rmax FA s) = hi /\
  fok (ub_inv_step FA s) /\ fval (ub_inv_step FA s) = rnd (1 / S) /\ (Rabs lo <= bpow radix2 936)%R /\ (Rabs hi <= bpow radix2 936)%R.
Proof.
  pose proof (step_facts (fval a) (fval b) d n Hd Hn HA HB HL) as (_ & _ & _ & _ & _ & _ & _ & _ & HS1 & HS2 & _). fold S in HS1, HS2.
  pose proof (bpow_gt_0 radix2 (-902)) as W.
  assert (SB : (Rabs S <= bpow radix2 902)%R) by (rewrite Rabs_pos_eq; lra).
  assert (AB : (fval a < fval b)%R).
  { pose proof (bpow_gt_0 radix2 (-900)). assert (1 <= IZR n)%R by (apply IZR_le; lia). assert (0 < IZR n * bpow radix2 (-900))%R by (apply Rmult_lt_0_compat; lra). lra. }
  destruct (fsub_ok b a Hb Ha) as (L1 & L2); [apply (bnd_ok 901); [lia | now apply (dif_bnd 900)]|].
  destruct (fofz_exact n ltac:(lia)) as (N1 & N2). destruct (fofz_exact d ltac:(lia)) as (D1 & D2). destruct (fofz_exact (d + n) ltac:(lia)) as (M1 & M2).
  destruct (fofz_exact 1 ltac:(lia)) as (I1 & I2). destruct (fofz_exact 0 ltac:(lia)) as (Z1 & Z2).
  set (fl := SFsub 53 1024 b a) in *.
  destruct (fdiv_ok fl (nofz FA n) L1 N1) as (S1 & S2).
  { rewrite N2. apply not_0_IZR. lia. }
  { rewrite L2, N2. fold S. eapply Rle_lt_trans; [exact SB | apply bpow_lt; lia]. }
  set (fs := SFdiv 53 1024 fl (nofz FA n)) in *. rewrite L2, N2 in S2. fold S in S2.
  destruct (fmul_ok (nofz FA d) fs D1 S1) as (P1 & P2).
  { rewrite D2, S2. apply (bnd_ok 934); [lia|]. apply (mul_bnd 902); [lia | exact SB]. }
  set (fp := SFmul 53 1024 (nofz FA d) fs) in *. rewrite D2, S2 in P2. fold P in P2.
  assert (PB : (Rabs P <= bpow radix2 934)%R) by (apply rnd_bnd; [lia|]; apply (mul_bnd 902); [lia | exact SB]).
  destruct (fmul_ok (nofz FA (d + n)) fs M1 S1) as (Q1 & Q2).
  { rewrite M2, S2. apply (bnd_ok 934); [lia|]. apply (mul_bnd 902); [lia | exact SB]. }
  set (fq := SFmul 53 1024 (nofz FA (d + n)) fs) in *. rewrite M2, S2 in Q2. fold Q in Q2.
  assert (QB : (Rabs Q <= bpow radix2 934)%R) by (apply rnd_bnd; [lia|]; apply (mul_bnd 902); [lia | exact SB]).
  assert (HA' : (Rabs (fval a) <= bpow radix2 934)%R) by (apply (up_bnd 900); [lia | exact HA]).
  destruct (fsub_ok a fp Ha P1) as (O1 & O2); [rewrite P2; apply (bnd_ok 935); [lia | now apply (dif_bnd 934)]|].
  set (fo := SFsub 53 1024 a fp) in *. rewrite P2 in O2. fold O in O2.
  assert (OB : (Rabs O <= bpow radix2 935)%R) by (apply rnd_bnd; [lia|]; now apply (dif_bnd 934)).
  destruct (fadd_ok fo fp O1 P1) as (R1 & R2); [rewrite O2, P2; apply (bnd_ok 936); [lia|]; apply (sum_bnd 935); [exact OB | apply (up_bnd 934); [lia | exact PB]]|].
  destruct (fadd_ok fo fq O1 Q1) as (T1 & T2); [rewrite O2, Q2; apply (bnd_ok 936); [lia|]; apply (sum_bnd 935); [exact OB | apply (up_bnd 934); [lia | exact QB]]|].
  rewrite O2, P2 in R2. rewrite O2, Q2 in T2. fold lo in R2. fold hi in T2.
  assert (LB : (Rabs lo <= bpow radix2 936)%R) by (apply rnd_bnd; [lia|]; apply (sum_bnd 935); [exact OB | apply (up_bnd 934); [lia | exact PB]]).
  assert (HB' : (Rabs hi <= bpow radix2 936)%R) by (apply rnd_bnd; [lia|]; apply (sum_bnd 935); [exact OB | apply (up_bnd 934); [lia | exact QB]]).
  assert (IB : (Rabs (1 / S) <= bpow radix2 902)%R).
  { assert (0 < 1 / S)%R by (apply Rdiv_lt_0_compat; lra). rewrite Rabs_pos_eq by lra. unfold Rdiv. rewrite Rmult_1_l. change 902 with (- (-902)). rewrite bpow_opp. apply Rinv_le_contravar; lra. }
  destruct (fdiv_ok (nofz FA 1) fs I1 S1) as (V1 & V2).
  { rewrite S2. lra. }
  { rewrite I2, S2. now apply (bnd_ok 902). }
  rewrite I2, S2 in V2.
  (* the constructor *)
  assert (Hi64 : i64 (u64_add n 1) = n + 1) by (unfold u64_add; rewrite u64_small by lia; apply i64_small; lia).
  assert (Hi64d : i64 d = d) by (apply i64_small; lia).
  exists (mk_ub FA d periodic (mk_us FA fo fs 0) 0 d (n + 1)).
  assert (Ebs : u64_sub (u64 (n + 1)) 1 = n) by (unfold u64_sub; rewrite (u64_small (n + 1)) by lia; rewrite u64_small; lia).
  split.
  - unfold ub_construct, assert_. replace (0 <? n) with true by lia. rewrite Hi64, Hi64d. unfold us_init_ghosted.
    cbn [nltb FA]. rewrite fltb_ok by assumption. rewrite R_ltb_true by exact AB. replace (1 <? n + 1) with true by lia.
    rewrite ssub_small by lia. cbn [rbind]. replace (n + 1 - 1) with n by lia. cbv zeta. cbn [nsub ndiv nmul FA]. fold fl. fold fs. fold fp. fold fo.
    unfold us_construct. cbn [nltb FA]. rewrite fltb_ok by assumption. rewrite Z2, S2. rewrite R_ltb_true by lra. cbn [rbind us_front]. unfold reference_element.
    rewrite ghost_domains_ok by lia. cbn [rbind g_all g_main]. unfold front_of, size_of, front, one_elem. cbn [dom_begin map fst snd rbind].
    rewrite extents_1' by lia. cbn [rbind]. f_equal. f_equal. lia.
  - split; [exact Ebs|]. split.
    { unfold ub_size, ub_ncells. cbn [ub_degree ub_break_size]. rewrite Ebs. unfold u64_add. rewrite u64_small; lia. }
    split; [reflexivity|]. split; [exact S1|]. split; [exact S2|].
    assert (Elo : ub_rmin FA (mk_ub FA d periodic (mk_us FA fo fs 0) 0 d (n + 1)) = SFadd 53 1024 fo fp).
    { unfold ub_rmin, ub_coord, us_coordinate. cbn [ub_break_front ub_knots us_front us_origin us_step nadd nmul FA]. rewrite elem_minus_0 by lia. reflexivity. }
    assert (Ehi : ub_rmax FA (mk_ub FA d periodic (mk_us FA fo fs 0) 0 d (n + 1)) = SFadd 53 1024 fo fq).
    { unfold ub_rmax, ub_coord, us_coordinate. cbn [ub_break_front ub_break_size ub_knots us_front us_origin us_step nadd nmul FA]. rewrite Ebs.
      unfold u64_add. rewrite (u64_small (d + n)) by lia. rewrite elem_minus_0 by lia. reflexivity. }
    rewrite Elo, Ehi. split; [exact R1|]. split; [exact R2|]. split; [exact T1|]. split; [exact T2|]. split; [exact V1|]. split; [exact V2|]. split; [exact LB | exact HB'].
Qed.

(** a point strictly inside *)
Lemma inside x : F x -> (lo < x < hi)%R -> let y := rnd (rnd (x - lo) * rnd (1 / S)) in
  (0 <= y <= IZR n + / IZR (2 ^ 14))%R /\ (Rabs (y - (x - lo) / S) <= / IZR (2 ^ 50) * IZR (n + 2))%R /\ (Rabs (rnd (x - lo)) < bpow radix2 1024)%R.
Proof.
  intros Fx Hx y.
  pose proof (step_facts (fval a) (fval b) d n Hd Hn HA HB HL) as (_ & _ & _ & _ & _ & _ & _ & _ & HS1 & HS2 & _). fold S in HS1, HS2.
  pose proof (cell_bound (fval a) (fval b) x d n (F_fval a Ha) (F_fval b Hb) Fx Hd Hn Hbig HA HB HL Hx) as HC. fold S in HC. fold P in HC. fold O in HC. fold lo in HC.
  pose proof (bpow_gt_0 radix2 (-902)) as W. assert (Sp : (0 < S)%R) by lra.
  assert (U0 : (0 < U)%R) by (unfold U; apply Rinv_0_lt_compat, IZR_lt; lia).
  assert (n1 : (1 <= IZR n <= IZR (2 ^ 31))%R) by (split; apply IZR_le; lia).
  set (D := (x - lo)%R) in *. assert (Dp : (0 < D)%R) by (unfold D; lra).
  assert (eta : (bpow radix2 (-1075) <= U * S)%R).
  { apply Rle_trans with (U * bpow radix2 (-902))%R; [|apply Rmult_le_compat_l; lra]. unfold U. rewrite Rmult_comm, <- bpow_shift by lia. apply bpow_le. lia. }
  (* the difference *)
  pose proof (rnd_err D) as E1. rewrite (Rabs_pos_eq D) in E1 by lra. set (D1 := rnd D) in *.
  assert (Dpos : (0 <= D1)%R) by (unfold D1; replace 0%R with (rnd 0) by (apply (rnd_int 0); lia); apply rnd_le; lra).
  (* the inverse *)
  assert (Ip : (0 < 1 / S)%R) by (apply Rdiv_lt_0_compat; lra).
  assert (Ilow : (bpow radix2 (-902) <= 1 / S)%R).
  { unfold Rdiv. rewrite Rmult_1_l. replace (-902) with (- (902)) by lia. rewrite bpow_opp. apply Rinv_le_contravar; lra. }
  destruct (rnd_u (1 / S)) as (e & He & E2); [rewrite Rabs_pos_eq by lra; pose proof (bpow_le radix2 (-1022) (-902) ltac:(lia)); lra|].
  set (I := rnd (1 / S)) in *. apply Rabs_le_inv in He.
  set (r := (D / S)%R). assert (Er : D = (r * S)%R) by (unfold r; field; lra).
  assert (r0 : (0 < r)%R) by (unfold r; apply Rdiv_lt_0_compat; lra).
  assert (rn : (r <= IZR n + / IZR (2 ^ 15))%R) by (apply Rmult_le_reg_r with S; [lra|]; rewrite <- Er; exact HC).
  assert (HU40 : (U = / IZR (2 ^ 53))%R) by reflexivity.
  assert (Usmall : (U <= / IZR (2 ^ 40))%R) by (rewrite HU40; apply Rinv_le_contravar; [apply IZR_lt | apply IZR_le]; lia).
  assert (U1 : (U <= / 100)%R) by (rewrite HU40; apply Rinv_le_contravar; [lra | apply IZR_le; lia]).
  (* the product *)
  set (z := (D1 * I)%R).
  assert (Ez : (Rabs (z - r) <= 4 * U * (r + 1))%R).
  { assert (K : exists t, D1 = ((r + t) * S)%R /\ (Rabs t <= U * (r + 1))%R).
    { exists (D1 / S - r)%R. split; [field; lra|]. replace (D1 / S - r)%R with ((D1 - D) / S)%R by (rewrite Er; field; lra).
      unfold Rdiv. rewrite Rabs_mult, (Rabs_pos_eq (/ S)) by (apply Rlt_le, Rinv_0_lt_compat, Sp).
      apply Rmult_le_reg_r with S; [lra|]. rewrite Rmult_assoc, Rinv_l by lra. rewrite Rmult_1_r. eapply Rle_trans; [exact E1|]. rewrite Er. lra. }
    destruct K as (t & Kt & Ht). unfold z. rewrite Kt, E2. replace ((r + t) * S * (1 / S * (1 + e)) - r)%R with (t + (r + t) * e)%R by (field; lra).
    assert (Ht1 : (Rabs t <= r + 1)%R). { eapply Rle_trans; [exact Ht|]. assert (U * (r + 1) <= 1 * (r + 1))%R by (apply Rmult_le_compat_r; lra). lra. }
    eapply Rle_trans; [apply Rabs_triang|]. rewrite Rabs_mult. assert (Rabs (r + t) <= 2 * (r + 1))%R by (apply Rabs_le_inv in Ht1; apply Rabs_le; lra).
    assert (Rabs (r + t) * Rabs e <= 2 * (r + 1) * U)%R by (apply Rmult_le_compat; [apply Rabs_pos | apply Rabs_pos | assumption | apply Rabs_le; lra]).
    assert (0 <= U * (r + 1))%R by (apply Rmult_le_pos; lra). lra. }
  assert (rB : (r + 1 <= IZR (2 ^ 32))%R).
  { assert (/ IZR (2 ^ 15) <= 1)%R by (rewrite <- Rinv_1; apply Rinv_le_contravar; [lra | apply IZR_le; lia]).
    assert (IZR (2 ^ 31) + 2 <= IZR (2 ^ 32))%R by (rewrite <- plus_IZR; apply IZR_le; lia). lra. }
  assert (Ez2 : (Rabs (z - r) <= / IZR (2 ^ 19))%R).
  { eapply Rle_trans; [exact Ez|]. apply Rle_trans with (4 * U * IZR (2 ^ 32))%R; [apply Rmult_le_compat_l; lra|]. rewrite HU40. right. cbn. field. }
  assert (z0 : (0 <= z)%R) by (unfold z; apply Rmult_le_pos; [lra|]; unfold I; replace 0%R with (rnd 0) by (apply (rnd_int 0); lia); apply rnd_le; lra).
  assert (y0 : (0 <= y)%R) by (unfold y; replace 0%R with (rnd 0) by (apply (rnd_int 0); lia); apply rnd_le; exact z0).
  pose proof Ez2 as Ez3. apply Rabs_le_inv in Ez3.
  assert (C19 : (/ IZR (2 ^ 19) = / 32 * / IZR (2 ^ 14))%R) by (cbn; field). assert (C15 : (/ IZR (2 ^ 15) = / 2 * / IZR (2 ^ 14))%R) by (cbn; field).
  assert (C14 : (0 < / IZR (2 ^ 14) <= 1)%R) by (split; [apply Rinv_0_lt_compat, IZR_lt; lia | rewrite <- Rinv_1; apply Rinv_le_contravar; [lra | apply IZR_le; lia]]).
  assert (zn : (z <= IZR n + / IZR (2 ^ 14))%R) by lra.
  assert (yn : (y <= IZR n + / IZR (2 ^ 14))%R).
  { unfold y. assert (G : rnd (IZR n + / IZR (2 ^ 14)) = (IZR n + / IZR (2 ^ 14))%R); [|rewrite <- G; apply rnd_le; exact zn].
    apply rnd_id. replace (IZR n + / IZR (2 ^ 14))%R with (F2R (Float radix2 (n * 2 ^ 14 + 1) (-14))).
    - unfold F. rewrite fexp_flt. apply generic_format_FLT. exists (Float radix2 (n * 2 ^ 14 + 1) (-14)); [reflexivity | cbn [Fnum]; change (radix2 ^ 53) with (2 ^ 53); lia | cbn; lia].
    - unfold F2R. cbn [Fnum Fexp]. change (-14) with (- (14)). rewrite plus_IZR, mult_IZR. rewrite (bpowN 14) by lia.
      assert (N14 : IZR (2 ^ 14) <> 0%R) by (apply not_0_IZR; lia). rewrite Rmult_plus_distr_r, Rmult_assoc, Rinv_r by exact N14. ring. }
  split; [split; [exact y0 | exact yn]|]. split.
  - pose proof (rnd_err z) as E3. fold z in y. change (rnd z) with y in E3. rewrite (Rabs_pos_eq z z0) in E3.
    assert (UB : (U * (r + 1) <= U * IZR (n + 2))%R).
    { apply Rmult_le_compat_l; [lra|]. rewrite plus_IZR. assert (/ IZR (2 ^ 15) <= 1)%R by (rewrite <- Rinv_1; apply Rinv_le_contravar; [lra | apply IZR_le; lia]). lra. }
    assert (zr : (U * z <= U * (r + 1) + U * (4 * U * (r + 1)))%R).
    { rewrite <- Rmult_plus_distr_l. apply Rmult_le_compat_l; [lra|]. apply Rabs_le_inv in Ez. lra. }
    assert (UU : (U * (4 * U * (r + 1)) <= / 100 * (4 * U * (r + 1)))%R) by (apply Rmult_le_compat_r; [|lra]; apply Rmult_le_pos; lra).
    assert (eta2 : (bpow radix2 (-1075) <= U)%R) by (unfold U; rewrite <- (bpowN 53) by lia; apply bpow_le; lia).
    assert (Ur : (U <= U * (r + 1))%R) by (rewrite <- (Rmult_1_r U) at 1; apply Rmult_le_compat_l; lra).
    assert (C50 : (/ IZR (2 ^ 50) * IZR (n + 2) = 8 * (U * IZR (n + 2)))%R) by (rewrite HU40; cbn [Z.pow]; cbn; field).
    rewrite C50. apply Rabs_le_inv in E3. apply Rabs_le_inv in Ez.
    fold r. apply Rabs_le. lra.
  - apply (bnd_ok 950); [lia|]. rewrite Rabs_pos_eq by lra. rewrite Er. apply Rle_trans with (IZR (2 ^ 32) * bpow radix2 902)%R; [apply Rmult_le_compat; lra|].
    replace (IZR (2 ^ 32)) with (bpow radix2 32) by (symmetry; exact (IZR_Zpower radix2 32 ltac:(lia))). rewrite <- bpow_plus. apply bpow_le. lia.
Qed.
End Construct.

Theorem un_float_cell_bound : forall q d periodic (a b : spec_float) n, fok a -> fok b -> 1 <= d -> 1 <= n -> n + 1 + 2 * d < 2 ^ 31 ->
  (Rabs (fval a) <= bpow radix2 900)%R -> (Rabs (fval b) <= bpow radix2 900)%R -> (IZR n * bpow radix2 (-900) <= fval b - fval a)%R ->
  exists s, ub_construct FA q d periodic a b n = Ok s /\ ub_ncells FA s = n /\ ub_size FA s = n + d /\
    fok (ub_rmin FA s) /\ fok (ub_rmax FA s) /\ fok (ub_step FA s) /\ (0 < fval (ub_step FA s))%R /\
    forall x, fok x -> (fval (ub_rmin FA s) <= fval x <= fval (ub_rmax FA s))%R ->
      exists j off, ub_icell_and_offset FA s x = Ok (j, off) /\ fok off /\ (0 <= fval off <= 1)%R /\
        0 <= j <= n /\ (j = n -> (fval off <= / IZR (2 ^ 14))%R) /\
        (fval x = fval (ub_rmin FA s) -> j = 0 /\ fval off = 0%R) /\
        ((fval (ub_rmin FA s) < fval x)%R -> fval x = fval (ub_rmax FA s) -> j = n - 1 /\ fval off = 1%R) /\
        ((fval (ub_rmin FA s) < fval x < fval (ub_rmax FA s))%R ->
         (Rabs (IZR j + fval off - (fval x - fval (ub_rmin FA s)) / fval (ub_step FA s)) <= / IZR (2 ^ 49) * IZR (n + 2))%R).
Proof.
  intros q d periodic a b n Ha Hb Hd Hn Hbig HA HB HL.
  destruct (f_construct q d n periodic a b Ha Hb Hd Hn Hbig HA HB HL) as (s & Es & Nc & Sz & _ & S1 & S2 & R1 & R2 & T1 & T2 & V1 & V2 & LB & HB').
  exists s. split; [exact Es|]. split; [exact Nc|]. split; [exact Sz|]. split; [exact R1|]. split; [exact T1|]. split; [exact S1|].
  assert (Sp : (0 < fval (ub_step FA s))%R).
  { rewrite S2. destruct (step_facts (fval a) (fval b) d n Hd Hn HA HB HL) as (_ & _ & _ & _ & _ & _ & _ & _ & HS & _). pose proof (bpow_gt_0 radix2 (-902)). lra. }
  split; [exact Sp|]. intros x Hx Hin.
  pose proof (inside d n a b Ha Hb Hd Hn Hbig HA HB HL (fval x) (F_fval x Hx)) as I.
  set (SS := rnd (rnd (fval b - fval a) / IZR n)) in *. set (PP := rnd (IZR d * SS)) in *. set (OO := rnd (fval a - PP)) in *.
  set (lo := rnd (OO + PP)) in *. set (hi := rnd (OO + rnd (IZR (d + n) * SS))) in *. cbv zeta in I.
  assert (F0 : fok (nofz FA 0) /\ fval (nofz FA 0) = 0%R) by (apply fofz_exact; lia).
  assert (F1 : fok (nofz FA 1) /\ fval (nofz FA 1) = 1%R) by (apply fofz_exact; lia).
  assert (Hlast : i32 (u64_sub (ub_ncells FA s) 1) = n - 1) by (rewrite Nc; unfold u64_sub; rewrite u64_small by lia; apply i32_small; lia).
  assert (Hn32 : i32 (ub_ncells FA s) = n) by (rewrite Nc; apply i32_small; lia).
  unfold ub_icell_and_offset. rewrite (assert_ok x _ _ Hx R1 T1) by (rewrite ?R2, ?T2 in *; assumption). cbn [assert_]. cbv zeta. rewrite Hlast, Hn32.
  set (f0 := nofz FA 0) in *. set (f1 := nofz FA 1) in *. clearbody f0 f1.
  cbn [nleb FA]. rewrite !fleb_ok by assumption. rewrite R2, T2 in *. rewrite S2 in *.
  destruct (Rle_lt_dec (fval x) lo) as [C1|C1].
  { rewrite R_leb_true by exact C1. exists 0, f0. destruct F0 as (K1 & K2). rewrite K2. split; [reflexivity|]. split; [exact K1|]. split; [lra|]. split; [lia|]. split; [lia|]. split; [now split|]. split; lra. }
  rewrite R_leb_false by exact C1.
  destruct (Rle_lt_dec hi (fval x)) as [C2|C2].
  { rewrite R_leb_true by exact C2. exists (n - 1), f1. destruct F1 as (K1 & K2). rewrite K2. split; [reflexivity|]. split; [exact K1|]. split; [lra|]. split; [lia|]. split; [lia|]. split; [lra|]. split; [now split | lra]. }
  rewrite R_leb_false by exact C2.
  destruct (I (conj C1 C2)) as (Hy & Hacc & Ho1). clear I.
  cbn [nsub nmul ntrunc FA]. destruct (fsub_ok x (ub_rmin FA s) Hx R1) as (K1 & K2); [rewrite R2; exact Ho1|]. rewrite R2 in K2.
  assert (C14 : (0 < / IZR (2 ^ 14) <= 1)%R) by (split; [apply Rinv_0_lt_compat, IZR_lt; lia | rewrite <- Rinv_1; apply Rinv_le_contravar; [lra | apply IZR_le; lia]]).
  set (y := rnd (rnd (fval x - lo) * rnd (1 / SS))) in *.
  assert (Ho2 : (Rabs y < bpow radix2 1024)%R).
  { rewrite Rabs_pos_eq by lra. eapply Rle_lt_trans; [apply Hy|]. apply Rle_lt_trans with (IZR (2 ^ 100)); [|apply bpow1024_big].
    apply Rle_trans with (IZR n + 1)%R; [lra|]. rewrite <- plus_IZR. apply IZR_le. lia. }
  destruct (fmul_ok _ (ub_inv_step FA s) K1 V1) as (K3 & K4); [rewrite K2, V2; exact Ho2|]. rewrite K2, V2 in K4. fold y in K4.
  set (o := SFmul 53 1024 (SFsub 53 1024 x (ub_rmin FA s)) (ub_inv_step FA s)) in *.
  rewrite (ftrunc_ok o K3), K4. set (jj := Ztrunc y).
  assert (Hjj : (IZR jj <= y < IZR jj + 1)%R /\ 0 <= jj).
  { unfold jj. rewrite Ztrunc_floor by apply Hy. pose proof (Zfloor_lb y). pose proof (Zfloor_ub y). split; [lra|]. apply Zfloor_lub. apply Hy. }
  destruct Hjj as (Hjy & Hj0).
  assert (Hjn : jj <= n).
  { assert (IZR jj < IZR n + 2)%R as G by lra. rewrite <- plus_IZR in G. apply lt_IZR in G.
    destruct (Z.eq_dec jj (n + 1)) as [E|]; [exfalso | lia]. rewrite E, plus_IZR in Hjy. assert (/ IZR (2 ^ 14) < 1)%R by (rewrite <- Rinv_1; apply Rinv_lt_contravar; [lra || (rewrite Rmult_1_l; apply IZR_lt; lia) | apply IZR_lt; lia]). lra. }
  replace ((- 2 ^ 31 <=? jj) && (jj <? 2 ^ 31)) with true by lia.
  destruct (fofz_exact jj ltac:(lia)) as (K5 & K6).
  assert (Br : (0 <= rnd (y - IZR jj) <= 1)%R).
  { pose proof (rnd_int 0 ltac:(lia)). pose proof (rnd_int 1 ltac:(lia)). split; [apply Rle_trans with (rnd 0); [lra|] | apply Rle_trans with (rnd 1); [|lra]]; apply rnd_le; lra. }
  destruct (fsub_ok o (nofz FA jj) K3 K5) as (K7 & K8).
  { rewrite K4, K6. rewrite Rabs_pos_eq by lra. apply Rle_lt_trans with 1%R; [lra|]. apply (Rlt_trans _ (IZR (2 ^ 100))); [apply IZR_lt; lia | apply bpow1024_big]. }
  rewrite K4, K6 in K8. set (off := SFsub 53 1024 o (nofz FA jj)) in *. clearbody off.
  assert (Bn : jj = n -> (rnd (y - IZR jj) <= / IZR (2 ^ 14))%R).
  { intros ->. replace (/ IZR (2 ^ 14))%R with (rnd (/ IZR (2 ^ 14))).
    - apply rnd_le. lra.
    - apply rnd_id. unfold F. rewrite <- (bpowN 14) by lia. apply generic_format_bpow. rewrite fexp_flt. unfold FLT_exp. lia. }
  assert (Acc : (Rabs (IZR jj + rnd (y - IZR jj) - (fval x - lo) / SS) <= / IZR (2 ^ 49) * IZR (n + 2))%R).
  { pose proof (rnd_err (y - IZR jj)) as E. rewrite (Rabs_pos_eq (y - IZR jj)) in E by lra.
    assert (U0 : (0 < U)%R) by (unfold U; apply Rinv_0_lt_compat, IZR_lt; lia).
    assert (eta2 : (bpow radix2 (-1075) <= U)%R) by (unfold U; rewrite <- (bpowN 53) by lia; apply bpow_le; lia).
    assert (U * (y - IZR jj) <= U * 1)%R by (apply Rmult_le_compat; lra).
    assert (C50 : (/ IZR (2 ^ 50) * IZR (n + 2) = 8 * (U * IZR (n + 2)))%R) by (unfold U; cbn; field).
    assert (C49 : (/ IZR (2 ^ 49) * IZR (n + 2) = 16 * (U * IZR (n + 2)))%R) by (unfold U; cbn; field).
    assert (Un : (U <= U * IZR (n + 2))%R) by (rewrite <- (Rmult_1_r U) at 1; apply Rmult_le_compat_l; [lra | apply IZR_le; lia]).
    apply Rabs_le_inv in E. apply Rabs_le_inv in Hacc. apply Rabs_le. lra. }
  destruct (jj =? n) eqn:Ej; cbn [andb].
  - assert (jj = n) by lia. unfold neq_. cbn [nleb FA]. destruct F0 as (G1 & G2). rewrite !fleb_ok by assumption. rewrite G2, K8.
    destruct (Req_dec (rnd (y - IZR jj)) 0) as [Ez|Ez].
    + rewrite !R_leb_true by lra. cbn [andb]. exists (n - 1), f1. destruct F1 as (G3 & G4). rewrite G4. split; [reflexivity|]. split; [exact G3|]. split; [lra|]. split; [lia|]. split; [lia|]. split; [lra|]. split; [lra|].
      intros _. rewrite Ez in Acc. rewrite minus_IZR. replace (IZR n - 1 + 1)%R with (IZR jj + 0)%R by (rewrite H; ring). exact Acc.
    + rewrite (R_leb_false _ 0) by lra. cbn [andb]. exists jj, off. rewrite K8. split; [reflexivity|]. split; [exact K7|]. split; [exact Br|]. split; [lia|]. split; [exact Bn|]. split; [lra|]. split; [lra | intros _; exact Acc].
  - exists jj, off. rewrite K8. split; [reflexivity|]. split; [exact K7|]. split; [exact Br|]. split; [lia|]. split; [exact Bn|]. split; [lra|]. split; [lra | intros _; exact Acc].
Qed.
Lemma cell_bound_hypotheses : fok (nofz FA 2) /\ fok (nofz FA 100) /\ (Rabs (fval (nofz FA 2)) <= bpow radix2 900)%R /\ (Rabs (fval (nofz FA 100)) <= bpow radix2 900)%R /\
  (IZR 106 * bpow radix2 (-900) <= fval (nofz FA 100) - fval (nofz FA 2))%R.
Proof.
  destruct (fofz_exact 2 ltac:(lia)) as (A1 & A2). destruct (fofz_exact 100 ltac:(lia)) as (B1 & B2). rewrite A2, B2. split; [exact A1|]. split; [exact B1|].
  assert (H : (IZR (2 ^ 7) <= bpow radix2 900)%R) by (replace (IZR (2 ^ 7)) with (bpow radix2 7) by (symmetry; exact (IZR_Zpower radix2 7 ltac:(lia))); apply bpow_le; lia).
  change (IZR (2 ^ 7)) with 128%R in H. rewrite !Rabs_pos_eq by lra. split; [lra|]. split; [lra|].
  assert (G : (bpow radix2 (-900) <= / IZR (2 ^ 3))%R) by (rewrite <- (bpowN 3) by lia; apply bpow_le; lia). change (IZR (2 ^ 3)) with 8%R in G. lra.
Qed.
