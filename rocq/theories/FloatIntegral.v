(** Integrals of B-splines and of splines on non-uniform cells in binary64. *)
From Coq Require Import Bool Reals Lia Lra Psatz ZifyBool List Floats.SpecFloat.
From Flocq Require Import Core.
From Verif Require Import BSplineModel BSplineSpec IntegralModel IntegralSpec LoopProofs BSplineMath BSplineDeriv BSplineProofs BSplineUniform SamplingSpec SamplingProofs CellProofs KnotProofs IntegralMath IntegralMath2 IntegralProofs EvaluatorSpec EvaluatorProofs EvaluatorProofs2
  FloatLink FloatCell FloatCell2 FloatCell3 FloatBasis FloatStep FloatNonUniform FloatKnots FloatSpec FloatNonUniformSpec FloatEval FloatKnots2.
Import ListNotations.
Local Open Scope bool_scope. Local Open Scope Z_scope.

(** *** sums of products *)
Section Dot.
Variables (A : R).
Hypothesis HA : (0 <= A <= bpow radix2 1001)%R.
Let G : R := (3 * U * A + 3 * E)%R.
Lemma dot_small k : 0 <= k < 2 ^ 32 -> (0 <= IZR k * G <= A * / 1000 + IZR (2 ^ 34) * E)%R.
Proof.
  intros Hk. pose proof U_pos as U0. pose proof E_pos as E0. assert (K : (0 <= IZR k <= IZR (2 ^ 32))%R) by (split; apply IZR_le; lia). assert (G0 : (0 <= 3 * U * A)%R) by (apply Rmult_le_pos; lra).
  unfold G. split; [apply Rmult_le_pos; lra|]. rewrite Rmult_plus_distr_l. apply Rplus_le_compat.
  - apply Rle_trans with (IZR (2 ^ 32) * (3 * U * A))%R; [apply Rmult_le_compat_r; lra|]. replace (IZR (2 ^ 32) * (3 * U * A))%R with (A * (3 * (IZR (2 ^ 32) * U)))%R by ring. apply Rmult_le_compat_l; [lra|].
    assert (EU : (IZR (2 ^ 32) * U = / IZR (2 ^ 21))%R) by (unfold U; change (2 ^ 53) with (2 ^ 32 * 2 ^ 21); rewrite mult_IZR; field; split; apply not_0_IZR; lia). rewrite EU.
    assert (/ IZR (2 ^ 21) <= / 3000)%R by (apply Rinv_le_contravar; [lra | apply IZR_le; lia]). lra.
  - apply Rle_trans with (IZR (2 ^ 32) * (3 * E))%R; [apply Rmult_le_compat_r; lra|]. change (2 ^ 34) with (4 * 2 ^ 32). rewrite mult_IZR. assert (0 <= IZR (2 ^ 32) * E)%R by (apply Rmult_le_pos; lra). lra.
Qed.
Lemma UE34 : (U * (IZR (2 ^ 34) * E) <= / 1000 * E)%R.
Proof.
  pose proof E_pos. rewrite <- Rmult_assoc. apply Rmult_le_compat_r; [lra|]. assert (EU : (U * IZR (2 ^ 34) = / IZR (2 ^ 19))%R) by (unfold U; change (2 ^ 53) with (2 ^ 34 * 2 ^ 19); rewrite mult_IZR; field; split; apply not_0_IZR; lia). rewrite EU. apply Rinv_le_contravar; [lra | apply IZR_le; lia].
Qed.
Lemma E34 : (IZR (2 ^ 34) * E <= 1)%R.
Proof. unfold E. replace (IZR (2 ^ 34)) with (bpow radix2 34) by (symmetry; exact (IZR_Zpower radix2 34 ltac:(lia))). rewrite <- bpow_plus. change 1%R with (bpow radix2 0). apply bpow_le. lia. Qed.
Lemma dot_bnd z : (Rabs z <= 8 * A + 8)%R -> (Rabs (rnd z) < bpow radix2 1024)%R.
Proof.
  intros Hz. apply (bnd_ok 1006); [lia|]. eapply Rle_trans; [exact Hz|]. change 1006 with (1001 + 5). rewrite bpow_plus. change (bpow radix2 5) with 32%R.
  assert (1 <= bpow radix2 1001)%R by (change 1%R with (bpow radix2 0); apply bpow_le; lia). lra.
Qed.
Lemma dot_step k y c v S : 0 <= k < 2 ^ 32 -> fok y -> fok c -> fok v -> (Rabs (fval c * fval v) <= A)%R -> (Rabs (S + fval c * fval v) <= A)%R ->
  (Rabs (fval y - S) <= IZR k * G)%R -> fok (SFadd 53 1024 y (SFmul 53 1024 c v)) /\ (Rabs (fval (SFadd 53 1024 y (SFmul 53 1024 c v)) - (S + fval c * fval v)) <= IZR (k + 1) * G)%R.
Proof.
  intros Hk Hy Hc Hv HP HS HE. pose proof (dot_small k Hk) as GS. pose proof UE34 as U1. pose proof E34 as E1. pose proof U_tiny as UT. pose proof E_pos as E0.
  set (q := (fval c * fval v)%R) in *. destruct (fmul_ok c v Hc Hv (dot_bnd q ltac:(lra))) as (P1 & P2). fold q in P2. set (p := SFmul 53 1024 c v) in *.
  pose proof (rnd_error q) as Dq. rewrite <- P2 in Dq. assert (UP : (U * Rabs q <= U * A)%R) by (apply Rmult_le_compat_l; lra).
  assert (UA : (0 <= U * A <= / 1000 * A)%R) by (split; [apply Rmult_le_pos; lra | apply Rmult_le_compat_r; lra]).
  assert (EE : (0 < E <= / 1000)%R). { split; [exact E0|]. assert (1000 * E <= IZR (2 ^ 34) * E)%R by (apply Rmult_le_compat_r; [lra | apply IZR_le; lia]). lra. }
  set (e1 := (fval p - q)%R) in *. set (e2 := (fval y - S)%R) in *.
  assert (EQ : (fval y + fval p = (S + q) + e2 + e1)%R) by (unfold e1, e2; ring).
  assert (B : (Rabs (fval y + fval p) <= A + IZR k * G + (U * A + E))%R).
  { rewrite EQ. eapply Rle_trans; [apply Rabs_triang|]. apply Rplus_le_compat; [|lra]. eapply Rle_trans; [apply Rabs_triang|]. lra. }
  destruct (fadd_ok y p Hy P1 (dot_bnd (fval y + fval p) ltac:(lra))) as (Q1 & Q2). split; [exact Q1|]. rewrite Q2. pose proof (rnd_error (fval y + fval p)) as D2.
  assert (UB : (U * Rabs (fval y + fval p) <= U * (A + IZR k * G + (U * A + E)))%R) by (apply Rmult_le_compat_l; lra).
  assert (UB2 : (U * (A + IZR k * G + (U * A + E)) <= 2 * U * A + / 100 * E)%R).
  { assert (H1 : (U * (IZR k * G) <= U * (A * / 1000 + IZR (2 ^ 34) * E))%R) by (apply Rmult_le_compat_l; lra).
    assert (H2 : (U * (U * A) <= / 1000 * (U * A))%R) by (apply Rmult_le_compat_r; lra). assert (H3 : (U * E <= / 1000 * E)%R) by (apply Rmult_le_compat_r; lra). lra. }
  replace (rnd (fval y + fval p) - (S + q))%R with ((rnd (fval y + fval p) - (fval y + fval p)) + (e2 + e1))%R by (rewrite EQ; ring).
  eapply Rle_trans; [apply Rabs_triang|]. pose proof (Rabs_triang e2 e1). rewrite plus_IZR. unfold G in *. lra.
Qed.
End Dot.

Lemma f_c1_set (c : chunk_1d FA) ix (v : spec_float) : c1_front FA c = 0 -> 0 <= ix < c1_size FA c -> c1_size FA c < 2 ^ 63 ->
  c1_set FA c ix v = Ok (mk_chunk_1d FA 0 (mk_arr (c1_size FA c) (upd (a_at (c1_vals FA c)) ix v))).
Proof. intros Hf Hi Hs. unfold c1_set, c1_size in *. rewrite Hf. rewrite elem_minus_0 by lia. rewrite (aset_ok (c1_vals FA c)) by exact Hi. reflexivity. Qed.
Definition f_filled (c c' : chunk_1d FA) (lo hi : Z) (v : spec_float) : Prop :=
  c1_front FA c' = 0 /\ c1_size FA c' = c1_size FA c /\ (forall k, lo <= k < hi -> a_at (c1_vals FA c') k = v) /\
  (forall k, k < lo \/ hi <= k -> a_at (c1_vals FA c') k = a_at (c1_vals FA c) k).
Lemma f_fill_domain q lo hi (v : spec_float) (c : chunk_1d FA) : 0 <= lo <= hi -> hi <= c1_size FA c -> c1_size FA c < 2 ^ 63 -> c1_front FA c = 0 ->
  exists c', fill_domain FA [(q, (lo, hi))] v c = Ok c' /\ f_filled c c' lo hi v.
Proof.
  intros Hl Hh Hs Hf. unfold fill_domain, front_of, size_of. cbn [front dom_begin map fst snd one_elem rbind]. rewrite extents_1' by lia. cbn [rbind one_elem].
  replace (hi - lo <? 0) with false by lia.
  destruct (for_range_inv (fun k c' => f_filled c c' lo (lo + k) v) (fun k c => c1_set FA c (u64_add lo k) v) 0 (hi - lo) c) as (c' & E & Hc'); [lia| | |].
  - repeat split; trivial. intros; lia.
  - intros i c1 Hi (F1 & F2 & F3 & F4). unfold u64_add. rewrite u64_small by lia. rewrite f_c1_set by (trivial; lia).
    eexists. split; [reflexivity|]. split; [reflexivity|]. split; [exact F2|]. cbn [c1_vals a_at]. split.
    + intros k Hk. destruct (Z.eq_dec k (lo + i)) as [->|]; [apply upd_eq|]. rewrite upd_neq by assumption. apply F3. lia.
    + intros k Hk. rewrite upd_neq by lia. apply F4. lia.
  - exists c'. split; [exact E|]. replace (lo + (hi - lo)) with hi in Hc' by lia. exact Hc'.
Qed.
(** *** the integrals of the B-splines *)
Section Float.
Variables (junk : Z -> spec_float) (d : Z) (periodic : bool) (l : list spec_float).
Hypothesis HF : float_cells d l.
Variable s : n_bsplines FA.
Hypothesis Hs : nb_construct FA junk d periodic l = Ok (Some s).
Notation t := (held_knots s).
Let n := Z.of_nat (length l).
Let nbasis := if periodic then n - 1 else n - 1 + d.
Definition wt (i : Z) : R := ((t (i + d + 1)%Z - t i) / IZR (d + 1))%R.
Lemma in_d : 1 <= d <= 1000 /\ 2 <= n /\ n + 2 * d < 2 ^ 31.
Proof. exact (nu_d junk d l HF). Qed.
Lemma in_nb : 1 <= nbasis <= n - 1 + d.
Proof. pose proof in_d. unfold nbasis. destruct (Bool.bool_dec periodic true) as [->|Hp]; [lia|]. apply Bool.not_true_is_false in Hp. rewrite Hp. lia. Qed.
Lemma in_width i : 0 <= i < n - 1 + d -> (bpow radix2 (-900) <= t (i + d + 1)%Z - t i <= bpow radix2 920)%R.
Proof.
  intros Hi. pose proof in_d as (Hd & Hn & Hbig). set (k := Z.max i d). pose proof (sp_width junk d periodic l HF s Hs k ltac:(unfold k, n in *; lia)) as W.
  pose proof (sp_mono junk d periodic l HF s Hs i k ltac:(unfold k; lia) ltac:(unfold k, n in *; lia)). pose proof (sp_mono junk d periodic l HF s Hs (k + 1) (i + d + 1) ltac:(unfold k; lia) ltac:(unfold n in *; lia)).
  split; [lra|]. destruct (sp_ok junk d periodic l HF s Hs (i + d + 1) ltac:(unfold n in *; lia)) as (_ & B1). destruct (sp_ok junk d periodic l HF s Hs i ltac:(unfold n in *; lia)) as (_ & B2).
  pose proof (dif_bnd 919 _ _ B1 B2) as B. change (919 + 1) with 920 in B. eapply Rle_trans; [apply Rle_abs | exact B].
Qed.
Lemma in_deg : let v := ndiv FA (nofz FA 1) (nofz FA (u64_add d 1)) in fok v /\ (exists e, (Rabs e <= U)%R /\ fval v = (/ IZR (d + 1) * (1 + e))%R) /\ (bpow radix2 (-12) <= fval v <= 1)%R.
Proof.
  pose proof in_d as (Hd & Hn & Hbig). replace (u64_add d 1) with (d + 1) by (unfold u64_add; rewrite u64_small; lia). cbn [ndiv FA].
  destruct (fofz_exact 1 ltac:(lia)) as (O1 & O2). destruct (fofz_exact (d + 1) ltac:(lia)) as (D1 & D2). assert (D0 : (2 <= IZR (d + 1) <= 1001)%R) by (split; apply IZR_le; lia).
  assert (Q : (fval (nofz FA 1) / fval (nofz FA (d + 1)) = / IZR (d + 1))%R) by (rewrite O2, D2; unfold Rdiv; ring).
  assert (I : (/ 1001 <= / IZR (d + 1) <= / 2)%R) by (split; apply Rinv_le_contravar; lra).
  destruct (fdiv_ok _ _ O1 D1 ltac:(rewrite D2; lra)) as (V1 & V2). { rewrite Q. apply (bnd_ok 0); [lia|]. change (bpow radix2 0) with 1%R. rewrite Rabs_pos_eq; lra. }
  rewrite Q in V2. destruct (rnd_rel (/ IZR (d + 1))) as (e & He & EQ). { rewrite Rabs_pos_eq by lra. apply Rle_trans with (bpow radix2 (-10)); [apply bpow_le; lia|]. change (-10) with (- (10)). rewrite (bpowN 10) by lia. change (2 ^ 10) with 1024. lra. }
  replace (bpow radix2 (-52)) with (/ IZR (2 ^ 52))%R in He by (symmetry; exact (bpowN 52 ltac:(lia))). rewrite half52 in He.
  split; [exact V1|]. rewrite V2, EQ. split; [exists e; split; [exact He | reflexivity]|]. pose proof U_tiny as UT. apply Rabs_le_inv in He. change (-12) with (- (12)). rewrite (bpowN 12) by lia. change (2 ^ 12) with 4096.
  split.
  - apply Rle_trans with (/ 1001 * (1 - / 1000000))%R; [lra|]. apply Rmult_le_compat; lra.
  - apply Rle_trans with (/ 2 * (1 + / 1000000))%R; [|lra]. apply Rmult_le_compat; lra.
Qed.
Lemma in_value i : 0 <= i < n - 1 + d -> let v := nmul FA (nsub FA (held_knot s (i + d + 1)) (held_knot s i)) (ndiv FA (nofz FA 1) (nofz FA (u64_add d 1))) in
  fok v /\ (0 <= fval v)%R /\ (Rabs (fval v - wt i) <= 4 * U * wt i)%R.
Proof.
  intros Hi. pose proof in_d as (Hd & Hn & Hbig). pose proof (in_width i Hi) as W. destruct in_deg as (V1 & (e2 & He2 & EV) & VB). set (iv := ndiv FA (nofz FA 1) (nofz FA (u64_add d 1))) in *.
  destruct (sp_ok junk d periodic l HF s Hs (i + d + 1) ltac:(unfold n in *; lia)) as (K1 & B1). destruct (sp_ok junk d periodic l HF s Hs i ltac:(unfold n in *; lia)) as (K2 & B2).
  cbn [nmul nsub FA]. destruct (fsub_ok _ _ K1 K2) as (S1 & S2); [apply (bnd_ok 920); [lia | exact (dif_bnd 919 _ _ B1 B2)]|].
  destruct (rnd_dif _ _ (F_fval _ K1) (F_fval _ K2)) as (e1 & He1 & ES). rewrite ES in S2. fold (t (i + d + 1)) (t i) in S2. set (w := (t (i + d + 1)%Z - t i)%R) in *. set (sv := SFsub 53 1024 (held_knot s (i + d + 1)) (held_knot s i)) in *.
  pose proof U_tiny as UT. pose proof (bpow_gt_0 radix2 (-900)) as P9. assert (E1' := He1). apply Rabs_le_inv in E1'.
  assert (SB : (bpow radix2 (-901) <= fval sv <= bpow radix2 921)%R).
  { rewrite S2. split.
    - replace (-901) with (-900 - 1) by lia. rewrite bpow_shift by lia. change (2 ^ 1) with 2. unfold Rdiv. apply Rmult_le_compat; lra.
    - change 921 with (920 + 1). rewrite bpow_plus. change (bpow radix2 1) with 2%R. apply Rmult_le_compat; lra. }
  pose proof (bpow_gt_0 radix2 (-901)) as P91. pose proof (bpow_gt_0 radix2 (-12)) as P12.
  assert (PB : (bpow radix2 (-913) <= fval sv * fval iv <= bpow radix2 921)%R).
  { split; [change (-913) with (-901 + -12); rewrite bpow_plus; apply Rmult_le_compat; lra|]. rewrite <- (Rmult_1_r (bpow radix2 921)). apply Rmult_le_compat; lra. }
  pose proof (bpow_gt_0 radix2 (-913)) as P13.
  destruct (fmul_ok sv iv S1 V1) as (M1 & M2); [apply (bnd_ok 921); [lia | rewrite Rabs_pos_eq; lra]|]. split; [exact M1|].
  destruct (rnd_rel (fval sv * fval iv)) as (e3 & He3 & EM). { rewrite Rabs_pos_eq by lra. apply Rle_trans with (bpow radix2 (-913)); [apply bpow_le; lia | lra]. }
  replace (bpow radix2 (-52)) with (/ IZR (2 ^ 52))%R in He3 by (symmetry; exact (bpowN 52 ltac:(lia))). rewrite half52 in He3.
  rewrite M2. split; [apply rnd_pos; lra|]. rewrite EM, S2, EV.
  assert (N : near 4 ((1 + e1) * (1 + e2) * (1 + e3))%R).
  { apply (near_le (1 + 1 + / 100 + 1 + / 100)%R); [lra|]. apply near_mul; [lra | lra | | now apply near_one]. apply near_mul; try lra; now apply near_one. }
  replace (w * (1 + e1) * (/ IZR (d + 1) * (1 + e2)) * (1 + e3) - wt i)%R with (wt i * ((1 + e1) * (1 + e2) * (1 + e3) - 1))%R by (unfold wt; fold w; unfold Rdiv; ring).
  assert (W0 : (0 <= wt i)%R) by (unfold wt; fold w; apply Rmult_le_pos; [lra | left; apply Rinv_0_lt_compat, IZR_lt; lia]).
  rewrite Rabs_mult, (Rabs_pos_eq (wt i)), (Rmult_comm (wt i)) by exact W0. apply Rmult_le_compat_r; [exact W0 | exact N].
Qed.
Lemma in_sizes : nb_size FA s = n - 1 + d /\ nb_nbasis FA s = nbasis.
Proof.
  pose proof in_d as (Hd & Hn & Hbig). destruct (nu_space junk d periodic l HF s Hs) as (a & _ & _ & _ & ->). unfold nb_size, nb_nbasis, nb_ncells, nb_npoints, npoints_of. cbn [nb_knot_size nb_degree nb_periodic]. fold n.
  unfold u64_mul. rewrite (u64_small (2 * d)) by lia. rewrite (u64_small (n + 2 * d)) by lia. unfold u64_sub at 2 4. rewrite (u64_small (n + 2 * d - 2 * d)) by lia. unfold u64_sub. rewrite (u64_small (n + 2 * d - 2 * d - 1)) by lia.
  unfold u64_add. split; [rewrite u64_small; lia|]. unfold nbasis. destruct (Bool.bool_dec periodic true) as [->|Hp]; [rewrite u64_small; lia|]. apply Bool.not_true_is_false in Hp. rewrite Hp. rewrite u64_small; lia.
Qed.
Lemma in_values q (iv : chunk_1d FA) : c1_front FA iv = 0 -> c1_size FA iv = nbasis \/ (periodic = true /\ c1_size FA iv = n - 1 + d) ->
  exists c, non_uniform_bsplines_integrals FA q s iv = Ok c /\ c1_front FA c = 0 /\ c1_size FA c = c1_size FA iv /\
    (forall i, 0 <= i < nbasis -> fok (a_at (c1_vals FA c) i) /\ (0 <= fval (a_at (c1_vals FA c) i))%R /\ (Rabs (fval (a_at (c1_vals FA c) i) - wt i) <= 4 * U * wt i)%R) /\
    (forall i, nbasis <= i < c1_size FA iv -> a_at (c1_vals FA c) i = nofz FA 0).
Proof.
  intros Hf Hsz. pose proof in_d as (Hd & Hn & Hbig). pose proof in_nb as Hnb. destruct in_sizes as (S8 & S9). destruct (sp_fields junk d periodic l HF s Hs) as (Sd & _ & _ & Sp).
  assert (Hsi : nbasis <= c1_size FA iv <= n - 1 + d) by lia.
  unfold non_uniform_bsplines_integrals. rewrite Sd, Sp, S8, S9.
  assert (Ea : (c1_size FA iv =? nbasis) || periodic && (c1_size FA iv =? n - 1 + d) = true) by (destruct Hsz as [-> | [-> ->]]; rewrite Z.eqb_refl; [reflexivity | apply orb_true_r]).
  rewrite Ea. unfold assert_. rewrite full_domain_ok by lia. cbn [rbind]. rewrite take_first_ok by lia. cbn [rbind].
  unfold front_of, size_of. cbn [front dom_begin map fst snd one_elem rbind]. rewrite extents_1' by lia. cbn [rbind one_elem]. rewrite Z.sub_0_r.
  set (body := fun (k : Z) (c : chunk_1d FA) => _).
  destruct (for_range_inv (fun k (c : chunk_1d FA) => c1_front FA c = 0 /\ c1_size FA c = c1_size FA iv /\
    (forall i, 0 <= i < k -> a_at (c1_vals FA c) i = nmul FA (nsub FA (held_knot s (i + d + 1)) (held_knot s i)) (ndiv FA (nofz FA 1) (nofz FA (u64_add d 1))))) body 0 nbasis iv) as (c & Ec & F1 & F2 & F3); [lia| | |].
  - split; [exact Hf|]. split; [reflexivity|]. intros; lia.
  - intros i c Hi (F1 & F2 & F3). unfold body. unfold u64_add at 1 2 3. rewrite !(u64_small (0 + i)) by lia. rewrite Z.add_0_l.
    assert (E1 : nb_first_support_knot i = i).
    { unfold nb_first_support_knot, reference_element. rewrite elem_minus_0 by lia. unfold u64_add. rewrite (u64_small i) by lia. rewrite u64_small; lia. }
    assert (E2 : nb_last_support_knot FA s i = i + d + 1).
    { unfold nb_last_support_knot. rewrite E1, Sd. unfold u64_add. rewrite (u64_small (d + 1)) by lia. rewrite u64_small; lia. }
    rewrite E1, E2. rewrite !(sp_coord junk d periodic l HF s Hs) by (unfold n in *; lia). cbn [rbind].
    rewrite f_c1_set by (trivial; lia). eexists. split; [reflexivity|]. split; [reflexivity|]. split; [exact F2|]. cbn [c1_vals a_at].
    intros k Hk. destruct (Z.eq_dec k i) as [->|]; [|rewrite upd_neq by assumption; apply F3; lia]. rewrite upd_eq. reflexivity.
  - rewrite Ec. cbn [rbind]. rewrite F2. destruct (periodic && (c1_size FA iv =? n - 1 + d)) eqn:Ep.
    + apply andb_true_iff in Ep as [Ep1 Ep2]. rewrite take_last_ok by lia. cbn [rbind].
      replace (n - 1 + d - d) with (n - 1) by lia. assert (En : nbasis = n - 1) by (unfold nbasis; now rewrite Ep1).
      destruct (f_fill_domain q (n - 1) (n - 1 + d) (nofz FA 0) c) as (c' & Ec' & G1 & G2 & G3 & G4); try lia; try exact F1.
      exists c'. split; [exact Ec'|]. split; [exact G1|]. split; [lia|]. split.
      * intros i Hi. rewrite G4 by lia. rewrite F3 by lia. apply in_value. lia.
      * intros i Hi. rewrite G3 by lia. reflexivity.
    + exists c. split; [reflexivity|]. split; [exact F1|]. split; [exact F2|]. split; [intros i Hi; rewrite F3 by lia; apply in_value; lia|].
      intros i Hi. apply andb_false_iff in Ep. exfalso. destruct Hsz as [Hs1 | [Hs1 Hs2]]; [lia|]. destruct Ep as [Ep|Ep]; [congruence | lia].
Qed.
End Float.
