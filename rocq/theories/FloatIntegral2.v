(** Integrals of splines on non-uniform cells in binary64, with open knots. *)
From Coq Require Import Bool Reals Lia Lra Psatz ZifyBool List Floats.SpecFloat.
From Flocq Require Import Core.
From Coquelicot Require Import Hierarchy RInt.
From Verif Require Import BSplineModel BSplineSpec IntegralModel IntegralSpec EvaluatorModel LoopProofs BSplineMath BSplineDeriv BSplineProofs BSplineUniform SamplingSpec SamplingProofs CellProofs KnotProofs IntegralMath IntegralMath2 IntegralProofs EvaluatorSpec EvaluatorProofs EvaluatorProofs2
  FloatLink FloatCell FloatCell2 FloatCell3 FloatBasis FloatStep FloatNonUniform FloatKnots FloatSpec FloatNonUniformSpec FloatEval FloatKnots2 FloatIntegral.
Import ListNotations.
Local Open Scope bool_scope. Local Open Scope Z_scope.

(** A B-spline depends on its own knots only. *)
Lemma bspline_knots (t u : Z -> R) rmax x p : forall i, (forall k, i <= k <= i + Z.of_nat p + 1 -> t k = u k) -> bspline t rmax p i x = bspline u rmax p i x.
Proof.
  unfold bspline. induction p as [|p IH]; intros i H.
  - cbn [cox_de_boor]. unfold indicator. rewrite (H i), (H (i + 1)) by lia. reflexivity.
  - cbn [cox_de_boor]. rewrite (IH i), (IH (i + 1)) by (intros k Hk; apply H; lia). rewrite (H i), (H (i + 1)), (H (i + Z.of_nat (S p))), (H (i + Z.of_nat (S p) + 1)) by lia. reflexivity.
Qed.
Section Float.
Variables (junk : Z -> spec_float) (d : Z) (l : list spec_float).
Hypothesis HF : float_cells d l.
Variable s : n_bsplines FA.
Hypothesis Hs : nb_construct FA junk d false l = Ok (Some s).
Notation t := (held_knots s).
Let n := Z.of_nat (length l).
Let N := n - 1 + d.
Let lr : list R := map fval l.
Notation z := (S754_zero false).
Let u := knots false d lr.
Let D : R := (last_break l - first_break l)%R.
Lemma op_len : length lr = length l.
Proof. apply map_length. Qed.
Lemma op_nth k : nth k lr 0%R = fval (nth k l z).
Proof. unfold lr. change 0%R with (fval z). apply map_nth. Qed.
Lemma op_first : first_point lr = first_break l.
Proof. apply op_nth. Qed.
Lemma op_last : last_point lr = last_break l.
Proof. unfold last_point. rewrite op_len. apply op_nth. Qed.
Lemma op_strict : strictly_increasing lr.
Proof.
  pose proof (in_d junk d l HF) as (Hd & Hn & Hbig). fold n in Hn, Hbig.
  assert (G : forall j i, (i < j < length l)%nat -> (fval (nth i l z) < fval (nth j l z))%R).
  { induction j as [|j IH]; intros i Hi; [lia|]. pose proof (sp_cell junk d false l HF s Hs (d + Z.of_nat j) ltac:(unfold n in *; lia)) as C. unfold held_knots in C. replace (d + Z.of_nat j + 1) with (d + Z.of_nat (S j)) in C by lia.
    rewrite !(sp_break junk d false l HF s Hs) in C by lia. destruct (Nat.eq_dec i j) as [->|Nij]; [exact C|]. specialize (IH i ltac:(lia)). lra. }
  intros i j x y Hij Hx Hy. assert (Lj : (j < length lr)%nat) by (apply nth_error_Some; congruence). assert (Li : (i < length lr)%nat) by lia.
  rewrite (nth_error_nth' lr 0%R Li) in Hx. rewrite (nth_error_nth' lr 0%R Lj) in Hy. assert (Ex : nth i lr 0%R = x) by congruence. assert (Ey : nth j lr 0%R = y) by congruence. rewrite <- Ex, <- Ey, !op_nth. apply G. rewrite op_len in Lj. lia.
Qed.
Lemma op_knots k : 0 <= k < n + 2 * d -> t k = u k.
Proof.
  intros Hk. pose proof (in_d junk d l HF) as (Hd & Hn & Hbig). fold n in Hn, Hbig. assert (Ln : Z.of_nat (length lr) = n) by (rewrite op_len; reflexivity). unfold held_knots, u.
  destruct (sp_held junk d false l HF s Hs) as (a & K & O & S & H). destruct (Z_lt_le_dec k d) as [Lk|Lk].
  - rewrite H by (fold n; lia). rewrite (knots_open_left lr d) by lia. rewrite op_first. replace k with (d - (d - k)) by ring. destruct (kn_open junk d false l HF a K O (d - k) eq_refl ltac:(lia)) as (G & _). exact (f_equal fval G).
  - destruct (Z_lt_le_dec k (d + n)) as [Lk2|Lk2].
    + replace k with (d + (k - d)) by ring. rewrite (knots_break lr d) by (rewrite ?op_len; fold n; lia). rewrite op_nth. replace (d + (k - d)) with (d + Z.of_nat (Z.to_nat (k - d))) by lia. rewrite (sp_break junk d false l HF s Hs) by (unfold n in *; lia). reflexivity.
    + rewrite H by (fold n; lia). rewrite (knots_open_right lr d) by (rewrite ?op_len; fold n; lia). rewrite op_last. replace k with (d + (n - 1) + (k - d - (n - 1))) by ring. destruct (kn_open junk d false l HF a K O (k - d - (n - 1)) eq_refl ltac:(lia)) as (_ & G). exact (f_equal fval G).
Qed.
Lemma op_integral i : 0 <= i < N -> integral (bspline t (last_break l) (Z.to_nat d) i) (first_break l) (last_break l) (wt d s i).
Proof.
  intros Hi. unfold N in Hi. pose proof (in_d junk d l HF) as (Hd & Hn & Hbig). fold n in Hn, Hbig. rewrite <- op_first, <- op_last.
  replace (wt d s i) with (W u d i) by (unfold W, wt; rewrite !op_knots by lia; reflexivity).
  pose proof (nu_open d false lr ltac:(lia) ltac:(rewrite op_len; unfold n in *; lia) op_strict i eq_refl ltac:(rewrite op_len; fold n; lia)) as G.
  unfold integral in *. eapply is_RInt_ext; [|exact G]. intros x _. cbn beta. symmetry. apply bspline_knots. intros k Hk. apply op_knots. lia.
Qed.
Lemma op_sum : zsum N (wt d s) = D.
Proof.
  pose proof (in_d junk d l HF) as (Hd & Hn & Hbig). fold n in Hn, Hbig.
  rewrite (zsum_ext N _ (W u d)) by (intros i Hi; unfold W, wt; unfold N in Hi; rewrite !op_knots by lia; reflexivity). unfold D, N.
  pose proof (nu_t_first d false lr ltac:(rewrite op_len; unfold n in *; lia)) as T1. pose proof (nu_t_last d false lr ltac:(rewrite op_len; unfold n in *; lia)) as T2. rewrite op_len in T2. fold n in T2. fold u in T1, T2. rewrite op_first in T1. rewrite op_last in T2. rewrite <- T1.
  apply (integrals_sum u); try lia; try assumption.
  - intros i j Hij. exact (nu_mono d false lr ltac:(rewrite op_len; unfold n in *; lia) op_strict i j Hij).
  - intros c Hc. exact (nu_cell d false lr ltac:(rewrite op_len; unfold n in *; lia) op_strict c ltac:(rewrite op_len; fold n; lia)).
  - intros i Hi. rewrite T1. eapply is_RInt_ext; [|].
    2:{ replace (W u d i) with (wt d s i) by (unfold W, wt; rewrite !op_knots by lia; reflexivity). exact (op_integral i ltac:(unfold N; lia)). }
    intros x _. cbn beta. apply bspline_knots. intros k Hk. apply op_knots. lia.
Qed.
Lemma op_spline (cf : Z -> R) : integral (spline t (last_break l) d (n - 1) cf) (first_break l) (last_break l) (zsum N (fun i => cf i * wt d s i)%R).
Proof.
  unfold integral. eapply is_RInt_ext; [|apply (is_RInt_zsum N (fun i x => cf i * bspline t (last_break l) (Z.to_nat d) i x)%R (fun i => cf i * wt d s i)%R)].
  - intros x _. cbn beta. unfold spline. rewrite sum_first_zsum. reflexivity.
  - unfold N. pose proof (in_d junk d l HF). fold n in H. lia.
  - intros i Hi. apply (is_RInt_scal (V := R_NormedModule)). apply op_integral. exact Hi.
Qed.
Lemma wt_pos i : 0 <= i < N -> (0 <= wt d s i)%R.
Proof.
  intros Hi. pose proof (in_d junk d l HF) as (Hd & _). pose proof (in_width junk d false l HF s Hs i ltac:(exact Hi)) as W0. pose proof (bpow_gt_0 radix2 (-900)). unfold wt. apply Rmult_le_pos; [lra|]. left. apply Rinv_0_lt_compat, IZR_lt. lia.
Qed.
Section Sum.
Variables (M : R) (cf : Z -> R) (v : Z -> spec_float).
Hypothesis HM : (0 <= M)%R.
Hypothesis Hcf : forall i, 0 <= i < N -> (Rabs (cf i) <= M)%R.
Hypothesis Hv : forall i, 0 <= i < N -> (0 <= fval (v i))%R /\ (Rabs (fval (v i) - wt d s i) <= 4 * U * wt d s i)%R.
Let A : R := (M * D * (1 + 4 * U))%R.
Lemma su_v i : 0 <= i < N -> (Rabs (cf i * fval (v i)) <= M * (1 + 4 * U) * wt d s i)%R.
Proof.
  intros Hi. destruct (Hv i Hi) as (V0 & V1). apply Rabs_le_inv in V1. rewrite Rabs_mult, (Rabs_pos_eq (fval (v i))) by exact V0. rewrite Rmult_assoc. apply Rmult_le_compat; [apply Rabs_pos | exact V0 | apply Hcf; exact Hi | lra].
Qed.
Lemma su_all : zsum N (fun i => M * (1 + 4 * U) * wt d s i)%R = A.
Proof. rewrite (zsum_scal N (M * (1 + 4 * U))%R). rewrite op_sum. unfold A. ring. Qed.
Lemma su_MU i : 0 <= i < N -> (0 <= M * (1 + 4 * U) * wt d s i)%R.
Proof. intros Hi. pose proof U_pos. apply Rmult_le_pos; [apply Rmult_le_pos; lra | apply wt_pos; exact Hi]. Qed.
Lemma su_one i : 0 <= i < N -> (Rabs (cf i * fval (v i)) <= A)%R.
Proof. intros Hi. eapply Rle_trans; [apply su_v; exact Hi|]. rewrite <- su_all. apply (zsum_elem N (fun i => M * (1 + 4 * U) * wt d s i)%R i su_MU Hi). Qed.
Lemma su_part k : 0 <= k <= N -> (Rabs (zsum k (fun i => cf i * fval (v i))) <= A)%R.
Proof.
  intros Hk. eapply Rle_trans; [apply zsum_abs|]. eapply Rle_trans; [apply (zsum_le k _ (fun i => M * (1 + 4 * U) * wt d s i)%R); intros i Hi; apply su_v; lia|].
  rewrite <- su_all. apply zsum_mono; [exact Hk | exact su_MU].
Qed.
Lemma su_exact : (Rabs (zsum N (fun i => cf i * fval (v i)) - zsum N (fun i => cf i * wt d s i)) <= M * D * (4 * U))%R.
Proof.
  replace (zsum N (fun i => cf i * fval (v i)) - zsum N (fun i => cf i * wt d s i))%R with (zsum N (fun i => cf i * fval (v i) + - 1 * (cf i * wt d s i))%R) by (rewrite zsum_plus, zsum_scal; ring).
  eapply Rle_trans; [apply zsum_abs|]. eapply Rle_trans; [apply (zsum_le N _ (fun i => (M * (4 * U)) * wt d s i)%R)|].
  - intros i Hi. cbn beta. replace (cf i * fval (v i) + - 1 * (cf i * wt d s i))%R with (cf i * (fval (v i) - wt d s i))%R by ring. rewrite Rabs_mult, Rmult_assoc. apply Rmult_le_compat; [apply Rabs_pos | apply Rabs_pos | apply Hcf; exact Hi | apply Hv; exact Hi].
  - rewrite zsum_scal, op_sum. right. ring.
Qed.
End Sum.
Lemma op_integrate m q mem M nbatch (coef : Z -> chunk_1d FA) (out : arr spec_float) : 0 <= nbatch -> a_len out = nbatch -> (M * D <= bpow radix2 1000)%R ->
  (forall j, 0 <= j < nbatch -> float_coefficients (coef j) N M) ->
  exists out', integrate FA (NonUniform s) m q mem 0 N nbatch coef out = Ok out' /\ a_len out' = nbatch /\
    forall j, 0 <= j < nbatch -> fok (a_at out' j) /\
      (Rabs (fval (a_at out' j) - zsum N (fun i => float_coefficient (coef j) i * wt d s i)%R) <= M * D * (IZR (3 * N + 5) * U) + IZR (3 * N) * E)%R.
Proof.
  intros Hb Hout HMD Hc. pose proof (in_d junk d l HF) as (Hd & Hn & Hbig). fold n in Hn, Hbig. assert (HN : 2 <= N < 2 ^ 31) by (unfold N; lia).
  destruct (in_values junk d false l HF s Hs q (mk_chunk_1d FA 0 (mk_arr N mem)) eq_refl) as (c & Ei & C1 & C2 & C3 & _).
  { left. reflexivity. }
  change (c1_size FA (mk_chunk_1d FA 0 (mk_arr N mem))) with N in C2. fold n in C3. fold N in C3. change (num FA) with spec_float in *.
  set (v := a_at (c1_vals FA c)) in *. unfold integrate. change (num FA) with spec_float in *.
  set (G := (3 * U * (M * D * (1 + 4 * U)) + 3 * E)%R).
  destruct (for_range_inv (fun j (o : arr spec_float) => a_len o = nbatch /\ forall j', 0 <= j' < j -> fok (a_at o j') /\ (Rabs (fval (a_at o j') - zsum N (fun i => float_coefficient (coef j') i * fval (v i))%R) <= IZR N * G)%R)
    (fun j (out : arr spec_float) => out <- aset out j (nofz FA 0) ;;
      for_range 0 N (fun k (out : arr spec_float) => let i := u64_add 0 k in o <- aget out j ;; c0 <- c1_get FA (coef j) i ;; v <- c1_get FA c i ;; aset out j (nadd FA o (nmul FA c0 v))) out)
    0 nbatch out) as (o & E' & O1 & O2).
  - lia.
  - split; [exact Hout | lia].
  - intros j o Hj (O1 & O2). rewrite aset_ok by lia. cbn [rbind]. destruct (Hc j Hj) as (K1 & K2 & K3).
    assert (HM : (0 <= M)%R) by (destruct (K3 0 ltac:(lia)) as (_ & H0); eapply Rle_trans; [apply Rabs_pos | exact H0]).
    assert (HV : forall i, 0 <= i < N -> (0 <= fval (v i))%R /\ (Rabs (fval (v i) - wt d s i) <= 4 * U * wt d s i)%R) by (intros i Hi; apply C3; exact Hi).
    assert (HCF : forall i, 0 <= i < N -> (Rabs (float_coefficient (coef j) i) <= M)%R) by (intros i Hi; apply K3; exact Hi).
    assert (HA : (0 <= M * D * (1 + 4 * U) <= bpow radix2 1001)%R).
    { pose proof (su_part M (float_coefficient (coef j)) v HM HCF HV 0 ltac:(lia)) as P0. split; [eapply Rle_trans; [apply Rabs_pos | exact P0]|]. change 1001 with (1000 + 1). rewrite bpow_plus. change (bpow radix2 1) with 2%R. pose proof U_tiny.
      pose proof (bpow_gt_0 radix2 1000). apply Rle_trans with (bpow radix2 1000 * (1 + 4 * U))%R; [apply Rmult_le_compat_r; lra | apply Rmult_le_compat_l; lra]. }
    destruct (for_range_inv (fun k (o' : arr spec_float) => a_len o' = nbatch /\ (forall j', 0 <= j' < j -> a_at o' j' = a_at o j') /\ fok (a_at o' j) /\ (Rabs (fval (a_at o' j) - zsum k (fun i => float_coefficient (coef j) i * fval (v i))%R) <= IZR k * G)%R)
      (fun k (out : arr spec_float) => let i := u64_add 0 k in o <- aget out j ;; c0 <- c1_get FA (coef j) i ;; v <- c1_get FA c i ;; aset out j (nadd FA o (nmul FA c0 v)))
      0 N (mk_arr (a_len o) (upd (a_at o) j (nofz FA 0)))) as (o' & E2 & P1 & P2 & P3 & P4).
    + lia.
    + cbn [a_len a_at]. split; [exact O1|]. split; [intros j' Hj'; now rewrite upd_neq by lia|]. rewrite upd_eq. destruct (fofz_exact 0 ltac:(lia)) as (Z1 & Z2). split; [exact Z1|]. rewrite Z2. cbn [zsum]. change (zsum 0 (fun i => float_coefficient (coef j) i * fval (v i))%R) with 0%R. rewrite Rminus_0_r, Rabs_R0. lra.
    + intros k o' Hk (P1 & P2 & P3 & P4). cbn zeta. replace (u64_add 0 k) with k by (unfold u64_add; rewrite u64_small; lia).
      rewrite aget_ok by lia. cbn [rbind]. rewrite (f_c1_get (coef j) N) by (try assumption; lia). cbn [rbind]. rewrite (f_c1_get c N) by (try assumption; lia). cbn [rbind]. fold v.
      rewrite aset_ok by lia. eexists. split; [reflexivity|]. cbn [a_len a_at]. split; [exact P1|]. split; [intros j' Hj'; rewrite upd_neq by lia; now apply P2|].
      rewrite upd_eq, zsum_S by lia. cbn [nadd nmul FA].
      apply (dot_step (M * D * (1 + 4 * U))%R HA k); [lia | exact P3 | apply K3; lia | apply C3; lia | | | exact P4].
      * exact (su_one M (float_coefficient (coef j)) v HM HCF HV k ltac:(lia)).
      * pose proof (su_part M (float_coefficient (coef j)) v HM HCF HV (k + 1) ltac:(lia)) as Q. rewrite zsum_S in Q by lia. exact Q.
    + exists o'. split; [exact E2|]. split; [exact P1|]. intros j' Hj'. destruct (Z.eq_dec j' j) as [->|Nj]; [split; [exact P3 | exact P4] | rewrite P2 by lia; apply O2; lia].
  - exists o. split; [|split; [exact O1|]].
    + etransitivity; [apply (f_equal (fun r => rbind r _) Ei)|]. cbn [rbind]. exact E'.
    + intros j Hj. destruct (O2 j ltac:(lia)) as (Q1 & Q2). split; [exact Q1|]. destruct (Hc j Hj) as (K1 & K2 & K3).
      assert (HM : (0 <= M)%R) by (destruct (K3 0 ltac:(lia)) as (_ & H0); eapply Rle_trans; [apply Rabs_pos | exact H0]).
      pose proof (su_exact M (float_coefficient (coef j)) v ltac:(intros i Hi; apply K3; exact Hi) ltac:(intros i Hi; apply C3; exact Hi)) as Q3.
      replace (fval (a_at o j) - zsum N (fun i => float_coefficient (coef j) i * wt d s i))%R with
        ((fval (a_at o j) - zsum N (fun i => float_coefficient (coef j) i * fval (v i))) + (zsum N (fun i => float_coefficient (coef j) i * fval (v i)) - zsum N (fun i => float_coefficient (coef j) i * wt d s i)))%R by ring.
      eapply Rle_trans; [apply Rabs_triang|]. eapply Rle_trans; [apply Rplus_le_compat; [exact Q2 | exact Q3]|]. unfold G.
      assert (HD : (0 <= M * D)%R). { apply Rmult_le_pos; [exact HM|]. rewrite <- op_sum. apply zsum_nonneg. intros i Hi. apply wt_pos. exact Hi. }
      assert (NU : (IZR N * (12 * U) <= 1)%R).
      { apply Rle_trans with (IZR (2 ^ 31) * (12 * U))%R; [apply Rmult_le_compat_r; [pose proof U_pos; lra | apply IZR_le; lia]|]. assert (EU : (IZR (2 ^ 31) * U = / IZR (2 ^ 22))%R) by (unfold U; change (2 ^ 53) with (2 ^ 31 * 2 ^ 22); rewrite mult_IZR; field; split; apply not_0_IZR; lia).
        replace (IZR (2 ^ 31) * (12 * U))%R with (12 * (IZR (2 ^ 31) * U))%R by ring. rewrite EU. assert (/ IZR (2 ^ 22) <= / 12)%R by (apply Rinv_le_contravar; [lra | apply IZR_le; lia]). lra. }
      rewrite plus_IZR, !mult_IZR. set (X := (M * D)%R) in *. pose proof U_pos. assert (XU : (0 <= X * U)%R) by (apply Rmult_le_pos; lra).
      assert (Y : (X * U * (IZR N * (12 * U)) <= X * U * 1)%R) by (apply Rmult_le_compat_l; assumption).
      replace (IZR N * (3 * U * (X * (1 + 4 * U)) + 3 * E) + X * (4 * U))%R with (X * U * (3 * IZR N) + X * U * (IZR N * (12 * U)) + 4 * (X * U) + 3 * IZR N * E)%R by ring.
      replace (X * ((3 * IZR N + 5) * U) + 3 * IZR N * E)%R with (X * U * (3 * IZR N) + X * U * 1 + 4 * (X * U) + 3 * IZR N * E)%R by ring. lra.
Qed.
End Float.
