(** Splines on non-uniform cells in binary64, compared with the exact spline on the knots that are held. *)
From Coq Require Import Bool Reals Lia Lra Psatz ZifyBool List Floats.SpecFloat.
From Flocq Require Import Core.
From Verif Require Import BSplineModel BSplineSpec LoopProofs BSplineMath BSplineDeriv BSplineProofs BSplineUniform SamplingSpec SamplingProofs CellProofs IntegralProofs EvaluatorSpec EvaluatorProofs FloatLink FloatCell FloatCell2 FloatCell3
  FloatBasis FloatStep FloatNonUniform FloatKnots FloatSpec FloatNonUniformSpec FloatEval.
Import ListNotations.
Local Open Scope bool_scope. Local Open Scope Z_scope.

Definition B900 : R := bpow radix2 900.
Lemma B900_big : (1 <= B900)%R.
Proof. unfold B900. change 1%R with (bpow radix2 0). apply bpow_le. lia. Qed.
Lemma grow y P m : (0 <= m <= 4001)%R -> (Rabs y <= B900 * m)%R -> (Rabs P <= B900 * 2)%R -> (Rabs (rnd (y + P)) <= B900 * (m + 4))%R.
Proof.
  intros Hm Hy HP. pose proof B900_big as B. pose proof (rnd_error (y + P)) as D. pose proof U_tiny as HU. pose proof E_pos as HE. pose proof E_small as ES.
  assert (E1 : (E <= 1)%R) by (unfold E; change 1%R with (bpow radix2 0); apply bpow_le; lia).
  assert (Z : (Rabs (y + P) <= B900 * (m + 2))%R) by (eapply Rle_trans; [apply Rabs_triang|]; lra).
  assert (UZ : (U * Rabs (y + P) <= / 1000000 * (B900 * (m + 2)))%R) by (apply Rmult_le_compat; try lra; apply Rabs_pos).
  assert (Bm : (/ 1000000 * (B900 * (m + 2)) <= B900)%R) by (replace (/ 1000000 * (B900 * (m + 2)))%R with (B900 * (/ 1000000 * (m + 2)))%R by ring; rewrite <- (Rmult_1_r B900) at 2; apply Rmult_le_compat_l; lra).
  replace (rnd (y + P)) with ((y + P) + (rnd (y + P) - (y + P)))%R by ring. eapply Rle_trans; [apply Rabs_triang|]. lra.
Qed.
Lemma B900_small z m : (0 <= m <= 8000)%R -> (Rabs z <= B900 * m)%R -> (Rabs z <= bpow radix2 913)%R.
Proof.
  intros Hm H. eapply Rle_trans; [exact H|]. replace 913 with (900 + 13) by lia. rewrite bpow_plus. change (bpow radix2 13) with 8192%R. apply Rmult_le_compat_l; [apply bpow_ge_0 | lra].
Qed.

Section Float.
Variables (junk : Z -> spec_float) (d : Z) (periodic : bool) (l : list spec_float).
Hypothesis HF : float_cells d l.
Let n := Z.of_nat (length l).
Let z := S754_zero false.
Lemma nu_nth k : (k < length l)%nat -> nth_error l k = Some (nth k l z).
Proof. intros. now apply nth_error_nth'. Qed.
Lemma nu_d : 1 <= d <= 1000 /\ 2 <= n /\ n + 2 * d < 2 ^ 31.
Proof. destruct HF as (H1 & H2 & H3 & _). unfold n. lia. Qed.
Lemma nu_break k : (k < length l)%nat -> fok (nth k l z) /\ (Rabs (fval (nth k l z)) <= B900)%R.
Proof. intros Hk. destruct HF as (_ & _ & _ & H & _). apply H. now apply nth_In. Qed.
Lemma nu_gap k : (S k < length l)%nat -> (bpow radix2 (-900) <= fval (nth (S k) l z) - fval (nth k l z))%R.
Proof. intros Hk. destruct HF as (_ & _ & _ & _ & H). apply (H k); apply nu_nth; lia. Qed.
Lemma nu_lt i j : (i < j)%nat -> (j < length l)%nat -> (fval (nth i l z) < fval (nth j l z))%R.
Proof.
  induction j as [|j IH]; [lia|]. intros Hij Hj. pose proof (nu_gap j Hj) as G. pose proof (bpow_gt_0 radix2 (-900)). destruct (Nat.eq_dec i j) as [->|]; [lra|]. specialize (IH ltac:(lia) ltac:(lia)). lra.
Qed.
Lemma nu_increasing : strictly_increasing (map fval l).
Proof.
  intros i j x y Hij Hx Hy. rewrite nth_error_map in Hx, Hy. destruct (nth_error l i) as [u|] eqn:E1; [|discriminate]. destruct (nth_error l j) as [v|] eqn:E2; [|discriminate].
  injection Hx as <-. injection Hy as <-. assert (Li : (i < length l)%nat) by (apply nth_error_Some; congruence). assert (Lj : (j < length l)%nat) by (apply nth_error_Some; congruence).
  rewrite (nu_nth i Li) in E1. rewrite (nu_nth j Lj) in E2. injection E1 as <-. injection E2 as <-. now apply nu_lt.
Qed.
Lemma nu_fok : Forall fok l.
Proof. apply Forall_forall. intros x Hx. destruct HF as (_ & _ & _ & H & _). now apply H. Qed.
Let x0 := nth 0 l z.
Let x1 := nth (length l - 1) l z.
Lemma nu_ends : fok x0 /\ fok x1 /\ (Rabs (fval x0) <= B900)%R /\ (Rabs (fval x1) <= B900)%R /\ (fval x0 < fval x1)%R.
Proof.
  pose proof nu_d as (_ & Hn & _). unfold n in Hn. destruct (nu_break 0 ltac:(lia)). destruct (nu_break (length l - 1) ltac:(lia)). pose proof (nu_lt 0 (length l - 1) ltac:(lia) ltac:(lia)). auto.
Qed.
Let P := SFsub 53 1024 x1 x0.
Lemma kn_period : fok P /\ (Rabs (fval P) <= B900 * 2)%R /\ exists e, (Rabs e <= U)%R /\ fval P = ((fval x1 - fval x0) * (1 + e))%R.
Proof.
  destruct nu_ends as (H0 & H1 & B0 & B1 & _). pose proof (dif_bnd 900 _ _ B1 B0) as B. destruct (fsub_ok x1 x0 H1 H0) as (O1 & O2); [apply (bnd_ok 901); [lia | exact B]|].
  split; [exact O1|]. unfold P. split.
  - rewrite O2. pose proof (rnd_bnd _ 901 ltac:(lia) B) as G. replace (B900 * 2)%R with (bpow radix2 901) by (unfold B900; change 901 with (900 + 1); rewrite bpow_plus; reflexivity). exact G.
  - destruct (rnd_dif _ _ (F_fval x1 H1) (F_fval x0 H0)) as (e & He & EQ). exists e. split; [exact He|]. rewrite O2. exact EQ.
Qed.
(** *** the array of knots *)
Section Knots.
Variable a : arr spec_float.
Hypothesis Ka : keeps FA l d a.
Hypothesis Ho : forall i, 1 <= i <= d -> outer FA l d periodic a i.
Lemma kn_len : a_len a = n + 2 * d.
Proof. apply Ka. Qed.
Lemma kn_coord k : 0 <= k < n + 2 * d -> nb_coord FA (mk_nb FA d periodic (mk_ns FA (arr_list a) 0) (n + 2 * d) d n) k = Ok (a_at a k).
Proof. intros Hk. pose proof nu_d as (_ & _ & Hbig). exact (g_coord FA l d Hbig a periodic k kn_len Hk). Qed.
Lemma kn_break k : (k < length l)%nat -> a_at a (d + Z.of_nat k) = nth k l z.
Proof. intros Hk. apply Ka. now apply nu_nth. Qed.
Lemma kn_first : a_at a d = x0.
Proof. pose proof nu_d as (_ & Hn & _). unfold n in Hn. unfold x0. rewrite <- (kn_break 0) by lia. f_equal. lia. Qed.
Lemma kn_last : a_at a (d + (n - 1)) = x1.
Proof. pose proof nu_d as (_ & Hn & _). unfold n in *. unfold x1. rewrite <- (kn_break (length l - 1)) by lia. f_equal. lia. Qed.
Lemma kn_good i : 0 <= i <= d -> forall k, d - i <= k <= d + (n - 1) + i -> fok (a_at a k) /\ (Rabs (fval (a_at a k)) <= B900 * (1 + 4 * IZR i))%R.
Proof.
  intros Hi. pose proof nu_d as (Hd & Hn & _). pose proof B900_big as BB. assert (i0 : 0 <= i) by lia. revert Hi. pattern i. apply natlike_ind; [| |exact i0].
  - intros _ k Hk. replace k with (d + Z.of_nat (Z.to_nat (k - d))) by lia. rewrite kn_break by (unfold n in Hk; lia). destruct (nu_break (Z.to_nat (k - d))) as (G1 & G2); [unfold n in Hk; lia|]. split; [exact G1 | lra].
  - clear i i0. intros i i0 IH Hi k Hk. rewrite <- Z.add_1_r in *. specialize (IH ltac:(lia)). assert (I : (0 <= IZR i <= 1000)%R) by (split; apply IZR_le; lia).
    destruct (Z_le_gt_dec (d - i) k) as [L|L].
    + destruct (Z_le_gt_dec k (d + (n - 1) + i)) as [L'|L'].
      * destruct (IH k ltac:(lia)) as (G1 & G2). split; [exact G1|]. rewrite plus_IZR. assert (B900 * (1 + 4 * IZR i) <= B900 * (1 + 4 * (IZR i + 1)))%R by (apply Rmult_le_compat_l; lra). lra.
      * replace k with (d + (n - 1) + (i + 1)) by lia. pose proof (Ho (i + 1) ltac:(lia)) as O. unfold outer in O. change (num FA) with spec_float in O. fold n in O. rewrite kn_first, kn_last in O. destruct (Bool.bool_dec periodic true) as [Hp|Hp]; [|apply Bool.not_true_is_false in Hp]; rewrite Hp in O.
        -- destruct O as (_ & O). cbn [nadd nsub FA] in O. fold P in O. destruct (IH (d + (i + 1)) ltac:(lia)) as (G1 & G2). destruct kn_period as (P1 & P2 & _).
           pose proof (grow _ _ (1 + 4 * IZR i)%R ltac:(lra) G2 P2) as G. destruct (fadd_ok _ P G1 P1) as (S1 & S2).
           { eapply Rle_lt_trans; [eapply (B900_small _ _); [|exact G]; lra | apply bpow_lt; lia]. }
           change (num FA) with spec_float in *. rewrite O. split; [exact S1|]. rewrite S2, plus_IZR. eapply Rle_trans; [exact G|]. apply Rmult_le_compat_l; lra.
        -- destruct O as (_ & O). change (num FA) with spec_float in *. rewrite O. destruct nu_ends as (_ & H1 & _ & B1 & _). split; [exact H1|]. rewrite <- (Rmult_1_r B900) in B1. eapply Rle_trans; [exact B1|].
           rewrite plus_IZR. apply Rmult_le_compat_l; lra.
    + replace k with (d - (i + 1)) by lia. pose proof (Ho (i + 1) ltac:(lia)) as O. unfold outer in O. change (num FA) with spec_float in O. fold n in O. rewrite kn_first, kn_last in O. destruct (Bool.bool_dec periodic true) as [Hp|Hp]; [|apply Bool.not_true_is_false in Hp]; rewrite Hp in O.
      * destruct O as (O & _). cbn [nadd nsub FA] in O. fold P in O. destruct (IH (d + (n - 1) - (i + 1)) ltac:(lia)) as (G1 & G2). destruct kn_period as (P1 & P2 & _).
        assert (P2' : (Rabs (- fval P) <= B900 * 2)%R) by now rewrite Rabs_Ropp. pose proof (grow _ _ (1 + 4 * IZR i)%R ltac:(lra) G2 P2') as G. destruct (fsub_ok _ P G1 P1) as (S1 & S2).
        { eapply Rle_lt_trans; [eapply (B900_small _ _); [|exact G]; lra | apply bpow_lt; lia]. }
        change (num FA) with spec_float in *. rewrite O. split; [exact S1|]. rewrite S2, plus_IZR. eapply Rle_trans; [exact G|]. apply Rmult_le_compat_l; lra.
      * destruct O as (O & _). change (num FA) with spec_float in *. rewrite O. destruct nu_ends as (H0 & _ & B0 & _). split; [exact H0|]. rewrite <- (Rmult_1_r B900) in B0. eapply Rle_trans; [exact B0|].
        rewrite plus_IZR. apply Rmult_le_compat_l; lra.
Qed.
Lemma kn_ok k : 0 <= k < n + 2 * d -> fok (a_at a k) /\ (Rabs (fval (a_at a k)) <= bpow radix2 919)%R.
Proof.
  intros Hk. pose proof nu_d as (Hd & Hn & _). destruct (kn_good d ltac:(lia) k ltac:(lia)) as (G1 & G2). split; [exact G1|]. assert (0 <= IZR d <= 1000)%R by (split; apply IZR_le; lia).
  eapply Rle_trans; [eapply B900_small; [|exact G2]; lra | apply bpow_le; lia].
Qed.
Lemma kn_sorted : is_sorted FA (arr_list a) = true -> forall i j, 0 <= i <= j -> j < n + 2 * d -> (fval (a_at a i) <= fval (a_at a j))%R.
Proof.
  intros Hs. pose proof (proj1 (sorted_at FA a) Hs) as G. pose proof kn_len as La. change (num FA) with spec_float in *. rewrite La in G.
  intros i j Hij Hj. assert (i0 : 0 <= i) by lia. assert (E : forall m, 0 <= m -> i + m < n + 2 * d -> (fval (a_at a i) <= fval (a_at a (i + m)))%R); [|specialize (E (j - i) ltac:(lia) ltac:(lia)); replace (i + (j - i)) with j in E by ring; exact E].
  clear j Hij Hj. intros m m0. pattern m. apply natlike_ind; [intros; rewrite Z.add_0_r; lra| |exact m0]. clear m m0. intros m m0 IH Hj. rewrite <- Z.add_1_r in *. specialize (IH ltac:(lia)).
  specialize (G (i + m) ltac:(lia) ltac:(lia)). cbn [nltb FA] in G. rewrite fltb_ok in G by (apply kn_ok; lia). unfold R_ltb in G.
  replace (i + (m + 1)) with (i + m + 1) by ring. destruct (Rlt_dec (fval (a_at a (i + m + 1))) (fval (a_at a (i + m)))); [discriminate | lra].
Qed.
Lemma kn_sub i : periodic = true -> 1 <= i <= d -> fval (a_at a (d - i)) = rnd (fval (a_at a (d + (n - 1) - i)) - fval P).
Proof.
  intros Hp Hi. pose proof nu_d as (Hd & Hn & _). pose proof (Ho i Hi) as O. unfold outer in O. change (num FA) with spec_float in O. fold n in O. rewrite kn_first, kn_last, Hp in O. destruct O as (O & _). cbn [nsub FA] in O. fold P in O.
  destruct (kn_ok (d + (n - 1) - i) ltac:(lia)) as (G1 & G2). destruct kn_period as (P1 & P2 & _). change (num FA) with spec_float in *. rewrite O. apply fsub_ok; try assumption.
  apply (bnd_ok 920); [lia|]. apply (dif_bnd 919); [exact G2|]. eapply Rle_trans; [eapply (B900_small _ 2); [lra | exact P2] | apply bpow_le; lia].
Qed.
Lemma kn_add i : periodic = true -> 1 <= i <= d -> fval (a_at a (d + (n - 1) + i)) = rnd (fval (a_at a (d + i)) + fval P).
Proof.
  intros Hp Hi. pose proof nu_d as (Hd & Hn & _). pose proof (Ho i Hi) as O. unfold outer in O. change (num FA) with spec_float in O. fold n in O. rewrite kn_first, kn_last, Hp in O. destruct O as (_ & O). cbn [nadd nsub FA] in O. fold P in O.
  destruct (kn_ok (d + i) ltac:(lia)) as (G1 & G2). destruct kn_period as (P1 & P2 & _). change (num FA) with spec_float in *. rewrite O. apply fadd_ok; try assumption.
  apply (bnd_ok 920); [lia|]. replace (fval (a_at a (d + i)) + fval P)%R with (fval (a_at a (d + i)) - - fval P)%R by ring. apply (dif_bnd 919); [exact G2|].
  rewrite Rabs_Ropp. eapply Rle_trans; [eapply (B900_small _ 2); [lra | exact P2] | apply bpow_le; lia].
Qed.
Lemma kn_open i : periodic = false -> 1 <= i <= d -> a_at a (d - i) = x0 /\ a_at a (d + (n - 1) + i) = x1.
Proof.
  intros Hp Hi. pose proof (Ho i Hi) as O. unfold outer in O. change (num FA) with spec_float in O. fold n in O. rewrite kn_first, kn_last, Hp in O. exact O.
Qed.
Hypothesis Hends : periodic = false \/ ((fval x1 - fval x0) / IZR (2 ^ 53) <= fval (nth 1 l z) - fval x0 /\ (fval x1 - fval x0) / IZR (2 ^ 53) <= fval x1 - fval (nth (length l - 2) l z))%R.
Lemma kn_steps i : 0 <= i <= d -> forall k, d - i <= k < d + (n - 1) + i -> (fval (a_at a k) <= fval (a_at a (k + 1)%Z))%R.
Proof.
  intros Hi. pose proof nu_d as (Hd & Hn & _). assert (i0 : 0 <= i) by lia. revert Hi. pattern i. apply natlike_ind; [| |exact i0].
  - intros _ k Hk. unfold n in Hk. replace (k + 1) with (d + Z.of_nat (S (Z.to_nat (k - d)))) by lia. replace k with (d + Z.of_nat (Z.to_nat (k - d))) at 1 by lia. rewrite !kn_break by lia. left. apply nu_lt; lia.
  - clear i i0. intros i i0 IH Hi k Hk. rewrite <- Z.add_1_r in *. specialize (IH ltac:(lia)).
    destruct (Z_le_gt_dec (d - i) k) as [L|L].
    + destruct (Z_lt_ge_dec k (d + (n - 1) + i)) as [L'|L']; [apply IH; lia|].
      replace k with (d + (n - 1) + i) by lia. replace (d + (n - 1) + i + 1) with (d + (n - 1) + (i + 1)) by ring.
      destruct Hends as [Hp|[E1 E2]].
      * destruct (kn_open (i + 1) Hp ltac:(lia)) as (_ & ->). destruct (Z.eq_dec i 0) as [->|Hi0]; [rewrite Z.add_0_r, kn_last; lra|]. destruct (kn_open i Hp ltac:(lia)) as (_ & ->). lra.
      * destruct (Bool.bool_dec periodic true) as [Hp|Hp].
        -- rewrite (kn_add (i + 1) Hp) by lia. destruct (Z.eq_dec i 0) as [->|Hi0].
           ++ rewrite Z.add_0_r, kn_last. destruct nu_ends as (_ & H1 & _ & _ & H01). rewrite <- (rnd_id (fval x1) (F_fval x1 H1)). apply rnd_le.
              replace (d + (0 + 1)) with (d + Z.of_nat 1) by lia. rewrite kn_break by (unfold n in Hn; lia). destruct kn_period as (_ & _ & e & He & EP). rewrite EP.
              apply Rabs_le_inv in He. assert ((fval x1 - fval x0) * (- U) <= (fval x1 - fval x0) * e)%R by (apply Rmult_le_compat_l; lra).
              change ((fval x1 - fval x0) / IZR (2 ^ 53))%R with ((fval x1 - fval x0) * U)%R in E1. lra.
           ++ rewrite (kn_add i Hp) by lia. apply rnd_le. replace (d + (i + 1)) with (d + i + 1) by ring. pose proof (IH (d + i) ltac:(lia)). lra.
        -- apply Bool.not_true_is_false in Hp. destruct (kn_open (i + 1) Hp ltac:(lia)) as (_ & ->). destruct (Z.eq_dec i 0) as [->|Hi0]; [rewrite Z.add_0_r, kn_last; lra|]. destruct (kn_open i Hp ltac:(lia)) as (_ & ->). lra.
    + replace k with (d - (i + 1)) by lia. replace (d - (i + 1) + 1) with (d - i) by ring.
      destruct Hends as [Hp|[E1 E2]].
      * destruct (kn_open (i + 1) Hp ltac:(lia)) as (-> & _). destruct (Z.eq_dec i 0) as [->|Hi0]; [rewrite Z.sub_0_r, kn_first; lra|]. destruct (kn_open i Hp ltac:(lia)) as (-> & _). lra.
      * destruct (Bool.bool_dec periodic true) as [Hp|Hp].
        -- rewrite (kn_sub (i + 1) Hp) by lia. destruct (Z.eq_dec i 0) as [->|Hi0].
           ++ rewrite Z.sub_0_r, kn_first. destruct nu_ends as (H0 & _ & _ & _ & H01). rewrite <- (rnd_id (fval x0) (F_fval x0 H0)). apply rnd_le.
              replace (d + (n - 1) - (0 + 1)) with (d + Z.of_nat (length l - 2)) by (unfold n in *; lia). rewrite kn_break by (unfold n in Hn; lia). destruct kn_period as (_ & _ & e & He & EP). rewrite EP.
              apply Rabs_le_inv in He. assert ((fval x1 - fval x0) * (- U) <= (fval x1 - fval x0) * e)%R by (apply Rmult_le_compat_l; lra).
              change ((fval x1 - fval x0) / IZR (2 ^ 53))%R with ((fval x1 - fval x0) * U)%R in E2. lra.
           ++ rewrite (kn_sub i Hp) by lia. apply rnd_le. pose proof (IH (d + (n - 1) - (i + 1)) ltac:(lia)) as G. replace (d + (n - 1) - (i + 1) + 1) with (d + (n - 1) - i) in G by ring. lra.
        -- apply Bool.not_true_is_false in Hp. destruct (kn_open (i + 1) Hp ltac:(lia)) as (-> & _). destruct (Z.eq_dec i 0) as [->|Hi0]; [rewrite Z.sub_0_r, kn_first; lra|]. destruct (kn_open i Hp ltac:(lia)) as (-> & _). lra.
Qed.
Lemma kn_is_sorted : is_sorted FA (arr_list a) = true.
Proof.
  pose proof nu_d as (Hd & Hn & _). apply (proj2 (sorted_at FA a)). pose proof kn_len as La. change (num FA) with spec_float in *. rewrite La. intros k Hk Hk'. cbn [nltb FA]. rewrite fltb_ok by (apply kn_ok; lia).
  apply R_ltb_false. pose proof (kn_steps d ltac:(lia) k ltac:(lia)). lra.
Qed.
End Knots.
(** *** the space *)
Lemma nu_construct : exists a, keeps FA l d a /\ (forall i, 1 <= i <= d -> outer FA l d periodic a i) /\
  nb_construct FA junk d periodic l = Ok (if is_sorted FA (arr_list a) then Some (mk_nb FA d periodic (mk_ns FA (arr_list a) 0) (n + 2 * d) d n) else None).
Proof.
  pose proof nu_d as (Hd & Hn & Hbig). destruct nu_ends as (H0 & H1 & _ & _ & H01).
  apply (g_full FA l d ltac:(lia) Hn Hbig junk periodic x0 x1).
  - change (num FA) with spec_float in *. apply nu_nth. unfold n in Hn. lia.
  - change (num FA) with spec_float in *. apply nu_nth. unfold n in Hn. lia.
  - cbn [nltb FA]. rewrite fltb_ok by assumption. apply R_ltb_true. exact H01.
Qed.
Variable s : n_bsplines FA.
Hypothesis Hs : nb_construct FA junk d periodic l = Ok (Some s).
Lemma nu_space : exists a, keeps FA l d a /\ (forall i, 1 <= i <= d -> outer FA l d periodic a i) /\ is_sorted FA (arr_list a) = true /\
  s = mk_nb FA d periodic (mk_ns FA (arr_list a) 0) (n + 2 * d) d n.
Proof.
  destruct nu_construct as (a & K & O & E). rewrite Hs in E. assert (Hinj : forall x y : option (n_bsplines FA), Ok x = Ok y -> x = y) by congruence. apply Hinj in E.
  exists a. split; [exact K|]. split; [exact O|]. destruct (is_sorted FA (arr_list a)); [|discriminate]. split; [reflexivity|]. congruence.
Qed.
Notation t := (held_knots s).
Lemma sp_fields : nb_degree FA s = d /\ nb_break_front FA s = d /\ nb_break_size FA s = n /\ nb_periodic FA s = periodic.
Proof. destruct nu_space as (a & _ & _ & _ & ->). auto. Qed.
Lemma sp_coord k : 0 <= k < n + 2 * d -> nb_coord FA s k = Ok (held_knot s k).
Proof.
  intros Hk. destruct nu_space as (a & K & _ & _ & ->). unfold held_knot. match goal with |- context [nb_coord FA ?s0 k] => assert (G : nb_coord FA s0 k = Ok (a_at a k)) by exact (kn_coord a K k Hk) end. now rewrite G.
Qed.
Lemma sp_held : exists a, keeps FA l d a /\ (forall i, 1 <= i <= d -> outer FA l d periodic a i) /\ is_sorted FA (arr_list a) = true /\ forall k, 0 <= k < n + 2 * d -> held_knot s k = a_at a k.
Proof.
  destruct nu_space as (a & K & O & S & ->). exists a. split; [exact K|]. split; [exact O|]. split; [exact S|]. intros k Hk.
  unfold held_knot. match goal with |- context [nb_coord FA ?s0 k] => assert (G : nb_coord FA s0 k = Ok (a_at a k)) by exact (kn_coord a K k Hk) end. now rewrite G.
Qed.
Lemma sp_ok k : 0 <= k < n + 2 * d -> fok (held_knot s k) /\ (Rabs (t k) <= bpow radix2 919)%R.
Proof. intros Hk. destruct sp_held as (a & K & O & S & H). unfold held_knots. rewrite (H k Hk). now apply kn_ok. Qed.
Lemma sp_mono i j : 0 <= i <= j -> j < n + 2 * d -> (t i <= t j)%R.
Proof. intros Hi Hj. destruct sp_held as (a & K & O & S & H). unfold held_knots. rewrite !H by lia. now apply kn_sorted. Qed.
Lemma sp_break k : (k < length l)%nat -> held_knot s (d + Z.of_nat k) = nth k l z.
Proof. intros Hk. pose proof nu_d as (Hd & Hn & Hbig). destruct sp_held as (a & K & O & S & H). rewrite H by (unfold n; lia). now apply kn_break. Qed.
Lemma sp_width c : d <= c < d + (n - 1) -> (bpow radix2 (-900) <= t (c + 1)%Z - t c)%R.
Proof.
  intros Hc. unfold n in Hc. pose proof (nu_gap (Z.to_nat (c - d)) ltac:(lia)) as G. unfold held_knots. replace (c + 1) with (d + Z.of_nat (S (Z.to_nat (c - d)))) by lia. replace c with (d + Z.of_nat (Z.to_nat (c - d))) at 2 by lia.
  rewrite !sp_break by lia. exact G.
Qed.
Lemma sp_cell c : d <= c < d + (n - 1) -> (t c < t (c + 1)%Z)%R.
Proof. intros Hc. pose proof (sp_width c Hc). pose proof (bpow_gt_0 radix2 (-900)). lra. Qed.
Lemma sp_first : t d = fval x0.
Proof. pose proof nu_d as (_ & Hn & _). unfold n in Hn. unfold held_knots, x0. rewrite <- (sp_break 0) by lia. do 2 f_equal. lia. Qed.
Lemma sp_last : t (d + (n - 1)) = fval x1.
Proof. pose proof nu_d as (_ & Hn & _). unfold n in *. unfold held_knots, x1. rewrite <- (sp_break (length l - 1)) by lia. do 2 f_equal. lia. Qed.
Lemma sp_back : nb_break_back FA s = d + (n - 1).
Proof.
  pose proof nu_d as (Hd & Hn & Hbig). destruct sp_fields as (_ & S2 & S3 & _). unfold nb_break_back. rewrite S2, S3. unfold u64_add, u64_sub. rewrite (u64_small n) by lia. rewrite (u64_small (n - 1)) by lia. rewrite u64_small; lia.
Qed.
Lemma sp_rmin : nb_rmin FA s = Ok (x0 : num FA).
Proof.
  pose proof nu_d as (Hd & Hn & Hbig). destruct sp_fields as (_ & S2 & _ & _). unfold nb_rmin. rewrite S2, sp_coord by lia.
  assert (G : held_knot s d = x0) by (unfold x0; rewrite <- (sp_break 0) by (unfold n in Hn; lia); f_equal; lia). now rewrite G.
Qed.
Lemma sp_rmax : nb_rmax FA s = Ok (x1 : num FA).
Proof.
  pose proof nu_d as (Hd & Hn & Hbig). unfold nb_rmax. rewrite sp_back, sp_coord by lia.
  assert (G : held_knot s (d + (n - 1)) = x1) by (unfold x1; rewrite <- (sp_break (length l - 1)) by (unfold n in Hn; lia); f_equal; unfold n in *; lia). now rewrite G.
Qed.
Lemma B936 y : (Rabs y <= B900)%R -> (Rabs y <= bpow radix2 936)%R.
Proof. intros H. eapply Rle_trans; [exact H|]. apply bpow_le. lia. Qed.
(** The cell of a point. *)
Lemma sp_nb_cell x : fok x -> (fval x0 <= fval x <= fval x1)%R ->
  exists c, nb_cell FA s x = Ok c /\ d <= c < d + (n - 1) /\ ((t c <= fval x < t (c + 1)%Z)%R \/ (fval x = fval x1 /\ c = d + (n - 1) - 1)).
Proof.
  intros Hx Hin. pose proof nu_d as (Hd & Hn & Hbig). destruct nu_ends as (H0 & H1 & B0 & B1 & H01). pose proof (assert_ok x x0 x1 Hx H0 H1 (B936 _ B0) (B936 _ B1) Hin) as HA.
  destruct (nu_float_cell junk d periodic l s x ltac:(lia) ltac:(unfold n in Hn; lia) Hbig nu_fok nu_increasing Hx Hs HA) as (cn & Ef & Hc & C1 & C2 & C3).
  assert (Hv : forall k, (k < length l)%nat -> nth k (map fval l) 0%R = t (d + Z.of_nat k)).
  { intros k Hk. unfold held_knots. rewrite sp_break by exact Hk. rewrite (nth_indep (map fval l) 0%R (fval z)) by (rewrite map_length; lia). apply map_nth. }
  rewrite (Hv 0%nat), (Hv (length l - 1)%nat), (Hv cn), (Hv (cn + 1)%nat) in C1 by lia. rewrite (Hv 0%nat) in C2 by lia. rewrite (Hv (length l - 1)%nat) in C3 by lia. set (c := d + Z.of_nat cn) in *.
  assert (E0 : t (d + Z.of_nat 0) = fval x0) by (rewrite <- sp_first; f_equal; lia). assert (E1 : t (d + Z.of_nat (length l - 1)) = fval x1) by (rewrite <- sp_last; f_equal; unfold n in *; lia).
  rewrite E0, E1 in *. replace (d + Z.of_nat (cn + 1)) with (c + 1) in * by (unfold c; lia).
  assert (Rc : d <= c < d + (n - 1)) by (unfold c, n; lia).
  assert (Cx : (t c <= fval x < t (c + 1)%Z)%R \/ (fval x = fval x1 /\ c = d + (n - 1) - 1)).
  { destruct (Rlt_dec (fval x) (fval x1)) as [L|L]; [left; apply C1; lra|]. right. split; [lra|]. unfold c, n. rewrite (C3 ltac:(lra)). lia. }
  assert (Cc : (t c <= fval x <= t (c + 1)%Z)%R).
  { destruct Cx as [?|[X1 X2]]; [lra|]. pose proof (sp_cell c Rc) as G. rewrite X2 in G |- *. replace (d + (n - 1) - 1 + 1) with (d + (n - 1)) in * by ring. rewrite sp_last in *. lra. }
  exists c. split; [|split; [exact Rc | exact Cx]]. unfold nb_cell. rewrite sp_rmin, sp_rmax. cbn [rbind]. rewrite HA. unfold assert_ at 1. rewrite Ef. cbn [rbind].
  rewrite sp_coord by lia. cbn [rbind]. replace (u64_add c 1) with (c + 1) by (unfold u64_add; rewrite u64_small; lia). rewrite sp_coord by lia. cbn [rbind].
  destruct sp_fields as (_ & -> & _ & _). rewrite sp_back. replace (d <=? c) with true by lia. replace (c <=? d + (n - 1)) with true by lia. cbn [andb nleb nsub nmul FA]. unfold assert_.
  destruct (sp_ok c ltac:(lia)) as (K1 & K2). destruct (sp_ok (c + 1) ltac:(lia)) as (K3 & K4). destruct kn_period as (P1 & P2 & _). destruct tolerance_ok as (T1 & T2).
  assert (Bx : (Rabs (fval x) <= bpow radix2 919)%R) by (apply Rabs_le_inv in K2; apply Rabs_le_inv in K4; apply Rabs_le; lra).
  assert (P0 : (0 <= fval P)%R) by (destruct (fsub_ok x1 x0 H1 H0) as (_ & O2); [apply (bnd_ok 901); [lia | exact (dif_bnd 900 _ _ B1 B0)] | unfold P; rewrite O2; apply rnd_pos; lra]).
  destruct (fmul_ok P (tolerance FA) P1 T1) as (M1 & M2).
  { apply (bnd_ok 913); [lia|]. apply (B900_small _ 2); [lra|]. rewrite Rabs_mult. apply Rle_trans with (B900 * 2 * 1)%R; [|lra]. apply Rmult_le_compat; try apply Rabs_pos; [exact P2 | rewrite Rabs_pos_eq; lra]. }
  assert (M0 : (0 <= fval (SFmul 53 1024 P (tolerance FA)))%R) by (rewrite M2; apply rnd_pos, Rmult_le_pos; lra).
  destruct (fsub_ok (held_knot s c) x K1 Hx) as (X1 & X2); [apply (bnd_ok 920); [lia | exact (dif_bnd 919 _ _ K2 Bx)]|].
  destruct (fsub_ok x (held_knot s (c + 1)) Hx K3) as (Y1 & Y2); [apply (bnd_ok 920); [lia | exact (dif_bnd 919 _ _ Bx K4)]|].
  assert (Z : rnd 0 = 0%R) by (apply (rnd_int 0); lia). fold (held_knots s c) in X2. fold (held_knots s (c + 1)) in Y2.
  fold P. rewrite !fleb_ok by assumption. rewrite X2, Y2.
  assert (rnd (t c - fval x) <= 0)%R by (rewrite <- Z; apply rnd_le; lra). assert (rnd (fval x - t (c + 1)%Z) <= 0)%R by (rewrite <- Z; apply rnd_le; lra).
  rewrite !R_leb_true by lra. reflexivity.
Qed.
(** *** at a point *)
Section Point.
Variables (x : spec_float) (c : Z).
Hypothesis Hx : fok x.
Hypothesis Hc : d <= c < d + (n - 1).
Hypothesis Hxc : (t c <= fval x < t (c + 1)%Z)%R \/ (fval x = fval x1 /\ c = d + (n - 1) - 1).
Hypothesis Ecell : nb_cell FA s x = Ok c.
Lemma pt_closed : (t c <= fval x <= t (c + 1)%Z)%R.
Proof.
  destruct Hxc as [?|[X1 X2]]; [lra|]. pose proof (sp_cell c Hc) as G. rewrite X2 in G |- *. replace (d + (n - 1) - 1 + 1) with (d + (n - 1)) in * by ring. rewrite sp_last in *. lra.
Qed.
Lemma pt_bspline i : 0 <= i < (n - 1) + d -> bspline t (fval x1) (Z.to_nat d) i (fval x) = bspline_piece t c (Z.to_nat d) i (fval x).
Proof.
  intros Hi. pose proof nu_d as (Hd & Hn & Hbig). apply (bspline_is_piece t c (fval x1) (fval x) (Z.to_nat d) i 0 (n + 2 * d - 1)); try lia.
  - intros. apply sp_mono; lia.
  - destruct Hxc as [H|[E1 E2]].
    + left. split; [exact H|]. pose proof (sp_mono (c + 1) (d + (n - 1)) ltac:(lia) ltac:(lia)) as Hq. rewrite sp_last in Hq. lra.
    + right. pose proof (sp_cell c Hc) as G. split; [exact G|]. replace (c + 1) with (d + (n - 1)) by lia. rewrite sp_last. auto.
Qed.
Lemma pt_mono a b : c - d + 1 <= a <= b -> b <= c + d -> (t a <= t b)%R.
Proof. pose proof nu_d as (Hd & Hn & Hbig). intros. apply sp_mono; lia. Qed.
Lemma pt_V r : 0 <= r <= d -> V t c d r (fval x) = bspline t (fval x1) (Z.to_nat d) (c - d + r) (fval x).
Proof. intros Hr. symmetry. apply pt_bspline. lia. Qed.
Lemma pt_basis (left_ right_ : Z -> spec_float) (values : arr spec_float) : a_len values = d + 1 ->
  exists v, nb_eval_basis FA s left_ right_ values x = Ok (v, c - d) /\ a_len v = d + 1 /\ (forall r, 0 <= r < d + 1 -> fok (a_at v r) /\ (0 <= fval (a_at v r))%R) /\
    (zsum (d + 1) (fun r => Rabs (fval (a_at v r) - V t c d r (fval x))) <= neps d)%R /\ zsum (d + 1) (fun r => V t c d r (fval x)) = 1%R.
Proof.
  intros Lv. pose proof nu_d as (Hd & Hn & Hbig). destruct sp_fields as (S1 & S2 & _ & _). unfold nb_eval_basis. change (num FA) with spec_float in *. rewrite S1, Lv, Z.eqb_refl. unfold assert_. rewrite Ecell. cbn [rbind].
  rewrite (aset_ok values) by lia. cbn [rbind]. destruct (fofz_exact 1 ltac:(lia)) as (O1 & O2).
  assert (Hco : forall k, c - d + 1 <= k <= c + d -> nb_coord FA s k = Ok (held_knot s k : num FA)) by (intros; apply sp_coord; lia).
  assert (Hok : forall k, c - d + 1 <= k <= c + d -> fok (held_knot s k) /\ (Rabs (fval (held_knot s k)) <= bpow radix2 919)%R) by (intros; apply sp_ok; lia).
  destruct (nf_triangle s (held_knot s) c d x Hco ltac:(lia) ltac:(lia) Hd pt_mono (sp_cell c Hc) (sp_width c Hc) Hok Hx pt_closed d (mk_arr d left_) (mk_arr d right_)
    (mk_arr (a_len values) (upd (a_at values) 0 (nofz FA 1)))) as (l' & r' & v & EV & L & V1 & V2); try reflexivity; try (cbn [a_len]; lia).
  { exact O1. } { exact O2. }
  change (num FA) with spec_float in *. rewrite EV. cbn [rbind].
  assert (Ej : nb_first_bspline_in_cell FA s c = c - d).
  { unfold nb_first_bspline_in_cell, reference_element. rewrite S2. unfold elem_minus, u64_sub. rewrite (u64_small (c - d)) by lia. rewrite i64_small by lia. rewrite (u64_small (c - d)) by lia. unfold u64_add. rewrite u64_small; lia. }
  rewrite Ej. exists v. split; [reflexivity|]. split; [cbn [a_len] in L; lia|]. split; [intros r Hr; apply V1; lia|]. split; [exact V2|].
  exact (n_V_sum s (held_knot s) c d x Hco pt_mono (sp_cell c Hc) Hok d ltac:(lia)).
Qed.
Lemma pt_spline (cf : Z -> R) : spline t (fval x1) d (n - 1) cf (fval x) = zsum (d + 1) (fun r => cf (c - d + r)%Z * V t c d r (fval x))%R.
Proof.
  unfold spline. rewrite sum_first_zsum. pose proof nu_d as (Hd & Hn & Hbig). rewrite (zsum_part (n - 1 + d) (c - d) (d + 1)); [|lia|lia|lia|].
  - apply zsum_ext. intros r Hr. rewrite pt_V by lia. reflexivity.
  - intros i Hi Hi'. rewrite pt_bspline by lia. rewrite piece_zero by lia. ring.
Qed.
End Point.
End Float.
