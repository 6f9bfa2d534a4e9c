(** The operations of [FA] (binary64, SpecFloat) are the exact operations followed by rounding, as long as
    no result overflows.  The proofs use Flocq. *)
From Coq Require Import Reals Lra Floats.SpecFloat.
From Flocq Require Import Core BinarySingleNaN Relative.
From Verif Require Import Machine ArithModel.
Local Open Scope Z_scope.

#[local] Instance p53 : Prec_gt_0 53 := eq_refl.
#[local] Instance e1024 : Prec_lt_emax 53 1024 := eq_refl.
Notation fexp64 := (SpecFloat.fexp 53 1024).
Definition rnd (x : R) : R := round radix2 fexp64 ZnearestE x.
(** Finite binary64 numbers and their value. *)
Definition fok (x : spec_float) : Prop := valid_binary 53 1024 x = true /\ is_finite_SF x = true.
Definition fval (x : spec_float) : R := SF2R radix2 x.

Lemma round_nearest_even_equiv s m l : round_nearest_even m l = choice_mode mode_NE s m l.
Proof. case l; [reflexivity|intro c]. case c; [ | reflexivity..]. now simpl; unfold Round.cond_incr; case Z.even. Qed.
Lemma binary_round_aux_equiv sx mx ex lx :
  SpecFloat.binary_round_aux 53 1024 sx mx ex lx = binary_round_aux 53 1024 mode_NE sx mx ex lx.
Proof.
  unfold SpecFloat.binary_round_aux, binary_round_aux. set (mrse' := shr_fexp _ _ _ _ _). case mrse'; intros mrs' e'; simpl.
  now rewrite (round_nearest_even_equiv sx).
Qed.
Lemma binary_round_equiv s m e : SpecFloat.binary_round 53 1024 s m e = binary_round 53 1024 mode_NE s m e.
Proof.
  unfold SpecFloat.binary_round, binary_round, shl_align_fexp. set (mez := shl_align _ _ _); case mez as [mz ez]. apply binary_round_aux_equiv.
Qed.
Lemma binary_normalize_equiv m e szero :
  SpecFloat.binary_normalize 53 1024 m e szero = B2SF (binary_normalize 53 1024 p53 e1024 mode_NE m e szero).
Proof.
  case m as [ | p | p]; [now simpl | |]; simpl; rewrite B2SF_SF2B; apply binary_round_equiv.
Qed.
Notation bf := (binary_float 53 1024).
Lemma add_equiv (x y : bf) : SFadd 53 1024 (B2SF x) (B2SF y) = B2SF (Bplus mode_NE x y).
Proof.
  case x as [sx|sx| |sx mx ex Bx]; case y as [sy|sy| |sy my ey By]; [now (trivial || simpl; case Bool.eqb).. | ]. apply binary_normalize_equiv.
Qed.
Lemma sub_equiv (x y : bf) : SFsub 53 1024 (B2SF x) (B2SF y) = B2SF (Bminus mode_NE x y).
Proof.
  case x as [sx|sx| |sx mx ex Bx]; case y as [sy|sy| |sy my ey By]; [now (trivial || simpl; case Bool.eqb).. | ].
  simpl. unfold Zminus. rewrite <- cond_Zopp_negb. apply binary_normalize_equiv.
Qed.
Lemma mul_equiv (x y : bf) : SFmul 53 1024 (B2SF x) (B2SF y) = B2SF (Bmult mode_NE x y).
Proof.
  case x as [sx|sx| |sx mx ex Bx]; case y as [sy|sy| |sy my ey By]; [now trivial.. | ]. simpl. rewrite B2SF_SF2B. apply binary_round_aux_equiv.
Qed.
Lemma div_equiv (x y : bf) : SFdiv 53 1024 (B2SF x) (B2SF y) = B2SF (Bdiv mode_NE x y).
Proof.
  case x as [sx|sx| |sx mx ex Bx]; case y as [sy|sy| |sy my ey By]; [now (trivial || simpl; case Bool.eqb).. | ].
  simpl. rewrite B2SF_SF2B. set (melz := SFdiv_core_binary _ _ _ _ _ _). case melz as [[mz ez] lz]. apply binary_round_aux_equiv.
Qed.

Lemma fok_B x : fok x -> exists b : bf, x = B2SF b /\ is_finite b = true.
Proof. intros [H1 H2]. exists (SF2B x H1). split; [symmetry; apply B2SF_SF2B | now rewrite is_finite_SF2B]. Qed.
Lemma B_fok (b : bf) : is_finite b = true -> fok (B2SF b).
Proof. intros H. split; [apply valid_binary_B2SF | now rewrite is_finite_SF_B2SF]. Qed.
Lemma fval_B (b : bf) : fval (B2SF b) = B2R b.
Proof. apply SF2R_B2SF. Qed.
Lemma no_overflow x : (Rabs (rnd x) < bpow radix2 1024)%R -> Rlt_bool (Rabs (round radix2 fexp64 (round_mode mode_NE) x)) (bpow radix2 1024) = true.
Proof. intros H. apply Rlt_bool_true. exact H. Qed.
Lemma fadd_ok x y : fok x -> fok y -> (Rabs (rnd (fval x + fval y)) < bpow radix2 1024)%R ->
  fok (SFadd 53 1024 x y) /\ fval (SFadd 53 1024 x y) = rnd (fval x + fval y).
Proof.
  intros Hx Hy Ho. destruct (fok_B x Hx) as (a & -> & Fa). destruct (fok_B y Hy) as (b & -> & Fb). rewrite !fval_B in *. rewrite add_equiv.
  pose proof (Bplus_correct 53 1024 _ _ mode_NE a b Fa Fb) as H. rewrite no_overflow in H by exact Ho. destruct H as (H1 & H2 & _).
  split; [now apply B_fok|]. now rewrite fval_B.
Qed.
Lemma fsub_ok x y : fok x -> fok y -> (Rabs (rnd (fval x - fval y)) < bpow radix2 1024)%R ->
  fok (SFsub 53 1024 x y) /\ fval (SFsub 53 1024 x y) = rnd (fval x - fval y).
Proof.
  intros Hx Hy Ho. destruct (fok_B x Hx) as (a & -> & Fa). destruct (fok_B y Hy) as (b & -> & Fb). rewrite !fval_B in *. rewrite sub_equiv.
  pose proof (Bminus_correct 53 1024 _ _ mode_NE a b Fa Fb) as H. rewrite no_overflow in H by exact Ho. destruct H as (H1 & H2 & _).
  split; [now apply B_fok|]. now rewrite fval_B.
Qed.
Lemma fmul_ok x y : fok x -> fok y -> (Rabs (rnd (fval x * fval y)) < bpow radix2 1024)%R ->
  fok (SFmul 53 1024 x y) /\ fval (SFmul 53 1024 x y) = rnd (fval x * fval y).
Proof.
  intros Hx Hy Ho. destruct (fok_B x Hx) as (a & -> & Fa). destruct (fok_B y Hy) as (b & -> & Fb). rewrite !fval_B in *. rewrite mul_equiv.
  pose proof (Bmult_correct 53 1024 _ _ mode_NE a b) as H. rewrite no_overflow in H by exact Ho. destruct H as (H1 & H2 & _).
  rewrite Fa, Fb in H2. split; [now apply B_fok|]. now rewrite fval_B.
Qed.
Lemma fdiv_ok x y : fok x -> fok y -> fval y <> 0%R -> (Rabs (rnd (fval x / fval y)) < bpow radix2 1024)%R ->
  fok (SFdiv 53 1024 x y) /\ fval (SFdiv 53 1024 x y) = rnd (fval x / fval y).
Proof.
  intros Hx Hy Hn Ho. destruct (fok_B x Hx) as (a & -> & Fa). destruct (fok_B y Hy) as (b & -> & Fb). rewrite !fval_B in *. rewrite div_equiv.
  pose proof (Bdiv_correct 53 1024 _ _ mode_NE a b Hn) as H. rewrite no_overflow in H by exact Ho. destruct H as (H1 & H2 & _).
  rewrite Fa in H2. split; [now apply B_fok|]. now rewrite fval_B.
Qed.
Lemma fltb_ok x y : fok x -> fok y -> SFltb x y = R_ltb (fval x) (fval y).
Proof.
  intros Hx Hy. destruct (fok_B x Hx) as (a & -> & Fa). destruct (fok_B y Hy) as (b & -> & Fb). rewrite !fval_B.
  change (Bltb a b = R_ltb (B2R a) (B2R b)). rewrite Bltb_correct by auto. unfold R_ltb. destruct (Rlt_dec _ _); [now apply Rlt_bool_true|].
  apply Rlt_bool_false. lra.
Qed.
Lemma fleb_ok x y : fok x -> fok y -> SFleb x y = R_leb (fval x) (fval y).
Proof.
  intros Hx Hy. destruct (fok_B x Hx) as (a & -> & Fa). destruct (fok_B y Hy) as (b & -> & Fb). rewrite !fval_B.
  change (Bleb a b = R_leb (B2R a) (B2R b)). rewrite Bleb_correct by auto. unfold R_leb. destruct (Rle_dec _ _); [now apply Rle_bool_true|].
  apply Rle_bool_false. lra.
Qed.
Lemma fofz_ok z : (Rabs (rnd (IZR z)) < bpow radix2 1024)%R -> fok (nofz FA z) /\ fval (nofz FA z) = rnd (IZR z).
Proof.
  intros Ho. cbn [nofz FA]. rewrite binary_normalize_equiv.
  pose proof (binary_normalize_correct 53 1024 p53 e1024 mode_NE z 0 false) as H. cbv zeta in H.
  replace (F2R (Float radix2 z 0)) with (IZR z) in H by (unfold F2R; cbn [Fnum Fexp bpow]; ring).
  rewrite no_overflow in H by exact Ho. destruct H as (H1 & H2 & _). split; [now apply B_fok|]. now rewrite fval_B.
Qed.
(** ** Rounding *)
Lemma rnd_le x y : (x <= y)%R -> (rnd x <= rnd y)%R.
Proof. intros H. apply round_le; auto with typeclass_instances. apply FLT_exp_valid; reflexivity. Qed.
Lemma int_format z : Z.abs z <= 2 ^ 53 -> generic_format radix2 fexp64 (IZR z).
Proof.
  intros H. change fexp64 with (FLT_exp (SpecFloat.emin 53 1024) 53).
  destruct (Z.eq_dec (Z.abs z) (2 ^ 53)) as [E|E].
  - assert (Hz : z = 2 ^ 53 \/ z = - 2 ^ 53) by lia.
    assert (G : generic_format radix2 (FLT_exp (SpecFloat.emin 53 1024) 53) (IZR (2 ^ 53))).
    { change (IZR (2 ^ 53)) with (IZR (Zpower radix2 53)). rewrite IZR_Zpower by lia. apply generic_format_bpow. cbv. discriminate. }
    destruct Hz as [->| ->]; [exact G|]. rewrite opp_IZR. now apply generic_format_opp.
  - apply generic_format_FLT. exists (Float radix2 z 0).
    + unfold F2R; cbn [Fnum Fexp bpow]; ring.
    + cbn [Fnum]. change (radix2 ^ 53) with (2 ^ 53). lia.
    + cbn [Fexp]. cbv. discriminate.
Qed.
Lemma rnd_int z : Z.abs z <= 2 ^ 53 -> rnd (IZR z) = IZR z.
Proof. intros H. apply round_generic; auto with typeclass_instances. now apply int_format. Qed.
Lemma fval_format x : fok x -> generic_format radix2 fexp64 (fval x).
Proof. intros Hx. destruct (fok_B x Hx) as (a & -> & Fa). rewrite fval_B. apply generic_format_B2R. Qed.
Lemma rnd_fval x : fok x -> rnd (fval x) = fval x.
Proof. intros. apply round_generic; auto with typeclass_instances. now apply fval_format. Qed.
Lemma bpow1024_big : (IZR (2 ^ 100) < bpow radix2 1024)%R.
Proof. change (IZR (2 ^ 100)) with (IZR (Zpower radix2 100)). rewrite IZR_Zpower by lia. apply bpow_lt. lia. Qed.
Lemma rnd_abs_le x z : 0 <= z <= 2 ^ 53 -> (Rabs x <= IZR z)%R -> (Rabs (rnd x) <= IZR z)%R.
Proof.
  intros Hz Hx. apply Rabs_le. apply Rabs_le_inv in Hx. split.
  - rewrite <- (rnd_int z) by lia. replace (- rnd (IZR z))%R with (rnd (IZR (- z))) by (rewrite !rnd_int by lia; now rewrite opp_IZR).
    apply rnd_le. rewrite opp_IZR. lra.
  - rewrite <- (rnd_int z) by lia. apply rnd_le. lra.
Qed.
Lemma rnd_small x z : 0 <= z <= 2 ^ 53 -> (Rabs x <= IZR z)%R -> (Rabs (rnd x) < bpow radix2 1024)%R.
Proof.
  intros Hz Hx. eapply Rle_lt_trans; [now apply (rnd_abs_le x z)|]. eapply Rle_lt_trans; [|apply bpow1024_big]. apply IZR_le. lia.
Qed.
Lemma fofz_exact z : Z.abs z <= 2 ^ 53 -> fok (nofz FA z) /\ fval (nofz FA z) = IZR z.
Proof.
  intros H. assert (G : fok (nofz FA z) /\ fval (nofz FA z) = rnd (IZR z)); [|now rewrite (rnd_int z H) in G]. apply fofz_ok. apply (rnd_small _ (2 ^ 53)); [lia|]. rewrite <- abs_IZR. now apply IZR_le.
Qed.
Lemma rnd_rel x : (bpow radix2 (-1022) <= Rabs x)%R -> exists d, (Rabs d <= / 2 * bpow radix2 (-52))%R /\ rnd x = (x * (1 + d))%R.
Proof.
  intros H. pose proof (relative_error_N_FLT_ex radix2 (SpecFloat.emin 53 1024) 53 ltac:(reflexivity) (fun z => negb (Z.even z)) x) as (d & Hd & E).
  - exact H.
  - exists d. split; [exact Hd|exact E].
Qed.
(** Conversion to an integer. *)
Lemma ftrunc_ok x : fok x -> F_trunc x = Ztrunc (fval x).
Proof.
  intros [Hv Hf]. destruct x as [s|s| |s m e]; try discriminate; cbn [F_trunc fval SF2R].
  - unfold fval. cbn. now rewrite (Ztrunc_IZR 0).
  - assert (E : F_trunc (S754_finite false m e) = Ztrunc (F2R (Float radix2 (Zpos m) e))).
    { rewrite Ztrunc_floor by (apply F2R_ge_0; cbn; lia). cbn [F_trunc]. destruct (Z.leb_spec 0 e) as [He|He].
      - rewrite <- (Zfloor_IZR (Zpos m * 2 ^ e)). f_equal. unfold F2R. cbn [Fnum Fexp]. rewrite mult_IZR. f_equal. symmetry. now rewrite <- (IZR_Zpower radix2 e He).
      - symmetry. rewrite <- (Zfloor_div (Zpos m) (2 ^ (- e))) by (apply Z.pow_nonzero; lia). f_equal. unfold F2R. cbn [Fnum Fexp]. unfold Rdiv. f_equal.
        change (2 ^ (- e)) with (Zpower radix2 (- e)). rewrite IZR_Zpower by lia. now rewrite <- bpow_opp, Z.opp_involutive. }
    destruct s; cbn [cond_Zopp]; [|exact E]. cbn [F_trunc] in *. change (Z.neg m) with (- Zpos m). rewrite F2R_Zopp, Ztrunc_opp. now rewrite <- E.
Qed.
