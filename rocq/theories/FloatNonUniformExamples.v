(** Spaces on non-uniform cells in binary64 that meet the hypotheses, and break points that the constructor does not accept. *)
From Coq Require Import Bool Reals Lia Lra ZifyBool List Floats.SpecFloat.
From Flocq Require Import Core IEEE754.BinarySingleNaN.
From Verif Require Import BSplineModel EvaluatorModel EvaluatorSpec FloatLink FloatCell2 FloatCell3 FloatSpec FloatNonUniformSpec FloatExamples.
Import ListNotations.
Local Open Scope Z_scope.

Definition breaks_ex : list spec_float := map (nofz FA) [0; 1; 3; 7; 12].
Lemma tiny_gap : (bpow radix2 (-900) <= 1)%R.
Proof. change 1%R with (bpow radix2 0). apply bpow_le. lia. Qed.
Lemma bpow_64 : (64 <= bpow radix2 900)%R.
Proof. replace 64%R with (bpow radix2 6) by reflexivity. apply bpow_le. lia. Qed.
Lemma cells_ex : float_cells 3 breaks_ex.
Proof.
  pose proof tiny_gap as T. pose proof bpow_64 as B.
  split; [lia|]. split; [cbn; lia|]. split; [cbn; lia|]. split.
  - assert (G : forall z, 0 <= z <= 12 -> fok (nofz FA z) /\ (Rabs (fval (nofz FA z)) <= bpow radix2 900)%R).
    { intros z Hz. destruct (fofz_exact z ltac:(lia)) as (G1 & G2). split; [exact G1|]. rewrite G2, <- abs_IZR. apply Rle_trans with 64%R; [apply IZR_le; lia | exact B]. }
    intros x [<-|[<-|[<-|[<-|[<-|[]]]]]]; apply G; lia.
  - assert (G : forall z w, 0 <= z -> z < w <= 12 -> (bpow radix2 (-900) <= fval (nofz FA w) - fval (nofz FA z))%R).
    { intros z w Hz Hw. rewrite (proj2 (fofz_exact z ltac:(lia))), (proj2 (fofz_exact w ltac:(lia))), <- minus_IZR. apply Rle_trans with 1%R; [exact T | apply IZR_le; lia]. }
    intros k x y Hx Hy. destruct k as [|[|[|[|k]]]]; cbn [nth_error breaks_ex map] in Hx, Hy; try (assert (E : forall u v : spec_float, Some u = Some v -> u = v) by congruence; apply E in Hx, Hy; rewrite <- Hx, <- Hy; apply G; lia).
    destruct k; discriminate.
Qed.
Lemma wide_ex : wide_ends breaks_ex.
Proof.
  unfold wide_ends, first_break, last_break. cbn [breaks_ex map length nth Nat.sub]. rewrite !(fun z H => proj2 (fofz_exact z H)) by lia.
  assert (/ IZR (2 ^ 53) <= / 1000)%R by (apply Rinv_le_contravar; [lra | apply IZR_le; lia]). unfold Rdiv. lra.
Qed.
Definition cells_coefs_ex : chunk_1d FA := mk_chunk_1d FA 0 (mk_arr 7 (fun i => nofz FA (100 + i) : num FA)).
Lemma cells_coefs_ok : float_coefficients cells_coefs_ex (cells breaks_ex + 3) 112.
Proof.
  split; [reflexivity|]. split; [reflexivity|]. change (cells breaks_ex + 3) with 7. intros i Hi. cbn [cells_coefs_ex c1_vals a_at]. destruct (fofz_exact (100 + i) ltac:(lia)) as (A1 & A2). split; [exact A1|].
  rewrite A2, <- abs_IZR. apply IZR_le. lia.
Qed.
(** The cell, and the value times [z], truncated *)
Definition cells_scaled_ex (periodic : bool) (z : Z) (x : spec_float) : option (Z * Z) :=
  match nb_construct FA (fun _ => S754_nan) 3 periodic breaks_ex with
  | Ok (Some s) => match nb_cell FA s x, eval FA (NonUniform s) memory_ex (null_rule FA) (null_rule FA) x cells_coefs_ex with
                   | Ok c, Ok y => Some (c, ntrunc FA (nmul FA y (nofz FA z))) | _, _ => None end
  | _ => None end.
(** The break points -1, -1/2, 2^-53 - 2^-105 and 2^-53: their distances are exact, but the length is rounded to 1. *)
Definition thin_end : list spec_float := [S754_finite true 4503599627370496 (-52); S754_finite true 4503599627370496 (-53); S754_finite false 9007199254740990 (-106); S754_finite false 4503599627370496 (-105)].
Lemma thin_vals : map fval thin_end = [-1; - / 2; / IZR (2 ^ 53) - / IZR (2 ^ 105); / IZR (2 ^ 53)]%R.
Proof.
  assert (E : forall m e, 0 <= e -> F2R (Float radix2 m (- e)) = (IZR m / IZR (2 ^ e))%R) by (intros m e He; unfold F2R; cbn [Fnum Fexp]; rewrite (bpowN e He); reflexivity).
  unfold thin_end, fval. cbn [map SF2R cond_Zopp]. change (-52) with (- (52)). change (-53) with (- (53)). change (-106) with (- (106)). change (-105) with (- (105)). rewrite !E by lia.
  change (IZR (2 ^ 106)) with (IZR (2 ^ 53 * 2 ^ 53)). change (IZR (2 ^ 105)) with (IZR (2 ^ 52 * 2 ^ 53)). rewrite !mult_IZR.
  change (IZR (-4503599627370496)) with (IZR (- 2 ^ 52)). change 4503599627370496%R with (IZR (2 ^ 52)). change 9007199254740990%R with (IZR (2 ^ 53 - 2)). rewrite minus_IZR, opp_IZR. change (2 ^ 53) with (2 * 2 ^ 52). rewrite mult_IZR.
  change 4503599627370496%R with (IZR (2 ^ 52)). set (w := IZR (2 ^ 52)). assert (W : (w <> 0)%R) by (apply not_0_IZR; lia). repeat (apply (f_equal2 (@cons R)); [field; exact W|]). reflexivity.
Qed.
Lemma thin_cells : float_cells 1 thin_end.
Proof.
  pose proof thin_vals as TV. unfold thin_end in TV. cbn [map] in TV.
  match type of TV with (fval ?a :: fval ?b :: fval ?c :: fval ?e :: nil)%list = (?p :: ?q :: ?r :: ?s :: nil)%list =>
    assert (Ea : fval a = p) by congruence; assert (Eb : fval b = q) by congruence; assert (Ec : fval c = r) by congruence; assert (Ee : fval e = s) by congruence end. clear TV.
  pose proof bpow_64 as B. assert (I1 : (0 < / IZR (2 ^ 53) <= / 1000)%R) by (split; [apply Rinv_0_lt_compat, IZR_lt; lia | apply Rinv_le_contravar; [lra | apply IZR_le; lia]]).
  assert (I2 : (0 < / IZR (2 ^ 105))%R) by (apply Rinv_0_lt_compat, IZR_lt; lia). assert (I3 : (/ IZR (2 ^ 105) <= / IZR (2 ^ 53))%R) by (apply Rinv_le_contravar; [apply IZR_lt; lia | apply IZR_le; lia]).
  assert (T : (bpow radix2 (-900) <= / IZR (2 ^ 105))%R) by (rewrite <- (bpowN 105) by lia; apply bpow_le; lia).
  split; [lia|]. split; [cbn; lia|]. split; [cbn; lia|]. split.
  - intros x [<-|[<-|[<-|[<-|[]]]]]; (split; [split; reflexivity|]); rewrite ?Ea, ?Eb, ?Ec, ?Ee; apply Rabs_le; lra.
  - intros k x y Hx Hy. assert (E : forall u v : spec_float, Some u = Some v -> u = v) by congruence.
    destruct k as [|[|[|k]]]; cbn [nth_error thin_end] in Hx, Hy; [| | |destruct k; discriminate]; apply E in Hx, Hy; rewrite <- Hx, <- Hy, ?Ea, ?Eb, ?Ec, ?Ee; lra.
Qed.
Definition thin_accepted : bool := match nb_construct FA (fun _ => S754_nan) 1 true thin_end with Ok (Some _) => true | _ => false end.
Lemma thin_rejected : thin_accepted = false.
Proof. vm_compute. reflexivity. Qed.
Lemma thin_refuted : ~ (forall junk d periodic l, float_cells d l -> exists s, nb_construct FA junk d periodic l = Ok (Some s)).
Proof. intros H. destruct (H (fun _ => S754_nan) 1 true thin_end thin_cells) as (s & Hs). pose proof thin_rejected as T. unfold thin_accepted in T. rewrite Hs in T. discriminate. Qed.
