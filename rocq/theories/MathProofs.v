From Coq Require Import Lra Factorial Floats.SpecFloat Reals.
From Flocq Require Import Core.
From Verif Require Import Machine MachineProofs ArithModel MathModel FloatLink SamplingProofs.
Local Open Scope Z_scope.

Lemma factorial_loop_eq fuel : forall i bound r, 2 <= i <= bound -> bound < 2 ^ 64 -> (Z.to_nat (bound - i) <= fuel)%nat -> 0 <= r < 2 ^ 64 ->
  r = Z.of_nat (fact (Z.to_nat (i - 1))) mod 2 ^ 64 ->
  factorial_loop fuel i bound r = Z.of_nat (fact (Z.to_nat (bound - 1))) mod 2 ^ 64.
Proof.
  induction fuel as [|fuel IH]; intros i bound r Hi Hb Hf Hr E; cbn [factorial_loop].
  - replace bound with i by lia. exact E.
  - destruct (Z.ltb_spec i bound) as [H|H].
    + unfold u64_add. rewrite u64_small by lia. apply IH; try lia.
      * unfold u64_mul, u64. change two64 with (2 ^ 64). apply Z.mod_pos_bound. lia.
      * unfold u64_mul, u64. change two64 with (2 ^ 64). rewrite E, Z.mul_mod_idemp_l by lia.
        replace (Z.to_nat (i + 1 - 1)) with (S (Z.to_nat (i - 1))) by lia. f_equal.
        change (fact (S (Z.to_nat (i - 1)))) with ((S (Z.to_nat (i - 1)) * fact (Z.to_nat (i - 1)))%nat). rewrite Nat2Z.inj_mul.
        replace (Z.of_nat (S (Z.to_nat (i - 1)))) with i by lia. ring.
    + replace bound with i by lia. exact E.
Qed.
Lemma factorial_ok f : 0 <= f < 2 ^ 64 - 1 -> factorial f = Z.of_nat (fact (Z.to_nat f)) mod 2 ^ 64.
Proof.
  intros Hf. unfold factorial, u64_add. rewrite u64_small by lia.
  destruct (Z.eq_dec f 0) as [->|H0]; [reflexivity|].
  rewrite (factorial_loop_eq _ 2 (f + 1) 1); try lia; [|reflexivity]. now replace (f + 1 - 1) with f by lia.
Qed.
Lemma factorial_max : factorial (2 ^ 64 - 1) = 1.
Proof.
  unfold factorial. replace (u64_add (2 ^ 64 - 1) 1) with 0 by reflexivity.
  destruct (Z.to_nat (2 ^ 64 - 1)) as [|n] eqn:E; [reflexivity|]. clear E. reflexivity.
Qed.

Lemma iter_pow (a : R) n : Nat.iter n (fun r => nmul RA r a) (nofz RA 1) = (a ^ n)%R.
Proof. induction n as [|n IH]; [reflexivity|]. cbn [Nat.iter nat_rect]. unfold Nat.iter in IH. rewrite IH. cbn. ring. Qed.
Lemma ipow_size_ok a n : ipow_size RA a n = (a ^ n)%R.
Proof. apply iter_pow. Qed.
Lemma ipow_ok a i : - 2 ^ 31 < i < 2 ^ 31 -> a <> 0%R -> ipow RA a i = Ok (powerRZ a i).
Proof.
  intros Hi Ha. unfold ipow. destruct (Z.ltb_spec 0 i); [|destruct (Z.ltb_spec i 0)].
  - rewrite iter_pow. destruct i as [|p|p]; try lia. reflexivity.
  - destruct (Z.eqb_spec i (- 2 ^ 31)); [lia|]. rewrite iter_pow. destruct i as [|p|p]; try lia. cbn [powerRZ]. f_equal. cbn. unfold Rdiv. now rewrite Rmult_1_l.
  - replace i with 0 by lia. reflexivity.
Qed.
Lemma ipow_nonneg a i : 0 <= i < 2 ^ 31 -> ipow RA a i = Ok (a ^ Z.to_nat i)%R.
Proof.
  intros Hi. unfold ipow. destruct (Z.ltb_spec 0 i).
  - now rewrite iter_pow.
  - replace i with 0 by lia. reflexivity.
Qed.
Lemma fold_sum l : forall a : R, fold_left (fun val x => nadd RA val x) l a = (a + fold_right Rplus 0 l)%R.
Proof. induction l as [|x l IH]; intros a; cbn [fold_left fold_right]; [cbn; ring|]. rewrite IH. cbn. ring. Qed.
Lemma sum_ok l : sum RA l = fold_right Rplus 0%R l.
Proof. unfold sum. rewrite fold_sum. cbn. ring. Qed.
Lemma min_ok x y : min_ RA x y = Rmin x y.
Proof. unfold min_. cbn [nltb RA]. unfold R_ltb, Rmin. destruct (Rlt_dec x y), (Rle_dec x y); lra. Qed.
Lemma max_ok x y : max_ RA x y = Rmax x y.
Proof. unfold max_. cbn [nltb RA]. unfold R_ltb, Rmax. destruct (Rlt_dec y x), (Rle_dec x y); lra. Qed.

(** ** modulo in double precision *)
Lemma nfloor_F x : fok x -> Z.abs (Ztrunc (fval x)) <= 2 ^ 52 -> nfloor FA x = Zfloor (fval x).
Proof.
  intros Hx Hs. unfold nfloor. cbn [ntrunc nltb FA]. change (nofz FA) with (fun z => nofz FA z). rewrite ftrunc_ok by exact Hx.
  set (t := Ztrunc (fval x)) in *. destruct (fofz_exact t ltac:(lia)) as [Ft Vt]. cbv beta.
  rewrite fltb_ok by assumption. rewrite Vt. unfold R_ltb. destruct (Rle_lt_dec 0 (fval x)) as [H0|H0].
  - unfold t in *. rewrite Ztrunc_floor in * by exact H0. destruct (Rlt_dec _ _) as [H|H]; auto. pose proof (Zfloor_lb (fval x)). lra.
  - unfold t in *. rewrite Ztrunc_ceil in * by lra. destruct (Rlt_dec _ _) as [H|H].
    + rewrite Zceil_floor_neq. lia. intros E. rewrite <- E in H. rewrite Zceil_IZR in H. lra.
    + pose proof (Zceil_ub (fval x)). assert (E : fval x = IZR (Zceil (fval x))) by lra. symmetry. rewrite E at 1. apply Zfloor_IZR.
Qed.
Lemma Rabs_quot x y : y <> 0%R -> Rabs (x / y) = (Rabs x / Rabs y)%R.
Proof. intros. unfold Rdiv. rewrite Rabs_mult. f_equal. now apply Rabs_inv. Qed.
Lemma Zfloor_quot x y : y <> 0 -> Zfloor (IZR x / IZR y) = x / y.
Proof. apply Zfloor_div. Qed.
(** The rounded quotient of two ints has the floor of the exact one. *)
Lemma floor_rnd_quot x y : 0 < y <= 2 ^ 31 -> Z.abs x <= 2 ^ 31 -> Zfloor (rnd (IZR x / IZR y)) = x / y.
Proof.
  intros Hy Hx. set (k := x / y). assert (Hk : k * y <= x < (k + 1) * y).
  { unfold k. pose proof (Z.div_mod x y ltac:(lia)). pose proof (Z.mod_pos_bound x y ltac:(lia)). nia. }
  assert (Hkb : Z.abs k <= 2 ^ 31) by nia. assert (Hk1 : Z.abs (k + 1) <= 2 ^ 32) by lia.
  assert (Yp : (0 < IZR y)%R) by (apply IZR_lt; lia).
  apply Zfloor_imp. split.
  - rewrite <- (rnd_int k) by lia. apply rnd_le. apply (Rmult_le_reg_r (IZR y)); [exact Yp|]. unfold Rdiv. rewrite Rmult_assoc, Rinv_l, Rmult_1_r by lra.
    rewrite <- mult_IZR. apply IZR_le. lia.
  - destruct (Z.eq_dec x 0) as [->|Hx0].
    { unfold Rdiv. rewrite Rmult_0_l, (rnd_int 0) by lia. apply IZR_lt. nia. }
    set (q := (IZR x / IZR y)%R).
    assert (Hq : (q * IZR y = IZR x)%R) by (unfold q; field; lra).
    assert (Hlow : (bpow radix2 (-1022) <= Rabs q)%R).
    { apply Rle_trans with (bpow radix2 (-31)); [apply bpow_le; lia|]. unfold q. rewrite Rabs_quot by lra. rewrite (Rabs_pos_eq (IZR y)) by lra.
      apply (Rmult_le_reg_r (IZR y)); [exact Yp|]. unfold Rdiv. rewrite Rmult_assoc, Rinv_l, Rmult_1_r by lra.
      apply Rle_trans with 1%R.
      - apply Rle_trans with (bpow radix2 (-31) * IZR (2 ^ 31))%R; [apply Rmult_le_compat_l; [apply bpow_ge_0 | apply IZR_le; lia]|].
        change (2 ^ 31) with (Zpower radix2 31). rewrite IZR_Zpower by lia. rewrite <- bpow_plus. cbn. lra.
      - rewrite <- abs_IZR. apply IZR_le. lia. }
    destruct (rnd_rel q Hlow) as (d & Hd & ->).
    assert (Hd' : (Rabs d <= / IZR (2 ^ 53))%R).
    { eapply Rle_trans; [exact Hd|]. apply Req_le. change (2 ^ 53) with (Zpower radix2 53). rewrite IZR_Zpower by lia. rewrite <- bpow_opp. cbn. lra. }
    apply (Rmult_lt_reg_r (IZR y)); [exact Yp|]. rewrite <- mult_IZR.
    replace (q * (1 + d) * IZR y)%R with (IZR x * (1 + d))%R by (rewrite <- Hq; ring).
    assert (Hlt : (IZR x + 1 <= IZR ((k + 1) * y))%R) by (rewrite <- (plus_IZR x 1); apply IZR_le; lia).
    assert (Hxd : (IZR x * d <= / 2)%R).
    { eapply Rle_trans; [apply Rle_abs|]. rewrite Rabs_mult. apply Rle_trans with (IZR (2 ^ 31) * / IZR (2 ^ 53))%R.
      - apply Rmult_le_compat; try apply Rabs_pos; [rewrite <- abs_IZR; apply IZR_le; lia | exact Hd'].
      - change (2 ^ 31) with 2147483648. change (2 ^ 53) with 9007199254740992. lra. }
    lra.
Qed.
Lemma quot_neg x y : y <> 0 -> (IZR x / IZR y = IZR (- x) / IZR (- y))%R.
Proof. intros. rewrite !opp_IZR. field. apply not_0_IZR. lia. Qed.
Lemma modulo_ok x y : y <> 0 -> - 2 ^ 31 <= x < 2 ^ 31 -> - 2 ^ 31 <= y < 2 ^ 31 -> modulo FA x y = x mod y.
Proof.
  intros Hy Hx Hyb. unfold modulo. cbn [ndiv nsub nmul ntrunc FA].
  destruct (fofz_exact x ltac:(lia)) as [Fx Vx]. destruct (fofz_exact y ltac:(lia)) as [Fy Vy]. change (nofz FA) with (fun z => nofz FA z). cbv beta.
  cbn [nofz FA] in Fx, Vx, Fy, Vy. cbn [nofz FA].
  set (fx := SpecFloat.binary_normalize 53 1024 x 0 false) in *. set (fy := SpecFloat.binary_normalize 53 1024 y 0 false) in *.
  assert (Yn : (IZR y <> 0)%R) by (apply not_0_IZR; exact Hy).
  assert (Hqb : (Rabs (IZR x / IZR y) <= IZR (2 ^ 31))%R).
  { rewrite Rabs_quot by exact Yn. rewrite <- !abs_IZR. assert (1 <= IZR (Z.abs y))%R by (apply IZR_le; lia).
    apply (Rmult_le_reg_r (IZR (Z.abs y))); [lra|]. unfold Rdiv. rewrite Rmult_assoc, Rinv_l, Rmult_1_r by lra.
    rewrite <- mult_IZR. apply IZR_le. nia. }
  destruct (fdiv_ok fx fy Fx Fy) as [Fq Vq]; [now rewrite Vy | rewrite Vx, Vy; now apply (rnd_small _ (2 ^ 31))|]. rewrite Vx, Vy in Vq.
  assert (Hfl : Zfloor (rnd (IZR x / IZR y)) = x / y).
  { destruct (Z_lt_le_dec 0 y).
    - apply floor_rnd_quot; lia.
    - rewrite quot_neg by exact Hy. rewrite floor_rnd_quot by lia. apply Z.div_opp_opp. exact Hy. }
  assert (Hab : Z.abs (x / y) <= 2 ^ 31).
  { pose proof (Z.div_mod x y Hy) as D. destruct (Z_lt_le_dec 0 y); [pose proof (Z.mod_pos_bound x y ltac:(lia)) | pose proof (Z.mod_neg_bound x y ltac:(lia))]; nia. }
  rewrite nfloor_F; [|exact Fq|].
  2:{ rewrite Vq. pose proof (rnd_abs_le _ (2 ^ 31) ltac:(lia) Hqb) as Hr. pose proof (Ztrunc_abs (rnd (IZR x / IZR y))) as E.
      rewrite <- E. apply le_IZR. rewrite Ztrunc_floor by apply Rabs_pos. eapply Rle_trans; [apply Zfloor_lb|]. eapply Rle_trans; [exact Hr|]. apply IZR_le. lia. }
  rewrite Vq, Hfl. set (k := x / y) in *.
  destruct (fofz_exact k ltac:(lia)) as [Fk Vk]. cbn [nofz FA] in Fk, Vk. set (fk := SpecFloat.binary_normalize 53 1024 k 0 false) in *.
  pose proof (Z.div_mod x y Hy) as D. fold k in D.
  assert (Hm : Z.abs (x mod y) <= 2 ^ 31) by (destruct (Z_lt_le_dec 0 y); [pose proof (Z.mod_pos_bound x y ltac:(lia)) | pose proof (Z.mod_neg_bound x y ltac:(lia))]; lia).
  assert (Hp : Z.abs (y * k) <= 2 ^ 32) by lia.
  destruct (fmul_ok fy fk Fy Fk) as [Fp Vp].
  { rewrite Vy, Vk, <- mult_IZR. apply (rnd_small _ (2 ^ 32)); [lia|]. rewrite <- abs_IZR. apply IZR_le. lia. }
  rewrite Vy, Vk, <- mult_IZR, rnd_int in Vp by lia.
  destruct (fsub_ok fx _ Fx Fp) as [Fs Vs].
  { rewrite Vx, Vp, <- minus_IZR. apply (rnd_small _ (2 ^ 33)); [lia|]. rewrite <- abs_IZR. apply IZR_le. lia. }
  rewrite Vx, Vp, <- minus_IZR, rnd_int in Vs by lia.
  rewrite ftrunc_ok by exact Fs. rewrite Vs, Ztrunc_IZR. lia.
Qed.

Lemma dot_product_ok : forall a b, dot_product RA a b = fold_right Rplus 0%R (map (fun p => (fst p * snd p)%R) (combine a b)).
Proof.
  intros a b. unfold dot_product. cbn [nadd nmul nofz RA].
  assert (G : forall (l : list (R * R)) z, fold_left (fun (r : R) p => (r + fst p * snd p)%R) l z = (z + fold_right Rplus 0%R (map (fun p => (fst p * snd p)%R) l))%R).
  { induction l as [|p l IH]; intros z; cbn [fold_left map fold_right]; [lra|]. rewrite IH. lra. }
  rewrite G. lra.
Qed.
