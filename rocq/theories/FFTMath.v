(** Inversion of the discrete Fourier transform. *)
From Coq Require Import Reals Lra Lia.
From Verif Require Import FFTSpec.
Local Open Scope Z_scope.

(** * cis *)
Lemma cis_add x y : cis (x + y) = (cis x * cis y)%C.
Proof. unfold cis, Cmult. cbn [fst snd]. rewrite cos_plus, sin_plus. f_equal; ring. Qed.
Lemma cis_0 : cis 0 = RtoC 1.
Proof. unfold cis. now rewrite cos_0, sin_0. Qed.
Lemma cis_conj x : Cconj (cis x) = cis (- x).
Proof. unfold Cconj, cis. cbn [fst snd]. now rewrite cos_neg, sin_neg. Qed.
Lemma cis_nat n : cis (2 * PI * INR n) = RtoC 1.
Proof.
  unfold cis. replace (2 * PI * INR n)%R with (0 + 2 * INR n * PI)%R by ring. rewrite cos_period, sin_period, cos_0, sin_0. reflexivity.
Qed.
Lemma cis_integer m : cis (2 * PI * IZR m) = RtoC 1.
Proof.
  destruct (Z_le_gt_dec 0 m) as [H|H].
  - rewrite <- (Z2Nat.id m H), <- INR_IZR_INZ. apply cis_nat.
  - transitivity (cis (2 * PI * IZR m) * cis (2 * PI * INR (Z.to_nat (- m))))%C; [rewrite cis_nat; ring|]. rewrite <- cis_add. rewrite INR_IZR_INZ, Z2Nat.id by lia.
    rewrite opp_IZR. replace (2 * PI * IZR m + 2 * PI * - IZR m)%R with 0%R by ring. apply cis_0.
Qed.
Lemma cis_period x m : cis (x + 2 * PI * IZR m) = cis x.
Proof. rewrite cis_add, cis_integer. apply Cmult_1_r. Qed.
Lemma cis_not_1 x : (0 < x < 2 * PI)%R -> cis x <> RtoC 1.
Proof.
  intros H E. assert (cos x = 1)%R by (unfold cis, RtoC in E; congruence).
  assert (0 < sin (x / 2))%R by (apply sin_gt_0; lra).
  replace x with (2 * (x / 2))%R in H0 by field. rewrite cos_2a_sin in H0. nra.
Qed.

(** * Sums *)
Lemma csum_ext n f g : (forall i, 0 <= i < Z.of_nat n -> f i = g i) -> csum n f = csum n g.
Proof. induction n as [|n IH]; intros H; [reflexivity|]. cbn [csum]. rewrite IH, H; [reflexivity | lia | intros; apply H; lia]. Qed.
Lemma csum_plus n f g : csum n (fun i => f i + g i)%C = (csum n f + csum n g)%C.
Proof. induction n as [|n IH]; cbn [csum]; [|rewrite IH]; ring. Qed.
Lemma csum_scal n c f : csum n (fun i => c * f i)%C = (c * csum n f)%C.
Proof. induction n as [|n IH]; cbn [csum]; [|rewrite IH]; ring. Qed.
Lemma csum_scal_r n c f : csum n (fun i => f i * c)%C = (csum n f * c)%C.
Proof. induction n as [|n IH]; cbn [csum]; [|rewrite IH]; ring. Qed.
Lemma csum_zero n f : (forall i, 0 <= i < Z.of_nat n -> f i = RtoC 0) -> csum n f = RtoC 0.
Proof. intros H. rewrite (csum_ext n f (fun _ => RtoC 0)) by exact H. clear H. induction n as [|n IH]; cbn [csum]; [|rewrite IH]; ring. Qed.
Lemma csum_swap n m f : csum n (fun i => csum m (f i)) = csum m (fun j => csum n (fun i => f i j)).
Proof.
  induction n as [|n IH]; cbn [csum].
  - symmetry. now apply csum_zero.
  - rewrite IH. now rewrite <- csum_plus.
Qed.
Lemma csum_one n f x : 0 <= x < Z.of_nat n -> (forall i, 0 <= i < Z.of_nat n -> i <> x -> f i = RtoC 0) -> csum n f = f x.
Proof.
  induction n as [|n IH]; [lia|]. intros Hx H. cbn [csum]. destruct (Z.eq_dec x (Z.of_nat n)) as [->|N].
  - rewrite csum_zero by (intros; apply H; lia). ring.
  - rewrite (H (Z.of_nat n)) by lia. rewrite IH; [ring | lia | intros; apply H; lia].
Qed.
Lemma csum_conj n f : Cconj (csum n f) = csum n (fun i => Cconj (f i)).
Proof.
  induction n as [|n IH]; cbn [csum].
  - unfold Cconj, RtoC. cbn [fst snd]. now rewrite Ropp_0.
  - rewrite <- IH. unfold Cconj, Cplus. cbn [fst snd]. f_equal. ring.
Qed.
Fixpoint cpow (w : C) (n : nat) : C := match n with O => RtoC 1 | S n => (w * cpow w n)%C end.
Lemma geometric w n : ((w - RtoC 1) * csum n (fun k => cpow w (Z.to_nat k)))%C = (cpow w n - RtoC 1)%C.
Proof.
  induction n as [|n IH]; cbn [csum cpow]; [ring|]. rewrite Cmult_plus_distr_l, IH, Nat2Z.id. ring.
Qed.
Lemma cpow_cis x n : cpow (cis x) n = cis (IZR (Z.of_nat n) * x).
Proof.
  induction n as [|n IH]; cbn [cpow]; [rewrite Rmult_0_l; symmetry; apply cis_0|]. rewrite IH, <- cis_add. f_equal. rewrite Nat2Z.inj_succ, succ_IZR. ring.
Qed.
(** The sum of the powers of a root of unity. *)
Lemma roots_sum n m : 1 <= n -> - n < m < n ->
  csum (Z.to_nat n) (fun k => cis (2 * PI * IZR (k * m) / IZR n)) = if Z.eqb m 0 then RtoC (IZR n) else RtoC 0.
Proof.
  intros Hn Hm. destruct (Z.eqb_spec m 0) as [->|N].
  - rewrite (csum_ext _ _ (fun _ => RtoC 1)).
    + rewrite <- (Z2Nat.id n) at 2 by lia. clear. induction (Z.to_nat n) as [|k IH]; [reflexivity|]. cbn [csum]. rewrite IH, Nat2Z.inj_succ, succ_IZR, RtoC_plus. reflexivity.
    + intros i Hi. rewrite Z.mul_0_r. replace (2 * PI * IZR 0 / IZR n)%R with 0%R by (unfold Rdiv; ring). apply cis_0.
  - assert (Hpos : (0 < IZR n)%R) by (apply IZR_lt; lia).
    pose (w := cis (2 * PI * IZR m / IZR n)).
    assert (W : w <> RtoC 1).
    { unfold w. destruct (Z_lt_le_dec 0 m) as [P|P].
      - apply cis_not_1. split; [pose proof PI_RGT_0; apply Rmult_lt_0_compat; [apply Rmult_lt_0_compat; [lra | apply IZR_lt; lia] | now apply Rinv_0_lt_compat]|].
        apply Rmult_lt_reg_r with (IZR n); [exact Hpos|]. unfold Rdiv. rewrite Rmult_assoc, Rinv_l, Rmult_1_r by lra. pose proof PI_RGT_0. apply Rmult_lt_compat_l; [lra | apply IZR_lt; lia].
      - rewrite <- (cis_period _ 1). apply cis_not_1.
        assert (E : (2 * PI * IZR m / IZR n + 2 * PI * 1 = 2 * PI * (IZR (m + n) / IZR n))%R) by (rewrite plus_IZR; field; lra). rewrite E. pose proof PI_RGT_0.
        assert (0 < IZR (m + n) / IZR n)%R by (apply Rmult_lt_0_compat; [apply IZR_lt; lia | now apply Rinv_0_lt_compat]).
        assert (IZR (m + n) / IZR n < 1)%R by (apply Rmult_lt_reg_r with (IZR n); [exact Hpos|]; unfold Rdiv; rewrite Rmult_assoc, Rinv_l, Rmult_1_r, Rmult_1_l by lra; apply IZR_lt; lia).
        split; nra. }
    rewrite (csum_ext _ _ (fun k => cpow w (Z.to_nat k))).
    + pose proof (geometric w (Z.to_nat n)) as G. unfold w at 3 in G. rewrite cpow_cis, Z2Nat.id in G by lia.
      replace (IZR n * (2 * PI * IZR m / IZR n))%R with (2 * PI * IZR m)%R in G by (field; lra). rewrite cis_integer in G.
      replace (RtoC 1 - RtoC 1)%C with (RtoC 0) in G by ring.
      assert (D : (w - RtoC 1)%C <> RtoC 0) by (intros D; apply W; replace w with (w - RtoC 1 + RtoC 1)%C by ring; rewrite D; ring).
      set (S := csum (Z.to_nat n) (fun k => cpow w (Z.to_nat k))) in *.
      replace S with (/ (w - RtoC 1) * ((w - RtoC 1) * S))%C by (field; exact D). rewrite G. ring.
    + intros i Hi. unfold w. rewrite cpow_cis, Z2Nat.id by lia. f_equal. rewrite mult_IZR. field. lra.
Qed.

(** * Sums over boxes *)
Lemma in_box_cons n s i l : in_box (n :: s) (i :: l) <-> 0 <= i < n /\ in_box s l.
Proof. split; [intros H; inversion H; auto | intros [H1 H2]; constructor; assumption]. Qed.
Lemma box_ext s : forall f g, (forall j, in_box s j -> f j = g j) -> box_sum s f = box_sum s g.
Proof.
  induction s as [|n s IH]; intros f g H; cbn [box_sum]; [apply H; constructor|].
  apply csum_ext. intros i Hi. apply IH. intros j Hj. apply H. apply in_box_cons. split; [lia | exact Hj].
Qed.
Lemma box_scal s : forall c f, box_sum s (fun j => c * f j)%C = (c * box_sum s f)%C.
Proof. induction s as [|n s IH]; intros c f; cbn [box_sum]; [reflexivity|]. rewrite <- csum_scal. apply csum_ext. intros i Hi. apply IH. Qed.
Lemma box_csum s n : forall (f : Z -> list Z -> C), box_sum s (fun j => csum n (fun i => f i j)) = csum n (fun i => box_sum s (f i)).
Proof.
  induction s as [|m s IH]; intros f; cbn [box_sum]; [reflexivity|]. rewrite csum_swap. apply csum_ext. intros i Hi. apply (IH (fun k l => f k (i :: l))).
Qed.
Lemma box_conj s : forall f, Cconj (box_sum s f) = box_sum s (fun j => Cconj (f j)).
Proof. induction s as [|n s IH]; intros f; cbn [box_sum]; [reflexivity|]. rewrite csum_conj. apply csum_ext. intros i Hi. apply IH. Qed.

(** * The transforms *)
Lemma dft_ext s f g k : (forall j, in_box s j -> f j = g j) -> dft s f k = dft s g k.
Proof. intros H. apply box_ext. intros j Hj. now rewrite H. Qed.
Lemma inverse_ext s f g k : (forall j, in_box s j -> f j = g j) -> inverse_dft s f k = inverse_dft s g k.
Proof. intros H. apply box_ext. intros j Hj. now rewrite H. Qed.
Lemma dft_scal s c f k : dft s (fun j => c * f j)%C k = (c * dft s f k)%C.
Proof. unfold dft. rewrite <- box_scal. apply box_ext. intros j Hj. ring. Qed.
Lemma inverse_scal s c f k : inverse_dft s (fun j => c * f j)%C k = (c * inverse_dft s f k)%C.
Proof. unfold inverse_dft. rewrite <- box_scal. apply box_ext. intros j Hj. ring. Qed.
Lemma angle_sym s : forall j k, angle s j k = angle s k j.
Proof. induction s as [|n s IH]; intros [|j js] [|k ks]; cbn [angle]; auto. rewrite IH, Z.mul_comm. reflexivity. Qed.
(** Both at once: the sign [e] is 1 or -1. *)
Definition signed (e : R) (s : list Z) (f : list Z -> C) (k : list Z) : C := box_sum s (fun j => f j * cis (e * angle s j k))%C.
Lemma dft_signed s f k : dft s f k = signed (-1) s f k.
Proof. apply box_ext. intros j Hj. do 2 f_equal. ring. Qed.
Lemma inverse_signed s f k : inverse_dft s f k = signed 1 s f k.
Proof. apply box_ext. intros j Hj. rewrite angle_sym. do 2 f_equal. ring. Qed.
Lemma signed_cons e n s f k ks : signed e (n :: s) f (k :: ks) = csum (Z.to_nat n) (fun j => cis (e * (2 * PI * IZR (j * k) / IZR n)) * signed e s (fun l => f (j :: l)) ks)%C.
Proof.
  unfold signed. cbn [box_sum angle]. apply csum_ext. intros i Hi. rewrite <- box_scal. apply box_ext. intros l Hl. rewrite Rmult_plus_distr_l, cis_add. ring.
Qed.
Lemma signed_ext e s f g k : (forall j, in_box s j -> f j = g j) -> signed e s f k = signed e s g k.
Proof. intros H. apply box_ext. intros j Hj. now rewrite H. Qed.
Lemma signed_csum e s n (c : Z -> C) (f : Z -> list Z -> C) k : signed e s (fun j => csum n (fun i => c i * f i j))%C k = csum n (fun i => c i * signed e s (f i) k)%C.
Proof.
  unfold signed. rewrite (box_ext s _ (fun j => csum n (fun i => (c i * (f i j * cis (e * angle s j k)))%C))).
  - rewrite box_csum. apply csum_ext. intros i Hi. apply box_scal.
  - intros j Hj. rewrite <- csum_scal_r. apply csum_ext. intros i Hi. ring.
Qed.
Lemma inversion e s : Forall (fun n => 1 <= n) s -> (e = 1 \/ e = -1)%R -> forall f x, in_box s x -> signed (- e) s (signed e s f) x = (RtoC (IZR (points s)) * f x)%C.
Proof.
  intros Hs He. induction s as [|n s IH]; intros f x Hx.
  - inversion Hx; subst. unfold signed, points. cbn [box_sum angle fold_right]. rewrite !Rmult_0_r, cis_0. ring.
  - destruct x as [|x xs]; [inversion Hx|]. apply in_box_cons in Hx as [Hx Hxs]. inversion Hs as [|? ? Hn Hs']; subst. specialize (IH Hs').
    rewrite signed_cons. set (a q := (2 * PI * IZR q / IZR n)%R).
    rewrite (csum_ext _ _ (fun k => csum (Z.to_nat n) (fun j => cis (- e * a (k * (x - j))%Z) * (RtoC (IZR (points s)) * f (j :: xs)))%C)).
    + rewrite csum_swap. assert (Hpos : (0 < IZR n)%R) by (apply IZR_lt; lia).
      assert (K : forall j, 0 <= j < n -> csum (Z.to_nat n) (fun k => cis (- e * a (k * (x - j)))) = if j =? x then RtoC (IZR n) else RtoC 0).
      { intros j Hj. destruct He as [-> | ->].
        - replace (j =? x) with (j - x =? 0) by lia. rewrite <- (roots_sum n (j - x)) by lia. apply csum_ext. intros k Hk. unfold a. f_equal. rewrite !mult_IZR, !minus_IZR. field. lra.
        - replace (j =? x) with (x - j =? 0) by lia. rewrite <- (roots_sum n (x - j)) by lia. apply csum_ext. intros k Hk. unfold a. f_equal. rewrite !mult_IZR, !minus_IZR. field. lra. }
      rewrite (csum_one _ _ x).
      * rewrite csum_scal_r, K, Z.eqb_refl by exact Hx. unfold points. cbn [fold_right]. rewrite mult_IZR, RtoC_mult. ring.
      * lia.
      * intros j Hj Hne. rewrite csum_scal_r, K by lia. replace (j =? x) with false by lia. ring.
    + intros k Hk.
      rewrite (signed_ext (- e) s _ (fun ks => csum (Z.to_nat n) (fun j => cis (e * a (j * k)%Z) * signed e s (fun l => f (j :: l)) ks)%C)) by (intros; apply signed_cons).
      rewrite (signed_csum (- e) s _ (fun j => cis (e * a (j * k)%Z)) (fun j => signed e s (fun l => f (j :: l)))), <- csum_scal. apply csum_ext. intros j Hj. rewrite (IH (fun l => f (j :: l)) xs Hxs).
      replace (- e * a (k * (x - j))%Z)%R with (- e * (2 * PI * IZR (k * x) / IZR n) + e * a (j * k)%Z)%R.
      * rewrite cis_add. ring.
      * unfold a. rewrite !mult_IZR, minus_IZR. field. apply not_0_IZR. lia.
Qed.
Lemma forward_backward s f x : Forall (fun n => 1 <= n) s -> in_box s x -> inverse_dft s (dft s f) x = (RtoC (IZR (points s)) * f x)%C.
Proof.
  intros Hs Hx. rewrite inverse_signed. rewrite (signed_ext 1 s _ (signed (-1) s f)) by (intros; apply dft_signed).
  rewrite <- (inversion (-1) s Hs (or_intror eq_refl) f x Hx). f_equal. ring.
Qed.
Lemma backward_forward s f x : Forall (fun n => 1 <= n) s -> in_box s x -> dft s (inverse_dft s f) x = (RtoC (IZR (points s)) * f x)%C.
Proof.
  intros Hs Hx. rewrite dft_signed. rewrite (signed_ext (-1) s _ (signed 1 s f)) by (intros; apply inverse_signed).
  exact (inversion 1 s Hs (or_introl eq_refl) f x Hx).
Qed.

(** * Real functions *)
Lemma opposite_box s : Forall (fun n => 1 <= n) s -> forall k, in_box s k -> in_box s (opposite s k).
Proof.
  intros Hs. induction Hs as [|n s Hn Hs IH]; intros k Hk; inversion Hk; subst; cbn [opposite]; [constructor|]. apply in_box_cons. split; [apply Z.mod_pos_bound; lia | apply IH; assumption].
Qed.
Lemma opposite_twice s : forall k, in_box s k -> opposite s (opposite s k) = k.
Proof.
  induction s as [|n s IH]; intros k Hk; inversion Hk as [|? i ? ks Hi Hks]; subst; cbn [opposite]; [reflexivity|]. rewrite IH by exact Hks. f_equal.
  replace (- ((- i) mod n)) with (0 - (- i) mod n) by ring. rewrite Zminus_mod_idemp_r. replace (0 - - i) with i by ring. apply Z.mod_small. exact Hi.
Qed.
Lemma angle_opposite s : Forall (fun n => 1 <= n) s -> forall j k, in_box s j -> in_box s k -> exists m, angle s j (opposite s k) = (- angle s j k + 2 * PI * IZR m)%R.
Proof.
  intros Hs. induction Hs as [|n s Hn Hs IH]; intros j k Hj Hk.
  - exists 0. cbn [angle]. ring.
  - inversion Hj as [|? j0 ? js Hj0 Hjs]; subst. inversion Hk as [|? k0 ? ks Hk0 Hks]; subst. destruct (IH js ks Hjs Hks) as (m & E). cbn [angle opposite]. rewrite E.
    exists (m - j0 * ((- k0) / n)). assert (Hpos : IZR n <> 0%R) by (apply not_0_IZR; lia).
    rewrite Z.mod_eq by lia. rewrite !mult_IZR, !minus_IZR, !mult_IZR, opp_IZR. field. exact Hpos.
Qed.
Lemma conj_mult a b : Cconj (a * b)%C = (Cconj a * Cconj b)%C.
Proof. destruct a, b. unfold Cconj, Cmult. cbn [fst snd]. f_equal; ring. Qed.
Lemma conj_real r : Cconj (RtoC r) = RtoC r.
Proof. unfold Cconj, RtoC. cbn [fst snd]. now rewrite Ropp_0. Qed.
Lemma conj_conj a : Cconj (Cconj a) = a.
Proof. destruct a. unfold Cconj. cbn [fst snd]. now rewrite Ropp_involutive. Qed.
Lemma real_hermitian s f : Forall (fun n => 1 <= n) s -> hermitian s (dft s (fun j => RtoC (f j))).
Proof.
  intros Hs k Hk. unfold dft. rewrite box_conj. apply box_ext. intros j Hj. rewrite conj_mult, conj_real, cis_conj. f_equal.
  destruct (angle_opposite s Hs j k Hj Hk) as (m & ->). rewrite <- (cis_period _ m). f_equal. ring.
Qed.
Lemma hermitian_scal s c F : hermitian s F -> hermitian s (fun k => RtoC c * F k)%C.
Proof. intros H k Hk. rewrite H, conj_mult, conj_real by exact Hk. reflexivity. Qed.
(** The indices that are kept are enough. *)
Lemma half_box s : Forall (fun n => 1 <= n) s -> forall k, in_box (half s) k -> in_box s k.
Proof.
  intros Hs. induction Hs as [|n s Hn Hs IH]; intros k Hk; [exact Hk|]. destruct s as [|m s].
  - cbn [half] in Hk. inversion Hk as [|? i ? l Hi Hl]; subst. inversion Hl; subst. constructor; [|constructor]. split; [lia|]. assert (n / 2 < n \/ n = 1) as [Hlt | ->] by (destruct (Z.eq_dec n 1); [now right | left; apply Z.div_lt; lia]); [lia|]. cbn in Hi. lia.
  - change (half (n :: m :: s)) with (n :: half (m :: s)) in Hk. inversion Hk as [|? i ? l Hi Hl]; subst. apply in_box_cons. auto.
Qed.
Lemma half_or_opposite s : Forall (fun n => 1 <= n) s -> forall k, in_box s k -> in_box (half s) k \/ in_box (half s) (opposite s k).
Proof.
  intros Hs. induction Hs as [|n s Hn Hs IH]; intros k Hk; [left; exact Hk|]. inversion Hk as [|? i ? l Hi Hl]; subst. destruct s as [|m s].
  - inversion Hl; subst. cbn [half opposite]. destruct (Z_le_gt_dec i (n / 2)); [left | right]; (constructor; [|constructor]); [lia|]. split; [apply Z.mod_pos_bound; lia|].
    rewrite <- (Z.mod_add (- i) 1 n) by lia. rewrite Z.mod_small by lia. pose proof (Z.div_mod n 2 ltac:(lia)). pose proof (Z.mod_pos_bound n 2 ltac:(lia)). lia.
  - change (half (n :: m :: s)) with (n :: half (m :: s)). destruct (IH l Hl) as [H|H]; [left | right]; cbn [opposite]; apply in_box_cons; split; auto. apply Z.mod_pos_bound. lia.
Qed.
