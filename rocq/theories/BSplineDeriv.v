(** Derivatives of the polynomials given by the Cox-de Boor recursion. *)
From Coq Require Import Bool Reals ZArith Lia Lra ZifyBool.
From Verif Require Import BSplineSpec BSplineMath.
Local Open Scope bool_scope. Local Open Scope Z_scope.

Lemma dpl_ext f g x l l' : (forall y, f y = g y) -> l = l' -> derivable_pt_lim f x l -> derivable_pt_lim g x l'.
Proof. intros H <- D eps He. destruct (D eps He) as (del & Hd). exists del. intros h Hh Ha. rewrite <- !H. now apply Hd. Qed.
Lemma dpl_affine a b x : derivable_pt_lim (fun y => a * y + b)%R x a.
Proof.
  apply (dpl_ext (fun y => (mult_real_fct a id + fct_cte b)%F y) _ x (a * 1 + 0)%R).
  - intros y. reflexivity.
  - ring.
  - apply derivable_pt_lim_plus; [apply derivable_pt_lim_scal, derivable_pt_lim_id | apply derivable_pt_lim_const].
Qed.
Lemma dpl_plus f g x a b : derivable_pt_lim f x a -> derivable_pt_lim g x b -> derivable_pt_lim (fun y => f y + g y)%R x (a + b)%R.
Proof. intros. now apply (derivable_pt_lim_plus f g). Qed.
Lemma dpl_mult f g x a b : derivable_pt_lim f x a -> derivable_pt_lim g x b -> derivable_pt_lim (fun y => f y * g y)%R x (a * g x + f x * b)%R.
Proof. intros. now apply (derivable_pt_lim_mult f g). Qed.
Lemma dpl_scal a f x b : derivable_pt_lim f x b -> derivable_pt_lim (fun y => a * f y)%R x (a * b)%R.
Proof. intros. now apply (derivable_pt_lim_scal f a). Qed.
Lemma dpl_const a x : derivable_pt_lim (fun _ => a) x 0%R.
Proof. apply (derivable_pt_lim_const a). Qed.

(** Sums over 0 <= m < n. *)
Fixpoint nsum (n : nat) (f : Z -> R) : R :=
  match n with O => 0%R | S n' => (nsum n' f + f (Z.of_nat n'))%R end.
Definition zsum (n : Z) (f : Z -> R) : R := nsum (Z.to_nat n) f.
Lemma zsum_0 f : zsum 0 f = 0%R. Proof. reflexivity. Qed.
Lemma zsum_S n f : 0 <= n -> zsum (n + 1) f = (zsum n f + f n)%R.
Proof. intros H. unfold zsum. replace (Z.to_nat (n + 1)) with (S (Z.to_nat n)) by lia. cbn [nsum]. now rewrite Z2Nat.id. Qed.
Lemma zsum_ext n f g : (forall m, 0 <= m < n -> f m = g m) -> zsum n f = zsum n g.
Proof.
  intros H. unfold zsum. assert (G : forall k, (k <= Z.to_nat n)%nat -> nsum k f = nsum k g); [|apply G; lia].
  induction k as [|k IH]; intros Hk; [reflexivity|]. cbn [nsum]. rewrite IH, H by lia. reflexivity.
Qed.
Lemma zsum_zero n f : (forall m, 0 <= m < n -> f m = 0%R) -> zsum n f = 0%R.
Proof.
  intros H. rewrite (zsum_ext n f (fun _ => 0%R)) by exact H. unfold zsum. induction (Z.to_nat n); cbn; [reflexivity | lra].
Qed.
Lemma zsum_plus n f g : zsum n (fun m => f m + g m)%R = (zsum n f + zsum n g)%R.
Proof. unfold zsum. induction (Z.to_nat n); cbn [nsum]; [ring | rewrite IHn0; ring]. Qed.
Lemma zsum_scal n a f : zsum n (fun m => a * f m)%R = (a * zsum n f)%R.
Proof. unfold zsum. induction (Z.to_nat n); cbn [nsum]; [ring | rewrite IHn0; ring]. Qed.
Lemma zsum_shift n f : 0 <= n -> zsum (n + 1) f = (f 0%Z + zsum n (fun m => f (m + 1)%Z))%R.
Proof.
  intros H. pattern n. apply natlike_ind; [| | exact H].
  - rewrite zsum_S by lia. rewrite !zsum_0. ring.
  - clear n H. intros n Hn IH. rewrite <- Z.add_1_r. rewrite (zsum_S (n + 1)), IH by lia. rewrite zsum_S by lia. ring.
Qed.
Lemma zsum_deriv n (f g : Z -> R -> R) x : (forall m, 0 <= m < n -> derivable_pt_lim (f m) x (g m x)) ->
  derivable_pt_lim (fun y => zsum n (fun m => f m y)) x (zsum n (fun m => g m x)).
Proof.
  intros H. unfold zsum. assert (G : forall k, (k <= Z.to_nat n)%nat ->
    derivable_pt_lim (fun y => nsum k (fun m => f m y)) x (nsum k (fun m => g m x))); [|apply G; lia].
  induction k as [|k IH]; intros Hk; cbn [nsum]; [apply dpl_const|]. apply dpl_plus; [apply IH; lia | apply H; lia].
Qed.
Lemma sum_f_R0_zsum f n : sum_f_R0 (fun r => f (Z.of_nat r)) n = zsum (Z.of_nat n + 1) f.
Proof.
  induction n as [|n IH]. { cbn [sum_f_R0]. change (Z.of_nat 0 + 1) with (0 + 1). rewrite zsum_S, zsum_0 by lia. change (Z.of_nat 0) with 0. ring. }
  cbn [sum_f_R0]. rewrite IH. rewrite (zsum_S (Z.of_nat (S n))) by lia.
  replace (Z.of_nat (S n)) with (Z.of_nat n + 1) by lia. reflexivity.
Qed.

Section Cell.
Context (t : Z -> R) (c d : Z).
Hypothesis mono : forall a b, c - d + 1 <= a <= b -> b <= c + d -> (t a <= t b)%R.
Hypothesis cell : (t c < t (c + 1)%Z)%R.
Notation V := (V t c).
(** Differences of knots, and values divided by them. *)
Definition G (p r : Z) : R := (t (c + r + 1)%Z - t (c - p + r)%Z)%R.
Definition Aq (p r : Z) (x : R) : R := if (0 <=? r) && (r <=? p) then (V p r x / G p r)%R else 0%R.
Lemma Aq_in p r x : 0 <= r <= p -> Aq p r x = (V p r x / G p r)%R.
Proof. intros H. unfold Aq. destruct (0 <=? r) eqn:?, (r <=? p) eqn:?; try lia; reflexivity. Qed.
Lemma Aq_out p r x : r < 0 \/ p < r -> Aq p r x = 0%R.
Proof. intros H. unfold Aq. destruct (0 <=? r) eqn:?, (r <=? p) eqn:?; try lia; reflexivity. Qed.
Lemma G_pos p r : 0 <= r <= p -> p + 1 <= d -> (0 < G p r)%R.
Proof. intros. now apply (gap t c d). Qed.
Lemma V_rec p r x : 0 <= p -> p + 1 <= d ->
  V (p + 1) r x = ((x - t (c - p - 1 + r)%Z) * Aq p (r - 1) x + (t (c + r + 1)%Z - x) * Aq p r x)%R.
Proof.
  intros Hp Hd. assert (r < 0 \/ p + 1 < r \/ 0 <= r <= p + 1) as [H|[H|H]] by lia.
  - rewrite V_out, !Aq_out by lia. ring.
  - rewrite V_out, !Aq_out by lia. ring.
  - rewrite (V_step t c d) by (assumption || lia). unfold Lp, Rp. destruct (r =? 0) eqn:E0, (r =? p + 1) eqn:E1; try lia.
    + rewrite (Aq_out p (r - 1)), Aq_in by lia. unfold G. ring.
    + rewrite (Aq_out p r), Aq_in by lia. unfold G. replace (c + (r - 1) + 1) with (c + r) by ring.
      replace (c - p + (r - 1)) with (c - p - 1 + r) by ring. ring.
    + rewrite !Aq_in by lia. unfold G. replace (c + (r - 1) + 1) with (c + r) by ring.
      replace (c - p + (r - 1)) with (c - p - 1 + r) by ring. ring.
Qed.
Lemma V_deriv p : 0 <= p -> p + 1 <= d -> forall r x,
  derivable_pt_lim (V (p + 1) r) x (IZR (p + 1) * (Aq p (r - 1) x - Aq p r x))%R.
Proof.
  intros Hp. pattern p. apply natlike_ind; [| | exact Hp].
  - intros Hd r x.
    assert (HA : forall s y, Aq 0 s y = Aq 0 s x).
    { intros s y. destruct (Z.eq_dec s 0) as [->|]; [|now rewrite !Aq_out by lia].
      rewrite !Aq_in by lia. now rewrite !V_0. }
    apply (dpl_ext (fun y => (Aq 0 (r - 1) x - Aq 0 r x) * y + (t (c + r + 1)%Z * Aq 0 r x - t (c - 0 - 1 + r)%Z * Aq 0 (r - 1) x))%R _ x
             (Aq 0 (r - 1) x - Aq 0 r x)%R).
    + intros y. rewrite V_rec by lia. rewrite (HA (r - 1) y), (HA r y). ring.
    + cbn [Z.add]. ring.
    + apply dpl_affine.
  - clear p Hp. intros p Hp IH Hd r x. rewrite <- Z.add_1_r in *. specialize (IH ltac:(lia)).
    assert (DA : forall s, derivable_pt_lim (Aq (p + 1) s) x
      (if (0 <=? s) && (s <=? p + 1) then / G (p + 1) s * (IZR (p + 1) * (Aq p (s - 1) x - Aq p s x)) else 0)%R).
    { intros s. destruct ((0 <=? s) && (s <=? p + 1)) eqn:E.
      - apply (dpl_ext (fun y => / G (p + 1) s * V (p + 1) s y)%R _ x (/ G (p + 1) s * (IZR (p + 1) * (Aq p (s - 1) x - Aq p s x)))%R);
          [intros y; rewrite Aq_in by lia; unfold Rdiv; ring | reflexivity | apply dpl_scal, IH].
      - apply (dpl_ext (fun _ => 0%R) _ x 0%R); [intros y; rewrite Aq_out by lia; reflexivity | reflexivity | apply dpl_const]. }
    set (k1 := t (c - (p + 1) - 1 + r)%Z). set (k2 := t (c + r + 1)%Z).
    eapply (dpl_ext (fun y => (1 * y + - k1) * Aq (p + 1) (r - 1) y + (- 1 * y + k2) * Aq (p + 1) r y)%R).
    { intros y. rewrite V_rec by lia. fold k1 k2. ring. }
    2: { apply dpl_plus; apply dpl_mult; [apply dpl_affine | apply DA | apply dpl_affine | apply DA]. }
    cbv beta.
    assert (VR : forall s, 0 <= s <= p + 1 -> Aq (p + 1) s x =
      (((x - t (c - p - 1 + s)%Z) * Aq p (s - 1) x + (t (c + s + 1)%Z - x) * Aq p s x) / G (p + 1) s)%R).
    { intros s Hs. rewrite Aq_in by lia. rewrite V_rec by lia. reflexivity. }
    replace (IZR (p + 1 + 1)) with (IZR (p + 1) + 1)%R by (rewrite (plus_IZR (p + 1)); reflexivity).
    destruct ((0 <=? r - 1) && (r - 1 <=? p + 1)) eqn:E1, ((0 <=? r) && (r <=? p + 1)) eqn:E2.
    + pose proof (G_pos (p + 1) (r - 1) ltac:(lia) Hd) as G1. pose proof (G_pos (p + 1) r ltac:(lia) Hd) as G2.
      rewrite (VR (r - 1)), (VR r) by lia.
      assert (X1 : G (p + 1) (r - 1) = (t (c + r)%Z - k1)%R).
      { unfold G, k1. f_equal; f_equal; lia. }
      assert (X2 : G (p + 1) r = (k2 - t (c - p - 1 + r)%Z)%R).
      { unfold G, k2. f_equal; f_equal; lia. }
      replace (c - p - 1 + (r - 1)) with (c - (p + 1) - 1 + r) by lia. fold k1. replace (c + (r - 1) + 1) with (c + r) by lia.
      fold k2. rewrite X1, X2 in *. field. split; lra.
    + assert (r = p + 1 + 1) by lia. rewrite (Aq_out (p + 1) r), (Aq_out p (r - 1)) by lia.
      pose proof (G_pos (p + 1) (r - 1) ltac:(lia) Hd) as G1.
      rewrite (VR (r - 1)) by lia. rewrite (Aq_out p (r - 1)) by lia.
      replace (c - p - 1 + (r - 1)) with (c - (p + 1) - 1 + r) by lia. fold k1. field. lra.
    + assert (r = 0) by lia. rewrite (Aq_out (p + 1) (r - 1)), (Aq_out p (r - 1)) by lia.
      pose proof (G_pos (p + 1) r ltac:(lia) Hd) as G1.
      rewrite (VR r) by lia. rewrite (Aq_out p (r - 1)) by lia. fold k2. field. lra.
    + rewrite (Aq_out (p + 1) (r - 1)), (Aq_out (p + 1) r) by lia. ring.
Qed.

(** ** Derivatives of any order *)
(** [q] falling [k]: q (q - 1) ... (q - k + 1). *)
Fixpoint falling (q : Z) (k : nat) : R := match k with O => 1%R | S k' => (falling q k' * IZR (q - Z.of_nat k'))%R end.
(** For a family of factors [g q m]: the coefficients of the k-th derivative of the B-spline [r]. *)
Fixpoint coef (g : Z -> Z -> R) (p r : Z) (k : nat) (m : Z) : R :=
  match k with
  | O => if m =? r then 1%R else 0%R
  | S k' => if (0 <=? m) && (m <=? p - Z.of_nat k) then ((coef g p r k' (m + 1)%Z - coef g p r k' m) * g (p - Z.of_nat k)%Z m)%R else 0%R
  end.
Lemma coef_S g p r k m : 0 <= m <= p - Z.of_nat (S k) ->
  coef g p r (S k) m = ((coef g p r k (m + 1)%Z - coef g p r k m) * g (p - Z.of_nat (S k))%Z m)%R.
Proof. intros H. cbn [coef]. destruct ((0 <=? m) && (m <=? p - Z.of_nat (S k))) eqn:E; [reflexivity | lia]. Qed.
Lemma coef_support g p r k : forall m, m < r - Z.of_nat k \/ r < m -> coef g p r k m = 0%R.
Proof.
  induction k as [|k IH]; intros m H.
  - cbn. destruct (m =? r) eqn:E; [lia | reflexivity].
  - cbn [coef]. destruct ((0 <=? m) && (m <=? p - Z.of_nat (S k))); [|reflexivity]. rewrite !IH by lia. ring.
Qed.
Lemma coef_range g p r k m : 0 <= r <= p -> m < 0 \/ p - Z.of_nat k < m -> coef g p r k m = 0%R.
Proof.
  intros Hr H. destruct k as [|k].
  - cbn. destruct (m =? r) eqn:E; [lia | reflexivity].
  - cbn [coef]. destruct ((0 <=? m) && (m <=? p - Z.of_nat (S k))) eqn:E; [lia | reflexivity].
Qed.
Definition Gi (q m : Z) : R := (/ G q m)%R.
Definition kth (p r : Z) (k : nat) (x : R) : R :=
  (falling p k * zsum (p - Z.of_nat k + 1)%Z (fun m => coef Gi p r k m * V (p - Z.of_nat k)%Z m x))%R.
Lemma kth_deriv p r k x : 0 <= r <= p -> p <= d -> Z.of_nat k + 1 <= p -> derivable_pt_lim (kth p r k) x (kth p r (S k) x).
Proof.
  intros Hr Hd Hk. set (q := p - Z.of_nat (S k)). unfold kth. fold q.
  replace (p - Z.of_nat k) with (q + 1) by lia.
  eapply dpl_ext; [intros y; reflexivity | |
    apply dpl_scal, (zsum_deriv _ (fun m y => coef Gi p r k m * V (q + 1)%Z m y)%R
                        (fun m y => coef Gi p r k m * (IZR (q + 1) * (Aq q (m - 1)%Z y - Aq q m y)))%R);
    intros m Hm; apply dpl_scal, V_deriv; lia].
  cbn [falling]. rewrite Rmult_assoc. f_equal. replace (p - Z.of_nat k) with (q + 1) by lia.
  rewrite (zsum_ext _ _ (fun m => IZR (q + 1) * (coef Gi p r k m * Aq q (m - 1)%Z x + - (coef Gi p r k m * Aq q m x)))%R) by (intros; ring).
  rewrite zsum_scal, zsum_plus. f_equal.
  rewrite (zsum_shift (q + 1) (fun m => coef Gi p r k m * Aq q (m - 1)%Z x)%R) by lia.
  rewrite (zsum_S (q + 1) (fun m => - (coef Gi p r k m * Aq q m x))%R) by lia.
  rewrite (Aq_out q (0 - 1)), (Aq_out q (q + 1)) by lia.
  transitivity (zsum (q + 1)%Z (fun m => coef Gi p r k (m + 1)%Z * Aq q (m + 1 - 1)%Z x + - (coef Gi p r k m * Aq q m x)))%R.
  { rewrite zsum_plus. ring. }
  apply zsum_ext. intros m Hm. rewrite coef_S by lia. fold q. replace (m + 1 - 1) with m by ring. rewrite Aq_in by lia. unfold Gi, Rdiv. ring.
Qed.
Lemma kth_0 p r x : 0 <= r <= p -> kth p r 0 x = V p r x.
Proof.
  intros Hr. unfold kth. cbn [falling coef]. change (Z.of_nat 0) with 0. replace (p - 0) with p by ring. rewrite Rmult_1_l.
  assert (H : forall n, 0 <= n -> zsum n (fun m => (if m =? r then 1 else 0) * V p m x)%R = if r <? n then V p r x else 0%R).
  { intros n Hn. pattern n. apply natlike_ind; [| | exact Hn].
    - rewrite zsum_0. destruct (r <? 0) eqn:E; [lia | reflexivity].
    - clear n Hn. intros n Hn IH. rewrite <- Z.add_1_r, zsum_S, IH by lia.
      destruct (r <? n) eqn:E1, (r <? n + 1) eqn:E2, (n =? r) eqn:E3; try lia; try ring.
      replace n with r by lia. ring. }
  rewrite H by lia. destruct (r <? p + 1) eqn:E; [reflexivity | lia].
Qed.
Lemma nth_derivative_ext k : forall f g f' g', (forall x, f x = f' x) -> (forall x, g x = g' x) -> nth_derivative k f g -> nth_derivative k f' g'.
Proof.
  induction k as [|k IH]; intros f g f' g' Hf Hg H.
  - intros x. rewrite <- Hf, <- Hg. apply H.
  - destruct H as (h & Hd & Hn). exists h. split.
    + intros x. apply (dpl_ext f f' x (h x)); [exact Hf | reflexivity | apply Hd].
    + now apply (IH h g).
Qed.
Lemma kth_nth p r k : 0 <= r <= p -> p <= d -> Z.of_nat k <= p -> nth_derivative k (V p r) (kth p r k).
Proof.
  intros Hr Hd Hk. apply (nth_derivative_ext k (kth p r 0) (kth p r k)); [intros x; now apply kth_0 | reflexivity|].
  assert (H : forall k j, Z.of_nat j + Z.of_nat k <= p -> nth_derivative k (kth p r j) (kth p r (j + k))).
  { clear k Hk. induction k as [|k IH]; intros j Hj.
    - intros x. now rewrite Nat.add_0_r.
    - exists (kth p r (S j)). split; [intros x; apply kth_deriv; lia|].
      replace (j + S k)%nat with (S j + k)%nat by lia. apply IH. lia. }
  apply (H k 0%nat). lia.
Qed.
End Cell.
