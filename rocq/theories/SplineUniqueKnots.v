(** Interpolation by periodic splines of odd degree at the knots: at most one solution, on any number of cells. *)
From Coq Require Import Reals ZArith Lia Lra.
From Verif Require Import BSplineSpec BSplineMath BSplineDeriv SplineZeros SplineTower SplineUniquePeriodic.
Local Open Scope Z_scope.

Section Knots.
Context (t : Z -> R) (p : nat) (n : Z) (L : R) (c : Z -> R).
Let d := 2 * Z.of_nat p - 1.
Hypothesis Hp : (1 <= p)%nat.
Hypothesis Hn : 1 <= n.
Hypothesis cells : forall k, (t k < t (k + 1)%Z)%R.
Hypothesis period : forall k, t (k + n) = (t k + L)%R.
Hypothesis period_c : forall i, c (i + n) = c i.
Let P := pieces t d c.
Hypothesis zeros : forall k, P 0 k (t k) = 0%R.

Lemma k_deriv l k x : (l < Z.to_nat d)%nat -> derivable_pt_lim (P l k) x (P (S l) k x).
Proof. intros Hl. apply (pieces_deriv t d (p_mono t cells)); [lia | apply cells]. Qed.
Lemma k_glue l k : (l < Z.to_nat d)%nat -> P l k (t (k + 1)%Z) = P l (k + 1) (t (k + 1)%Z).
Proof. intros Hl. apply (pieces_glue t d); [lia | apply cells | apply cells]. Qed.
Lemma k_period l k : P l (k + n) (t (k + n)%Z) = P l k (t k).
Proof. rewrite period. apply (p_pieces t d c l L n period period_c). Qed.
(** A function with the derivative (P p)^2. *)
Fixpoint energy (m : nat) (k : Z) (x : R) : R :=
  match m with
  | O => (P (p - 1) k x * P p k x)%R
  | S m' => (energy m' k x + (-1) ^ m * (P (p - 1 - m) k x * P (p + m) k x))%R
  end.
Definition next (l : nat) (k : Z) (x : R) : R := if (l <=? Z.to_nat d)%nat then P l k x else 0%R.
Lemma k_next l k x : (l <= Z.to_nat d)%nat -> derivable_pt_lim (P l k) x (next (S l) k x).
Proof.
  intros Hl. unfold next. destruct (S l <=? Z.to_nat d)%nat eqn:E.
  - apply Nat.leb_le in E. apply k_deriv. lia.
  - apply Nat.leb_gt in E. assert (l = Z.to_nat d) as -> by lia.
    apply (derivable_pt_lim_locally_ext (fct_cte (P (Z.to_nat d) k x)) _ x (x - 1) (x + 1)); [lra | | apply derivable_pt_lim_const].
    intros z _. unfold fct_cte, P. rewrite !pieces_top by (unfold d; lia). reflexivity.
Qed.
Lemma product_deriv f g x f' g' : derivable_pt_lim f x f' -> derivable_pt_lim g x g' -> derivable_pt_lim (fun y => f y * g y)%R x (f' * g x + f x * g')%R.
Proof. intros H1 H2. exact (derivable_pt_lim_mult f g x f' g' H1 H2). Qed.
Lemma energy_deriv m k x : (m < p)%nat -> derivable_pt_lim (energy m k) x ((P p k x) ^ 2 + (-1) ^ m * (P (p - 1 - m) k x * next (p + m + 1) k x))%R.
Proof.
  induction m as [|m IH]; intros Hm.
  - pose proof (k_next (p - 1) k x ltac:(unfold d; lia)) as D1. pose proof (k_next p k x ltac:(unfold d; lia)) as D2.
    pose proof (product_deriv _ _ _ _ _ D1 D2) as D. replace (S (p - 1)) with p in D by lia.
    assert (E : next p k x = P p k x) by (unfold next; replace (p <=? Z.to_nat d)%nat with true by (symmetry; apply Nat.leb_le; unfold d; lia); reflexivity). rewrite E in D.
    cbn [pow]. rewrite Nat.sub_0_r, Nat.add_0_r. replace (p + 1)%nat with (S p) by lia.
    replace (P p k x * (P p k x * 1) + 1 * (P (p - 1) k x * next (S p) k x))%R with (P p k x * P p k x + P (p - 1) k x * next (S p) k x)%R by ring. exact D.
  - specialize (IH ltac:(lia)). cbn [energy].
    pose proof (k_next (p - 1 - S m) k x ltac:(unfold d; lia)) as D1. pose proof (k_next (p + S m) k x ltac:(unfold d; lia)) as D2.
    pose proof (product_deriv _ _ _ _ _ D1 D2) as D. replace (S (p - 1 - S m)) with (p - 1 - m)%nat in D by lia. replace (S (p + S m)) with (p + S m + 1)%nat in D by lia.
    pose proof (derivable_pt_lim_scal _ ((-1) ^ S m) _ _ D) as D3. pose proof (derivable_pt_lim_plus _ _ _ _ _ IH D3) as D4.
    assert (E1 : next (p - 1 - m) k x = P (p - 1 - m) k x) by (unfold next; replace (p - 1 - m <=? Z.to_nat d)%nat with true by (symmetry; apply Nat.leb_le; unfold d; lia); reflexivity).
    assert (E2 : next (p + m + 1) k x = P (p + S m) k x) by (unfold next; replace (p + m + 1 <=? Z.to_nat d)%nat with true by (symmetry; apply Nat.leb_le; unfold d; lia); f_equal; lia).
    rewrite E1, E2 in D4. unfold plus_fct, mult_real_fct in D4.
    match goal with |- derivable_pt_lim _ _ ?r => match type of D4 with derivable_pt_lim _ _ ?r' => replace r with r'; [exact D4|] end end. cbn [pow]. ring.
Qed.
Definition energy_at (k : Z) (x : R) : R := energy (p - 1) k x.
Lemma energy_at_deriv k x : derivable_pt_lim (energy_at k) x ((P p k x) ^ 2)%R.
Proof.
  pose proof (energy_deriv (p - 1) k x ltac:(lia)) as D. unfold next in D. replace (p + (p - 1) + 1 <=? Z.to_nat d)%nat with false in D by (symmetry; apply Nat.leb_gt; unfold d; lia).
  rewrite !Rmult_0_r, Rplus_0_r in D. exact D.
Qed.
Lemma zeros_right k : P 0 k (t (k + 1)%Z) = 0%R.
Proof. rewrite k_glue by (unfold d; lia). apply zeros. Qed.
Lemma energy_glue_part m k : (m < p)%nat -> energy m k (t (k + 1)%Z) = energy m (k + 1) (t (k + 1)%Z).
Proof.
  assert (TERM : forall m, (m < p)%nat -> (P (p - 1 - m) k (t (k + 1)%Z) * P (p + m) k (t (k + 1)%Z) = P (p - 1 - m) (k + 1) (t (k + 1)%Z) * P (p + m) (k + 1) (t (k + 1)%Z))%R).
  { clear m. intros m Hm. destruct (Nat.eq_dec m (p - 1)) as [E|E].
    - replace (p - 1 - m)%nat with 0%nat by lia. rewrite zeros_right, zeros. ring.
    - rewrite !k_glue by (unfold d; lia). reflexivity. }
  induction m as [|m IH]; intros Hm; cbn [energy].
  - pose proof (TERM 0%nat Hm) as E. rewrite Nat.sub_0_r, Nat.add_0_r in E. exact E.
  - rewrite IH by lia. rewrite (TERM (S m)) by lia. reflexivity.
Qed.
Lemma energy_period m k : energy m (k + n) (t (k + n)%Z) = energy m k (t k).
Proof. induction m as [|m IH]; cbn [energy]; [|rewrite IH]; rewrite !k_period; reflexivity. Qed.
Let u (k : Z) : R := energy_at k (t k).
Lemma u_step k : (u k <= u (k + 1)%Z)%R.
Proof.
  unfold u. unfold energy_at at 2. rewrite <- energy_glue_part by lia. fold (energy_at k (t (k + 1))).
  destruct (MVT_cor2 (energy_at k) (fun y => P p k y ^ 2)%R (t k) (t (k + 1)) (cells k)) as (z & Hz & _); [intros; apply energy_at_deriv|].
  pose proof (pow2_ge_0 (P p k z)). pose proof (cells k). nra.
Qed.
Lemma u_const k : u (k + 1) = u k.
Proof.
  assert (INC : forall (q : nat) k, (u k <= u (k + Z.of_nat q))%R).
  { clear k. induction q as [|q IH]; intros k; [replace (k + Z.of_nat 0) with k by lia; lra|]. replace (k + Z.of_nat (S q)) with (k + Z.of_nat q + 1) by lia. pose proof (IH k). pose proof (u_step (k + Z.of_nat q)). lra. }
  pose proof (INC (Z.to_nat (n - 1)) (k + 1)) as K. replace (k + 1 + Z.of_nat (Z.to_nat (n - 1))) with (k + n) in K by lia.
  assert (E : u (k + n) = u k) by apply energy_period. pose proof (u_step k). lra.
Qed.
Lemma flat k x : (t k < x < t (k + 1)%Z)%R -> P p k x = 0%R.
Proof.
  intros Hx.
  assert (MONO : forall y z, (y < z)%R -> (energy_at k y <= energy_at k z)%R).
  { intros y z Hyz. destruct (MVT_cor2 (energy_at k) (fun y => P p k y ^ 2)%R y z Hyz) as (w & Hw & _); [intros; apply energy_at_deriv|]. pose proof (pow2_ge_0 (P p k w)). nra. }
  assert (ENDS : energy_at k (t (k + 1)) = energy_at k (t k)).
  { pose proof (u_const k) as E. unfold u in E. unfold energy_at in E at 1. rewrite <- energy_glue_part in E by lia. exact E. }
  assert (CST : forall y, (t k < y < t (k + 1)%Z)%R -> energy_at k y = energy_at k (t k)).
  { intros y Hy. pose proof (MONO (t k) y ltac:(lra)). pose proof (MONO y (t (k + 1)) ltac:(lra)). lra. }
  assert (D0 : derivable_pt_lim (energy_at k) x 0%R).
  { apply (derivable_pt_lim_locally_ext (fct_cte (energy_at k (t k))) _ x (t k) (t (k + 1)) 0 Hx); [intros y Hy; unfold fct_cte; symmetry; apply CST; exact Hy | apply derivable_pt_lim_const]. }
  pose proof (uniqueness_limite _ _ _ _ D0 (energy_at_deriv k x)) as E. symmetry in E. apply Rsqr_0_uniq. unfold Rsqr. cbn [pow] in E. lra.
Qed.
(** Downwards from the order p to the order 0. *)
Lemma k_const l k : (l < p)%nat -> (forall x, (t k < x < t (k + 1)%Z)%R -> P (S l) k x = 0%R) -> forall x, (t k <= x <= t (k + 1)%Z)%R -> P l k x = P l k (t k).
Proof.
  intros Hl H x Hx. destruct (Req_dec x (t k)) as [E|E]; [rewrite E; reflexivity|].
  destruct (MVT_cor2 (P l k) (P (S l) k) (t k) x ltac:(lra)) as (z & Hz & Hin); [intros; apply k_deriv; unfold d; lia|]. rewrite (H z) in Hz by lra. lra.
Qed.
Lemma orders j : (j <= p)%nat -> forall k x, (t k < x < t (k + 1)%Z)%R -> P (p - j) k x = 0%R.
Proof.
  induction j as [|j IH]; intros Hj k x Hx; [rewrite Nat.sub_0_r; apply flat; exact Hx|].
  specialize (IH ltac:(lia)). set (l := (p - S j)%nat). assert (El : (p - j)%nat = S l) by (unfold l; lia). rewrite El in IH.
  assert (CST : forall k x, (t k <= x <= t (k + 1)%Z)%R -> P l k x = P l k (t k)) by (intros k' x'; apply k_const; [unfold l; lia | apply IH]).
  rewrite (CST k x) by lra. destruct l as [|l'] eqn:E; [apply zeros|].
  set (v := fun k => P l' k (t k)).
  assert (GLOB : forall k, P (S l') (k + 1) (t (k + 1)%Z) = P (S l') k (t k)).
  { intros k'. rewrite <- k_glue by (unfold d, l in *; lia). apply CST. pose proof (cells k'). lra. }
  assert (VS : forall k, v (k + 1) = (v k + P (S l') k (t k) * (t (k + 1)%Z - t k))%R).
  { intros k'. unfold v. rewrite <- k_glue by (unfold d, l in *; lia).
    destruct (MVT_cor2 (P l' k') (P (S l') k') (t k') (t (k' + 1)) (cells k')) as (z & Hz & Hin); [intros; apply k_deriv; unfold d, l in *; lia|]. rewrite (CST k' z) in Hz by lra. lra. }
  assert (SUM : forall q : nat, P (S l') (k + Z.of_nat q) (t (k + Z.of_nat q)%Z) = P (S l') k (t k) /\ v (k + Z.of_nat q) = (v k + P (S l') k (t k) * (t (k + Z.of_nat q)%Z - t k))%R).
  { induction q as [|q [IH1 IH2]]; [replace (k + Z.of_nat 0) with k by lia; split; [reflexivity | ring]|].
    replace (k + Z.of_nat (S q)) with (k + Z.of_nat q + 1) by lia. split; [rewrite GLOB; exact IH1|]. rewrite VS, IH1, IH2. ring. }
  destruct (SUM (Z.to_nat n)) as [_ SN]. rewrite Z2Nat.id in SN by lia. unfold v in SN. rewrite k_period, period in SN.
  assert (HL : (0 < L)%R). { pose proof (p_lt t cells 0 n ltac:(lia)) as K. pose proof (period 0) as K2. change (0 + n) with n in K2. lra. }
  apply Rmult_eq_reg_r with L; [lra | lra].
Qed.
Theorem knots_vanish i : c i = 0%R.
Proof.
  assert (Hd : 1 <= d) by (unfold d; lia).
  assert (T : tower (Z.to_nat d) t P i (i + 1)) by (apply spline_tower; [exact Hd | exact (p_mono t cells) | intros; apply cells]).
  apply (zero_coefficients t d Hd (p_mono t cells) c i (cells i)); [|lia].
  apply (zero_everywhere (Z.to_nat d) t P i (i + 1) T i (t i) (t (i + 1))); [lia | apply cells|]. intros x Hx. pose proof (orders p ltac:(lia) i x Hx) as E. rewrite Nat.sub_diag in E. exact E.
Qed.
End Knots.
