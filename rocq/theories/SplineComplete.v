(** All piecewise polynomials of degree d with d - 1 continuous derivatives are combinations of B-splines. *)
From Coq Require Import Reals ZArith Lia Lra.
From Verif Require Import BSplineSpec BSplineMath BSplineDeriv SplineZeros SplineTower.
Local Open Scope Z_scope.

(** A function whose derivative is 0 is constant. *)
Lemma zero_derivative (f : R -> R) : (forall x, derivable_pt_lim f x 0%R) -> forall x y, f x = f y.
Proof.
  intros H. assert (pr : derivable f) by (intro x; exists 0%R; apply H).
  intros x y. apply (null_derivative_1 f pr). intro z. apply (derive_pt_eq_0 f z 0%R (pr z)). apply H.
Qed.
Lemma same_derivative (f g f' : R -> R) : (forall x, derivable_pt_lim f x (f' x)) -> (forall x, derivable_pt_lim g x (f' x)) -> forall x y, (f x - g x)%R = (f y - g y)%R.
Proof.
  intros H1 H2. apply (zero_derivative (fun x => f x - g x)%R). intro x. replace 0%R with (f' x - f' x)%R by ring. apply (derivable_pt_lim_minus f g x); [apply H1 | apply H2].
Qed.

Section Complete.
Context (t : Z -> R) (d : Z) (P : nat -> Z -> R -> R) (lo hi : Z).
Hypothesis mono : forall i j, i <= j -> (t i <= t j)%R.
Hypothesis T : tower (Z.to_nat d) t P lo hi.
Hypothesis Hd : 0 <= d.
Hypothesis Hlo : lo < hi.

Lemma all_cells k : lo <= k < hi -> (t k < t (k + 1)%Z)%R. Proof. exact (tw_knots _ _ _ _ _ T k). Qed.

Lemma one_sum e k x : 0 <= e -> lo <= k < hi -> zsum (e + 1) (fun r => V t k e r x) = 1%R.
Proof.
  intros He Hk. assert (M : forall a b, k - e + 1 <= a <= b -> b <= k + e -> (t a <= t b)%R) by (intros; apply mono; lia).
  pose proof (V_sum t k e M (all_cells k Hk) e He ltac:(lia) x) as S. rewrite (sum_f_R0_zsum (fun r => V t k e r x)) in S. rewrite Z2Nat.id in S by lia. exact S.
Qed.
Definition represents (e : nat) (f : Z -> R) : Prop :=
  forall k x, lo <= k < hi -> zsum (Z.of_nat e + 1) (fun r => f (k - Z.of_nat e + r)%Z * V t k (Z.of_nat e) r x)%R = P (Z.to_nat d - e) k x.
Lemma represents_0 : exists f, represents 0 f.
Proof.
  exists (fun i => P (Z.to_nat d) i 0%R). intros k x Hk. change (Z.of_nat 0) with 0. rewrite (zsum_S 0) by lia. rewrite zsum_0, V_0. replace (k - 0 + 0) with k by lia.
  replace (Z.to_nat d - 0)%nat with (Z.to_nat d) by lia. rewrite (tw_const _ _ _ _ _ T k 0%R x Hk). ring.
Qed.
Lemma represents_S e f : (e < Z.to_nat d)%nat -> represents e f -> exists g, represents (S e) g.
Proof.
  intros He Hf. set (p := Z.of_nat e) in *. assert (Hp : 0 <= p) by lia.
  set (w := fun i => (f i * (t (i + (p + 1))%Z - t i) / IZR (p + 1))%R). set (g := fun i => zsum (i - (lo - p) + 1) (fun m => w (lo - p + m))).
  assert (Hg : forall i, lo - p <= i -> (g i - g (i - 1)%Z)%R = w i).
  { intros i Hi. unfold g. replace (i - 1 - (lo - p) + 1) with (i - (lo - p)) by lia. rewrite zsum_S by lia. replace (lo - p + (i - (lo - p))) with i by lia. ring. }
  set (Q := fun k x => zsum (p + 1 + 1) (fun r => g (k - (p + 1) + r)%Z * V t k (p + 1) r x)%R).
  assert (EQ : forall k x, Q k x = pieces t (p + 1) g 0 k x).
  { intros k x. unfold Q, pieces. change (Z.of_nat 0) with 0. rewrite Z.sub_0_r. reflexivity. }
  set (l := (Z.to_nat d - S e)%nat). assert (El : (Z.to_nat d - e)%nat = S l) by lia.
  assert (DQ : forall k x, lo <= k < hi -> derivable_pt_lim (Q k) x (P (S l) k x)).
  { intros k x Hk. eapply dpl_ext; [intro y; symmetry; apply EQ | | apply (pieces_deriv t (p + 1) mono g 0 k x ltac:(lia) (all_cells k Hk))].
    rewrite <- El, <- (Hf k x Hk). unfold pieces. replace (p + 1 - Z.of_nat 1) with p by lia. apply zsum_ext. intros r Hr. f_equal. cbn [dcoef]. change (Z.of_nat 0) with 0. rewrite Z.sub_0_r.
    rewrite Hg by lia. set (i := k - p + r). unfold w.
    assert (0 < t (i + (p + 1))%Z - t i)%R. { pose proof (mono i k ltac:(lia)). pose proof (mono (k + 1) (i + (p + 1)) ltac:(lia)). pose proof (all_cells k Hk). lra. }
    assert (IZR (p + 1) <> 0%R) by (apply not_0_IZR; lia). change (k - Z.of_nat e + r) with i. field. split; first [assumption | lra]. }
  assert (DP : forall k x, lo <= k < hi -> derivable_pt_lim (P l k) x (P (S l) k x)) by (intros k x Hk; apply (tw_deriv _ _ _ _ _ T); lia).
  set (C := (Q lo 0 - P l lo 0)%R).
  assert (CST : forall m k, k = lo + Z.of_nat m -> k < hi -> forall x, (Q k x - P l k x)%R = C).
  { induction m as [|m IH]; intros k Ek Hk x.
    - assert (k = lo) as -> by lia. apply (same_derivative (Q lo) (P l lo) (P (S l) lo)); intro; [apply DQ | apply DP]; lia.
    - rewrite (same_derivative (Q k) (P l k) (P (S l) k)) with (y := t k); [|intro; apply DQ; lia | intro; apply DP; lia].
      pose proof (IH (k - 1) ltac:(lia) ltac:(lia) (t k)) as E. rewrite <- E. replace k with (k - 1 + 1) at 1 2 3 4 by lia.
      rewrite <- (tw_glue _ _ _ _ _ T l (k - 1)) by lia. rewrite !EQ. rewrite <- (pieces_glue t (p + 1) g 0 (k - 1)) by first [lia | apply all_cells; lia]. replace (k - 1 + 1) with k by lia. reflexivity. }
  exists (fun i => g i - C)%R. intros k x Hk. replace (Z.of_nat (S e)) with (p + 1) by lia. fold l.
  transitivity (Q k x - C)%R.
  - transitivity (Q k x + (- C) * zsum (p + 1 + 1) (fun r => V t k (p + 1) r x))%R; [|rewrite one_sum by lia; ring].
    unfold Q. rewrite <- zsum_scal, <- zsum_plus. apply zsum_ext. intros r _. ring.
  - rewrite <- (CST (Z.to_nat (k - lo)) k ltac:(lia) ltac:(lia) x). ring.
Qed.
Lemma represents_all e : (e <= Z.to_nat d)%nat -> exists f, represents e f.
Proof. induction e as [|e IH]; intros He; [exact represents_0|]. destruct (IH ltac:(lia)) as (f & Hf). exact (represents_S e f ltac:(lia) Hf). Qed.
Theorem complete : exists c, forall k x, lo <= k < hi -> pieces t d c 0 k x = P 0 k x.
Proof.
  destruct (represents_all (Z.to_nat d) (Nat.le_refl _)) as (c & Hc). exists c. intros k x Hk. pose proof (Hc k x Hk) as E. replace (Z.to_nat d - Z.to_nat d)%nat with 0%nat in E by lia. rewrite <- E.
  unfold pieces. change (Z.of_nat 0) with 0. rewrite Z.sub_0_r, Z2Nat.id by lia. reflexivity.
Qed.
End Complete.
