(** Continuity, derivatives and rates of growth of functions made of the pieces of a tower. *)
From Coq Require Import Reals ZArith Lia Lra.
From Verif Require Import BSplineSpec BSplineMath BSplineDeriv EvaluatorLemmas SplineZeros SplineTower.
Local Open Scope Z_scope.

Lemma cont_glue (f l r : R -> R) x lo hi : (lo < x < hi)%R -> (forall y, (lo <= y <= x)%R -> f y = l y) -> (forall y, (x <= y <= hi)%R -> f y = r y) ->
  continuity_pt l x -> continuity_pt r x -> continuity_pt f x.
Proof.
  intros Hx Hl Hr Cl Cr eps Heps. destruct (Cl eps Heps) as (dl & Hdl & Kl). destruct (Cr eps Heps) as (dr & Hdr & Kr).
  exists (Rmin (Rmin dl dr) (Rmin (x - lo) (hi - x))). split; [repeat apply Rmin_glb_lt; lra|].
  intros y [Dy Hy]. cbn [dist R_met Base] in *. unfold R_dist in *.
  pose proof (Rmin_l (Rmin dl dr) (Rmin (x - lo) (hi - x))). pose proof (Rmin_r (Rmin dl dr) (Rmin (x - lo) (hi - x))).
  pose proof (Rmin_l dl dr). pose proof (Rmin_r dl dr). pose proof (Rmin_l (x - lo) (hi - x)). pose proof (Rmin_r (x - lo) (hi - x)).
  assert (Hb : (Rabs (y - x) < x - lo /\ Rabs (y - x) < hi - x)%R) by lra. destruct Hb as [B1 B2]. apply Rabs_def2 in B1. apply Rabs_def2 in B2.
  destruct (Rle_dec y x) as [L|L].
  - rewrite (Hl y) by lra. rewrite (Hl x) by lra. apply Kl. split; [exact Dy | cbn [dist R_met Base]; unfold R_dist; lra].
  - rewrite (Hr y) by lra. rewrite (Hr x) by lra. apply Kr. split; [exact Dy | cbn [dist R_met Base]; unfold R_dist; lra].
Qed.
Lemma cont_of_dpl f x v : derivable_pt_lim f x v -> continuity_pt f x.
Proof. intros H. apply derivable_continuous_pt. exists v. exact H. Qed.
Lemma shift_dpl f x h v : derivable_pt_lim f (x + h) v -> derivable_pt_lim (fun y => f (y + h)%R) x v.
Proof. intros H eps Heps. destruct (H eps Heps) as (del & K). exists del. intros e He1 He2. replace (x + e + h)%R with (x + h + e)%R by ring. apply K; assumption. Qed.

Section Tower.
Context (D : nat) (xi : Z -> R) (P : nat -> Z -> R -> R) (lo hi : Z).
Hypothesis T : tower D xi P lo hi.
Notation at_ := (at_ xi lo hi).

(** Bounds on a derivative bound the growth of the derivative below it. *)
Lemma rate_cell l k x y m M : (l < D)%nat -> lo <= k < hi -> (x <= y)%R -> (forall z, (x <= z <= y)%R -> (m <= P (S l) k z <= M)%R) ->
  (m * (y - x) <= P l k y - P l k x <= M * (y - x))%R.
Proof.
  intros Hl Hk Hxy HB. destruct (Req_dec x y) as [<-|Hne]; [lra|].
  destruct (MVT_cor2 (P l k) (P (S l) k) x y ltac:(lra)) as (z & Hz & Hz2).
  - intros z Hz. apply (tw_deriv _ _ _ _ _ T); assumption.
  - rewrite Hz. specialize (HB z ltac:(lra)). split; apply Rmult_le_compat_r; lra.
Qed.
Lemma rate l m M (n : nat) : (l < D)%nat -> forall k x k' y, at_ k x -> at_ k' y -> (x <= y)%R -> k' = k + Z.of_nat n ->
  (forall j z, k <= j <= k' -> at_ j z -> (x <= z <= y)%R -> (m <= P (S l) j z <= M)%R) ->
  (m * (y - x) <= P l k' y - P l k x <= M * (y - x))%R.
Proof.
  intros Hl. induction n as [|n IH]; intros k x k' y Hx Hy Hxy Hk HB.
  - replace k' with k in * by lia. apply rate_cell; [exact Hl | exact (proj1 Hx) | exact Hxy|]. intros z Hz. apply HB; [lia | split; [exact (proj1 Hx)|] | exact Hz].
    destruct Hx as [_ Hx], Hy as [_ Hy]. lra.
  - pose proof Hx as [Hk1 Hx1]. pose proof Hy as [Hk2 Hy1].
    pose proof (xi_le D xi P lo hi T (k + 1) k' ltac:(lia) ltac:(lia) ltac:(lia)) as K.
    pose proof (tw_knots _ _ _ _ _ T (k + 1) ltac:(lia)) as K1.
    assert (HA : at_ (k + 1) (xi (k + 1))). { split; [lia | lra]. }
    assert (HB1 : at_ k (xi (k + 1))). { split; [lia | lra]. }
    pose proof (rate_cell l k x (xi (k + 1)) m M Hl Hk1 ltac:(lra)) as C1.
    pose proof (IH (k + 1) (xi (k + 1)) k' y HA Hy ltac:(lra) ltac:(lia)) as C2.
    assert (H1 : forall z, (x <= z <= xi (k + 1))%R -> (m <= P (S l) k z <= M)%R). { intros z Hz. apply HB; [lia | split; [lia | lra] | lra]. }
    assert (H2 : forall j z, k + 1 <= j <= k' -> at_ j z -> (xi (k + 1) <= z <= y)%R -> (m <= P (S l) j z <= M)%R). { intros j z Hj Hz Hz'. apply HB; [lia | exact Hz | lra]. }
    specialize (C1 H1). specialize (C2 H2). rewrite <- (tw_glue _ _ _ _ _ T l k Hl ltac:(lia) ltac:(lia)) in C2. lra.
Qed.
Lemma at_before k x k' y : at_ k x -> at_ k' y -> (x < y)%R -> k <= k'.
Proof. intros Hx Hy Hxy. destruct Hx as [H1 H2], Hy as [H3 H4]. destruct (Z.le_gt_cases k k') as [H|H]; [exact H|]. pose proof (xi_le D xi P lo hi T (k' + 1) k ltac:(lia) ltac:(lia) ltac:(lia)). lra. Qed.
Lemma rate_all l m M k x k' y : (l < D)%nat -> at_ k x -> at_ k' y -> (x <= y)%R -> (forall j z, at_ j z -> (x <= z <= y)%R -> (m <= P (S l) j z <= M)%R) ->
  (m * (y - x) <= P l k' y - P l k x <= M * (y - x))%R.
Proof.
  intros Hl Hx Hy Hxy HB. destruct (Req_dec x y) as [<-|Hne].
  - rewrite (at_same D xi P lo hi T l k x k' Hl Hx Hy). lra.
  - pose proof (at_before k x k' y Hx Hy ltac:(lra)). apply (rate l m M (Z.to_nat (k' - k)) Hl); [exact Hx | exact Hy | exact Hxy | lia|]. intros. apply HB; assumption.
Qed.

(** A function that is, on each cell, the piece of order l. *)
Context (l : nat) (f : R -> R).
Hypothesis Hl : (l < D)%nat.
Hypothesis Hf : forall k y, at_ k y -> f y = P l k y.
Lemma f_on k y : lo <= k < hi -> (xi k <= y <= xi (k + 1))%R -> f y = P l k y.
Proof. intros H1 H2. apply Hf. split; assumption. Qed.
(** The cells around a point. *)
Lemma around x : (xi lo < x < xi hi)%R -> lo < hi ->
  (exists k, lo <= k < hi /\ (xi k < x < xi (k + 1))%R) \/ (exists k, lo <= k /\ k + 1 < hi /\ x = xi (k + 1)).
Proof.
  intros Hx Hlt. destruct (at_exists xi lo hi x ltac:(lra) Hlt) as (k & Hk & Hkx).
  destruct (Req_dec x (xi (k + 1))) as [E|E].
  - right. exists k. split; [lia|]. split; [|exact E]. destruct (Z.eq_dec (k + 1) hi) as [e|e]; [rewrite e in E; lra | lia].
  - destruct (Req_dec x (xi k)) as [E'|E'].
    + right. exists (k - 1). replace (k - 1 + 1) with k by lia. split; [|split; [lia | exact E']]. destruct (Z.eq_dec k lo) as [e|e]; [subst k; lra | lia].
    + left. exists k. split; [exact Hk | lra].
Qed.
Lemma tower_continuous x : (xi lo < x < xi hi)%R -> lo < hi -> continuity_pt f x.
Proof.
  intros Hx Hlt. destruct (around x Hx Hlt) as [(k & Hk & Hkx) | (k & H1 & H2 & ->)].
  - apply (cont_of_dpl f x (P (S l) k x)). apply (dpl_local (P l k) f x _ (xi k) (xi (k + 1)) Hkx).
    + intros y Hy. symmetry. apply f_on; [exact Hk | lra].
    + apply (tw_deriv _ _ _ _ _ T); assumption.
  - pose proof (tw_knots _ _ _ _ _ T k ltac:(lia)). pose proof (tw_knots _ _ _ _ _ T (k + 1) ltac:(lia)).
    apply (cont_glue f (P l k) (P l (k + 1)) (xi (k + 1)) (xi k) (xi (k + 1 + 1))); [lra | | | |].
    + intros y Hy. apply f_on; [lia | lra].
    + intros y Hy. apply f_on; [lia | lra].
    + apply (cont_of_dpl _ _ (P (S l) k (xi (k + 1)))). apply (tw_deriv _ _ _ _ _ T); [assumption | lia].
    + apply (cont_of_dpl _ _ (P (S l) (k + 1) (xi (k + 1)))). apply (tw_deriv _ _ _ _ _ T); [assumption | lia].
Qed.
Lemma tower_derivable x k : (xi lo < x < xi hi)%R -> at_ k x -> (S l < D)%nat \/ (forall j, xi j <> x) -> derivable_pt_lim f x (P (S l) k x).
Proof.
  intros Hx Hk Hs. assert (Hlt : lo < hi) by (destruct Hk; lia). destruct (around x Hx Hlt) as [(j & Hj & Hjx) | (j & H1 & H2 & ->)].
  - assert (k = j) as ->.
    { destruct Hk as [H1 H2]. destruct (Z_lt_ge_dec k j) as [C|C]; [pose proof (xi_le D xi P lo hi T (k + 1) j ltac:(lia) ltac:(lia) ltac:(lia)); lra|].
      destruct (Z_lt_ge_dec j k) as [C'|C']; [pose proof (xi_le D xi P lo hi T (j + 1) k ltac:(lia) ltac:(lia) ltac:(lia)); lra | lia]. }
    apply (dpl_local (P l j) f x _ (xi j) (xi (j + 1)) Hjx); [intros y Hy; symmetry; apply f_on; [exact Hj | lra] | apply (tw_deriv _ _ _ _ _ T); assumption].
  - destruct Hs as [Hs | Hs]; [|exfalso; exact (Hs (j + 1) eq_refl)].
    pose proof (tw_knots _ _ _ _ _ T j ltac:(lia)). pose proof (tw_knots _ _ _ _ _ T (j + 1) ltac:(lia)).
    assert (A1 : at_ j (xi (j + 1))) by (split; [lia | lra]). assert (A2 : at_ (j + 1) (xi (j + 1))) by (split; [lia | lra]).
    apply (dpl_glue f (P l j) (P l (j + 1)) (xi (j + 1)) _ (xi j) (xi (j + 1 + 1))); [lra | | | |].
    + intros y Hy. apply f_on; [lia | lra].
    + intros y Hy. apply f_on; [lia | lra].
    + rewrite (at_same D xi P lo hi T (S l) k (xi (j + 1)) j Hs Hk A1). apply (tw_deriv _ _ _ _ _ T); [assumption | lia].
    + rewrite (at_same D xi P lo hi T (S l) k (xi (j + 1)) (j + 1) Hs Hk A2). apply (tw_deriv _ _ _ _ _ T); [assumption | lia].
Qed.
End Tower.
