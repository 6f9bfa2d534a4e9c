(** Zeros of piecewise polynomials.  A tower is given by its polynomials P l k: the derivative of order l on the cell k,
    for the orders 0, ..., d and the cells lo, ..., hi - 1; the derivatives of order less than d are continuous, the derivative of order d is constant on each cell. *)
From Coq Require Import Reals ZArith Lia Lra List.
From Coq Require Import Classical.
From Verif Require Import BSplineSpec BSplineDeriv.
Import ListNotations.
Local Open Scope Z_scope.

Record tower (d : nat) (xi : Z -> R) (P : nat -> Z -> R -> R) (lo hi : Z) : Prop := {
  tw_knots : forall k, lo <= k < hi -> (xi k < xi (k + 1)%Z)%R;
  tw_deriv : forall l k x, (l < d)%nat -> lo <= k < hi -> derivable_pt_lim (P l k) x (P (S l) k x);
  tw_glue : forall l k, (l < d)%nat -> lo <= k -> k + 1 < hi -> P l k (xi (k + 1)%Z) = P l (k + 1)%Z (xi (k + 1)%Z);
  tw_const : forall k x y, lo <= k < hi -> P d k x = P d k y }.

Lemma tower_part d xi P lo hi lo' hi' : tower d xi P lo hi -> lo <= lo' -> hi' <= hi -> tower d xi P lo' hi'.
Proof.
  intros T H1 H2. constructor; intros.
  - apply (tw_knots _ _ _ _ _ T). lia.
  - apply (tw_deriv _ _ _ _ _ T); lia.
  - apply (tw_glue _ _ _ _ _ T); lia.
  - apply (tw_const _ _ _ _ _ T); lia.
Qed.

Section Tower.
Context (d : nat) (xi : Z -> R) (P : nat -> Z -> R -> R) (lo hi : Z).
Hypothesis T : tower d xi P lo hi.
(** The point x is in the cell k. *)
Definition at_ (k : Z) (x : R) : Prop := lo <= k < hi /\ (xi k <= x <= xi (k + 1)%Z)%R.

Lemma xi_mono i n : lo <= i -> i + Z.of_nat n <= hi -> (xi i <= xi (i + Z.of_nat n)%Z)%R.
Proof.
  induction n as [|n IH]; intros H1 H2.
  - rewrite Z.add_0_r. lra.
  - specialize (IH H1 ltac:(lia)). pose proof (tw_knots _ _ _ _ _ T (i + Z.of_nat n) ltac:(lia)) as K.
    replace (i + Z.of_nat (S n)) with (i + Z.of_nat n + 1) by lia. lra.
Qed.
Lemma xi_le i j : lo <= i -> i <= j -> j <= hi -> (xi i <= xi j)%R.
Proof. intros. replace j with (i + Z.of_nat (Z.to_nat (j - i))) by lia. apply xi_mono; lia. Qed.
Lemma xi_lt i j : lo <= i -> i < j -> j <= hi -> (xi i < xi j)%R.
Proof. intros. pose proof (tw_knots _ _ _ _ _ T i ltac:(lia)). pose proof (xi_le (i + 1) j ltac:(lia) ltac:(lia) ltac:(lia)). lra. Qed.
Lemma at_range k x : at_ k x -> (xi lo <= x <= xi hi)%R.
Proof. intros [H1 H2]. pose proof (xi_le lo k ltac:(lia) ltac:(lia) ltac:(lia)). pose proof (xi_le (k + 1) hi ltac:(lia) ltac:(lia) ltac:(lia)). lra. Qed.
Lemma at_order k x k' x' : at_ k x -> at_ k' x' -> (x < x')%R -> k <= k'.
Proof.
  intros [H1 H2] [H3 H4] H. destruct (Z.le_gt_cases k k') as [K|K]; [exact K|].
  pose proof (xi_le (k' + 1) k ltac:(lia) ltac:(lia) ltac:(lia)). lra.
Qed.
Lemma at_exists x : (xi lo <= x <= xi hi)%R -> lo < hi -> exists k, at_ k x.
Proof.
  intros Hx Hlt.
  assert (K : forall n, lo + Z.of_nat n <= hi -> (0 < n)%nat -> (x <= xi (lo + Z.of_nat n)%Z)%R -> exists k, at_ k x).
  { induction n as [|n IH]; intros H1 H2 H3; [lia|].
    destruct (Nat.eq_dec n 0) as [->|Hn].
    - exists lo. split; [lia|]. replace (lo + Z.of_nat 1) with (lo + 1) in H3 by lia. lra.
    - destruct (Rle_dec x (xi (lo + Z.of_nat n)%Z)) as [H4|H4]; [apply IH; [lia|lia|exact H4]|].
      exists (lo + Z.of_nat n). split; [lia|]. replace (lo + Z.of_nat (S n)) with (lo + Z.of_nat n + 1) in H3 by lia. lra. }
  apply (K (Z.to_nat (hi - lo))); [lia|lia|]. replace (lo + Z.of_nat (Z.to_nat (hi - lo))) with hi by lia. lra.
Qed.
(** The value of a continuous derivative does not depend on the cell. *)
Lemma at_same l k x k' : (l < d)%nat -> at_ k x -> at_ k' x -> P l k x = P l k' x.
Proof.
  intros Hl.
  assert (W : forall k k', at_ k x -> at_ k' x -> k <= k' -> P l k x = P l k' x).
  { clear k k'. intros k k' [H1 H2] [H3 H4] H. destruct (Z.eq_dec k k') as [->|Hne]; [reflexivity|].
    assert (k' = k + 1). { destruct (Z.eq_dec k' (k + 1)) as [e|e]; [exact e|]. pose proof (xi_lt (k + 1) k' ltac:(lia) ltac:(lia) ltac:(lia)). lra. }
    subst k'. assert (x = xi (k + 1)%Z) as -> by lra. apply (tw_glue _ _ _ _ _ T); lia. }
  intros Hk Hk'. destruct (Z.le_gt_cases k k'); [apply W; assumption | symmetry; apply W; [assumption|assumption|lia]].
Qed.

(** Mean value: a difference of values gives a value of the derivative of the same sign. *)
Lemma mvt_cell l k x y s : (l < d)%nat -> lo <= k < hi -> (x < y)%R -> (0 < s * (P l k y - P l k x))%R -> exists z, (x < z < y)%R /\ (0 < s * P (S l) k z)%R.
Proof.
  intros Hl Hk Hxy Hs.
  destruct (MVT_cor2 (P l k) (P (S l) k) x y Hxy) as (z & Hz & Hz2).
  { intros u _. apply (tw_deriv _ _ _ _ _ T); lia. }
  exists z. split; [exact Hz2|]. rewrite Hz in Hs. assert (0 < y - x)%R by lra.
  apply Rmult_lt_reg_r with (y - x)%R; [lra|]. rewrite Rmult_0_l. rewrite Rmult_assoc. exact Hs.
Qed.
Lemma mvt l s : (l < d)%nat -> forall n k x k' y, at_ k x -> at_ k' y -> (x < y)%R -> k' = k + Z.of_nat n -> (0 < s * (P l k' y - P l k x))%R ->
  exists j z, at_ j z /\ (x < z < y)%R /\ (0 < s * P (S l) j z)%R.
Proof.
  intros Hl. induction n as [|n IH]; intros k x k' y Hx Hy Hxy -> Hs.
  - rewrite Z.add_0_r in *. destruct Hx as [Hk Hx], Hy as [_ Hy].
    destruct (mvt_cell l k x y s Hl Hk Hxy Hs) as (z & Hz & Hp). exists k, z. split; [split; [exact Hk | lra]|]. split; assumption.
  - destruct Hx as [Hk Hx]. set (u := xi (k + 1)%Z) in *.
    assert (Hu : at_ (k + 1) u). { destruct Hy as [Hk' _]. split; [lia|]. pose proof (tw_knots _ _ _ _ _ T (k + 1) ltac:(lia)). unfold u. lra. }
    assert (Hg : P l k u = P l (k + 1) u). { destruct Hy as [Hk' _]. apply (tw_glue _ _ _ _ _ T); lia. }
    assert (Huy : (u <= y)%R). { destruct Hy as [Hk' Hy]. pose proof (xi_le (k + 1) (k + Z.of_nat (S n)) ltac:(lia) ltac:(lia) ltac:(lia)). unfold u. lra. }
    destruct (Rlt_dec 0 (s * (P l k u - P l k x))) as [H|H].
    + destruct (Req_dec x u) as [E|E]. { exfalso. rewrite E in H. replace (P l k u - P l k u)%R with 0%R in H by ring. lra. }
      destruct (mvt_cell l k x u s Hl Hk ltac:(lra) H) as (z & Hz & Hp). exists k, z. split; [split; [exact Hk | unfold u in *; lra]|]. split; [lra | exact Hp].
    + assert (H' : (0 < s * (P l (k + Z.of_nat (S n)) y - P l (k + 1) u))%R) by (rewrite Hg in H; lra).
      destruct (Req_dec u y) as [E|E].
      { exfalso. subst y. rewrite (at_same l (k + Z.of_nat (S n)) u (k + 1) Hl Hy Hu) in H'. replace (P l (k + 1) u - P l (k + 1) u)%R with 0%R in H' by ring. lra. }
      destruct (IH (k + 1) u (k + Z.of_nat (S n)) y Hu Hy ltac:(lra) ltac:(lia) H') as (j & z & Hj & Hz & Hp).
      exists j, z. split; [exact Hj|]. split; [lra | exact Hp].
Qed.
Lemma mean_value l s k x k' y : (l < d)%nat -> at_ k x -> at_ k' y -> (x < y)%R -> (0 < s * (P l k' y - P l k x))%R ->
  exists j z, at_ j z /\ (x < z < y)%R /\ (0 < s * P (S l) j z)%R.
Proof.
  intros Hl Hx Hy Hxy. pose proof (at_order _ _ _ _ Hx Hy Hxy). apply (mvt l s Hl (Z.to_nat (k' - k))); [exact Hx | exact Hy | exact Hxy | lia].
Qed.

(** K changes of sign of the derivative of order l, between a point x where its sign is that of s and a point y where it is that of s'. *)
Inductive alternates (l : nat) : nat -> R -> R -> R -> R -> Prop :=
| alt_one k s x : at_ k x -> (0 < s * P l k x)%R -> alternates l 0 s x s x
| alt_more K s x s' y k z : alternates l K s x s' y -> (y < z)%R -> at_ k z -> (0 < (- s') * P l k z)%R -> alternates l (S K) s x (- s') z.
Lemma alt_last l K s x s' y : alternates l K s x s' y -> exists k, at_ k y /\ (0 < s' * P l k y)%R.
Proof. destruct 1 as [k s x Hk Hs | K s x s' y k z _ _ Hk Hs]; exists k; split; assumption. Qed.
Lemma alt_first l K s x s' y : alternates l K s x s' y -> exists k, at_ k x /\ (0 < s * P l k x)%R.
Proof. induction 1 as [k s x Hk Hs | K s x s' y k z _ IH _ _ _]; [exists k; split; assumption | exact IH]. Qed.
Lemma alt_le l K s x s' y : alternates l K s x s' y -> (x <= y)%R.
Proof. induction 1; lra. Qed.
Lemma alt_cons l K s x s' y : alternates l K s x s' y -> forall k w, at_ k w -> (w < x)%R -> (0 < (- s) * P l k w)%R -> alternates l (S K) (- s) w s' y.
Proof.
  induction 1 as [k s x Hk Hs | K s x s' y k z H IH Hyz Hk Hs]; intros j w Hj Hw Hp.
  - pose proof (alt_more l 0 (- s)%R w (- s)%R w k x (alt_one l j (- s)%R w Hj Hp) Hw Hk) as A. rewrite Ropp_involutive in A. apply A. exact Hs.
  - exact (alt_more l (S K) (- s)%R w s' y k z (IH j w Hj Hw Hp) Hyz Hk Hs).
Qed.
(** The last sign, from the first one. *)
Lemma alt_parity l K s x s' y : alternates l K s x s' y -> s' = if Nat.even K then s else (- s)%R.
Proof.
  induction 1 as [|K s x s' y k z H IH]; [reflexivity|]. rewrite Nat.even_succ, <- Nat.negb_even. rewrite IH. destruct (Nat.even K); cbn [negb]; [reflexivity | ring].
Qed.
(** Changes of sign in a sequence, then in another one. *)
Lemma alt_app l K1 s x s' y K2 s1 x2 s2 y2 : alternates l K1 s x s' y -> alternates l K2 s1 x2 s2 y2 -> s1 = (- s')%R -> (y < x2)%R -> alternates l (S (K1 + K2)) s x s2 y2.
Proof.
  intros A B. induction B as [k s1 x2 Hk Hp | K2 s1 x2 s2 y2 k z B IH Hyz Hk Hp]; intros E Hy.
  - subst s1. rewrite Nat.add_0_r. exact (alt_more l K1 s x s' y k x2 A Hy Hk Hp).
  - specialize (IH E Hy). rewrite Nat.add_succ_r. exact (alt_more l _ s x s2 y2 k z IH Hyz Hk Hp).
Qed.
(** The same changes of sign, at points translated to other cells. *)
Lemma alt_shift l K s x s' y B w h : alternates l K s x s' y -> (y < B)%R ->
  (forall k z, at_ k z -> (z < B)%R -> at_ (k + w) (z + h) /\ P l (k + w) (z + h) = P l k z) -> alternates l K s (x + h) s' (y + h).
Proof.
  intros A Hy H. induction A as [k s x Hk Hp | K s x s' y k z A IH Hyz Hk Hp].
  - destruct (H k x Hk Hy) as [H1 H2]. apply (alt_one l (k + w)); [exact H1 | rewrite H2; exact Hp].
  - destruct (H k z Hk Hy) as [H1 H2]. apply (alt_more l K s (x + h) s' (y + h) (k + w) (z + h)); [apply IH; lra | lra | exact H1 | rewrite H2; exact Hp].
Qed.
(** Between changes of sign of a derivative, the next derivative changes sign. *)
Lemma alt_step l K s x s' y : (l < d)%nat -> alternates l (S K) s x s' y -> exists x' y', (x < x')%R /\ (y' < y)%R /\ alternates (S l) K (- s) x' s' y'.
Proof.
  intros Hl H. remember (S K) as K1 eqn:E. revert K E.
  induction H as [k s x Hk Hs | K s x s' y k z H IH Hyz Hk Hs]; intros K0 E; [discriminate|].
  injection E as <-.
  destruct (alt_last _ _ _ _ _ _ H) as (j & Hj & Hp).
  destruct (mean_value l (- s')%R j y k z Hl Hj Hk Hyz ltac:(lra)) as (i & w & Hi & Hw & Hq).
  destruct K as [|K].
  - inversion H; subst. exists w, w. split; [lra|]. split; [lra|]. apply (alt_one (S l) i); assumption.
  - destruct (IH K eq_refl) as (x' & y' & H1 & H2 & H3). exists x', w. split; [exact H1|]. split; [lra|].
    apply (alt_more (S l) K (- s)%R x' s' y' i w H3); [lra | exact Hi | exact Hq].
Qed.
(** With a zero at the lower end, at the upper end. *)
Lemma alt_left l K s x s' y : (l < d)%nat -> alternates l K s x s' y -> P l lo (xi lo) = 0%R -> exists z, (xi lo < z < x)%R /\ exists i, at_ i z /\ (0 < s * P (S l) i z)%R.
Proof.
  intros Hl H Hz. destruct (alt_first _ _ _ _ _ _ H) as (k & Hk & Hp).
  assert (Hlo : at_ lo (xi lo)). { destruct Hk as [Hk _]. split; [lia|]. pose proof (tw_knots _ _ _ _ _ T lo ltac:(lia)). lra. }
  pose proof (at_range _ _ Hk) as Hr. destruct (Req_dec x (xi lo)) as [->|Hne].
  { rewrite (at_same l k (xi lo) lo Hl Hk Hlo), Hz in Hp. lra. }
  destruct (mean_value l s lo (xi lo) k x Hl Hlo Hk ltac:(lra)) as (i & z & Hi & Hzz & Hq); [rewrite Hz; lra|].
  exists z. split; [exact Hzz|]. exists i. split; assumption.
Qed.
Lemma alt_right l K s x s' y : (l < d)%nat -> alternates l K s x s' y -> P l (hi - 1) (xi hi) = 0%R -> exists z, (y < z < xi hi)%R /\ exists i, at_ i z /\ (0 < (- s') * P (S l) i z)%R.
Proof.
  intros Hl H Hz. destruct (alt_last _ _ _ _ _ _ H) as (k & Hk & Hp).
  assert (Hhi : at_ (hi - 1) (xi hi)). { destruct Hk as [Hk _]. split; [lia|]. pose proof (tw_knots _ _ _ _ _ T (hi - 1) ltac:(lia)) as K1. replace (hi - 1 + 1) with hi in * by lia. lra. }
  pose proof (at_range _ _ Hk) as Hr. destruct (Req_dec y (xi hi)) as [->|Hne].
  { rewrite (at_same l k (xi hi) (hi - 1) Hl Hk Hhi), Hz in Hp. lra. }
  destruct (mean_value l (- s')%R k y (hi - 1) (xi hi) Hl Hk Hhi ltac:(lra)) as (i & z & Hi & Hzz & Hq); [rewrite Hz; lra|].
  exists z. split; [exact Hzz|]. exists i. split; assumption.
Qed.
(** A function that is constant on each cell changes sign at most once from a cell to the next. *)
Lemma alt_const K s x s' y : alternates d K s x s' y -> forall k, at_ k y -> (0 < s' * P d k y)%R -> lo + Z.of_nat K <= k.
Proof.
  induction 1 as [k s x Hk Hs | K s x s' y k z H IH Hyz Hk Hs]; intros j Hj Hp.
  - destruct Hj as [Hj _]. lia.
  - destruct (alt_last _ _ _ _ _ _ H) as (i & Hi & Hq). specialize (IH i Hi Hq). pose proof (at_order _ _ _ _ Hi Hj Hyz).
    destruct (Z.eq_dec i j) as [->|]; [|lia]. exfalso. rewrite (tw_const _ _ _ _ _ T j z y (proj1 Hj)) in Hp. lra.
Qed.

(** The changes of sign and the orders of the zeros at the ends are bounded by the dimension of the space. *)
Lemma sign_changes e : forall l m r K s x s' y, (l + e)%nat = d -> (m <= e)%nat -> (r <= e)%nat -> alternates l K s x s' y ->
  (forall i, (i < m)%nat -> P (l + i) lo (xi lo) = 0%R) -> (forall i, (i < r)%nat -> P (l + i) (hi - 1) (xi hi) = 0%R) ->
  Z.of_nat (K + m + r) + 1 <= hi - lo + Z.of_nat e.
Proof.
  induction e as [|e IH]; intros l m r K s x s' y Hl Hm Hr H Hzl Hzr.
  - assert (l = d) as -> by lia. destruct (alt_last _ _ _ _ _ _ H) as (k & Hk & Hp). pose proof (alt_const _ _ _ _ _ H k Hk Hp). destruct Hk as [Hk _]. lia.
  - assert (Hld : (l < d)%nat) by lia. destruct (alt_last _ _ _ _ _ _ H) as (k0 & [Hk0 _] & _).
    assert (Zl : forall m', m = S m' -> P l lo (xi lo) = 0%R). { intros m' ->. specialize (Hzl 0%nat ltac:(lia)). rewrite Nat.add_0_r in Hzl. exact Hzl. }
    assert (Zr : forall r', r = S r' -> P l (hi - 1) (xi hi) = 0%R). { intros r' ->. specialize (Hzr 0%nat ltac:(lia)). rewrite Nat.add_0_r in Hzr. exact Hzr. }
    assert (Nl : forall i, (i < pred m)%nat -> P (S l + i) lo (xi lo) = 0%R). { intros i Hi. replace (S l + i)%nat with (l + S i)%nat by lia. apply Hzl. lia. }
    assert (Nr : forall i, (i < pred r)%nat -> P (S l + i) (hi - 1) (xi hi) = 0%R). { intros i Hi. replace (S l + i)%nat with (l + S i)%nat by lia. apply Hzr. lia. }
    assert (NEXT : forall K' s1 x1 s2 y1, alternates (S l) K' s1 x1 s2 y1 -> Z.of_nat (K' + pred m + pred r) + 1 <= hi - lo + Z.of_nat e).
    { intros K' s1 x1 s2 y1 A. exact (IH (S l) (pred m) (pred r) K' s1 x1 s2 y1 ltac:(lia) ltac:(lia) ltac:(lia) A Nl Nr). }
    destruct m as [|m], r as [|r].
    + destruct K as [|K]; [lia|]. destruct (alt_step l K s x s' y Hld H) as (x1 & y1 & _ & _ & A). specialize (NEXT _ _ _ _ _ A). cbn [pred] in NEXT. lia.
    + destruct (alt_right l K s x s' y Hld H (Zr r eq_refl)) as (z & Hz & i & Hi & Hp).
      destruct K as [|K].
      * pose proof (alt_one (S l) i (- s')%R z Hi Hp) as A. specialize (NEXT _ _ _ _ _ A). cbn [pred] in NEXT. lia.
      * destruct (alt_step l K s x s' y Hld H) as (x1 & y1 & Hx1 & Hy1 & A).
        pose proof (alt_more (S l) K _ _ _ _ i z A ltac:(lra) Hi Hp) as B. specialize (NEXT _ _ _ _ _ B). cbn [pred] in NEXT. lia.
    + destruct (alt_left l K s x s' y Hld H (Zl m eq_refl)) as (z & Hz & i & Hi & Hp).
      destruct K as [|K].
      * pose proof (alt_one (S l) i s z Hi Hp) as A. specialize (NEXT _ _ _ _ _ A). cbn [pred] in NEXT. lia.
      * destruct (alt_step l K s x s' y Hld H) as (x1 & y1 & Hx1 & Hy1 & A).
        pose proof (alt_cons (S l) K _ _ _ _ A i z Hi ltac:(lra)) as B. rewrite Ropp_involutive in B. specialize (B Hp). specialize (NEXT _ _ _ _ _ B). cbn [pred] in NEXT. lia.
    + destruct (alt_left l K s x s' y Hld H (Zl m eq_refl)) as (z & Hz & i & Hi & Hp).
      destruct (alt_right l K s x s' y Hld H (Zr r eq_refl)) as (w & Hw & j & Hj & Hq).
      pose proof (alt_le _ _ _ _ _ _ H) as Hle.
      destruct K as [|K].
      * assert (s' = s) as -> by (inversion H; reflexivity).
        pose proof (alt_more (S l) 0 _ _ _ _ j w (alt_one (S l) i s z Hi Hp) ltac:(lra) Hj Hq) as A. specialize (NEXT _ _ _ _ _ A). cbn [pred] in NEXT. lia.
      * destruct (alt_step l K s x s' y Hld H) as (x1 & y1 & Hx1 & Hy1 & A).
        pose proof (alt_cons (S l) K _ _ _ _ A i z Hi ltac:(lra)) as B. rewrite Ropp_involutive in B. specialize (B Hp).
        pose proof (alt_more (S l) (S K) _ _ _ _ j w B ltac:(lra) Hj Hq) as C. specialize (NEXT _ _ _ _ _ C). cbn [pred] in NEXT. lia.
Qed.

(** Zeros separated by points where the function does not vanish. *)
Definition zero_at (x : R) : Prop := exists k, at_ k x /\ P 0 k x = 0%R.
Definition vanishes_between (u v : R) : Prop := forall k w, at_ k w -> (u < w < v)%R -> P 0 k w = 0%R.
Inductive separated : nat -> R -> R -> Prop :=
| sep_one u : zero_at u -> separated 0 u u
| sep_more M u v w : separated M u v -> (v < w)%R -> zero_at w -> ~ vanishes_between v w -> separated (S M) u w.
Lemma sep_zero M u v : separated M u v -> zero_at v.
Proof. destruct 1; assumption. Qed.
(** Between two of them the derivative takes both signs. *)
Lemma both_signs u v : (0 < d)%nat -> zero_at u -> zero_at v -> (u < v)%R -> ~ vanishes_between u v ->
  exists s p q, (s = 1%R \/ s = (-1)%R) /\ (u < p)%R /\ (p < q)%R /\ (q < v)%R /\ (exists k, at_ k p /\ (0 < s * P 1 k p)%R) /\ (exists k, at_ k q /\ (0 < (- s) * P 1 k q)%R).
Proof.
  intros Hd (ku & Hu & Zu) (kv & Hv & Zv) Huv Hn.
  apply not_all_ex_not in Hn. destruct Hn as [k Hn]. apply not_all_ex_not in Hn. destruct Hn as [w Hn].
  apply imply_to_and in Hn. destruct Hn as [Hk Hn]. apply imply_to_and in Hn. destruct Hn as [Hw Hn].
  assert (Hs : exists s, (s = 1%R \/ s = (-1)%R) /\ (0 < s * P 0%nat k w)%R).
  { destruct (Rtotal_order (P 0%nat k w) 0) as [E|[E|E]]; [|contradiction|]; [exists (-1)%R | exists 1%R]; split; auto; lra. }
  destruct Hs as (s & Hs & Hp).
  destruct (mean_value 0 s ku u k w Hd Hu Hk ltac:(lra)) as (i & p & Hi & Hpp & Sp); [rewrite Zu; lra|].
  destruct (mean_value 0 (- s)%R k w kv v Hd Hk Hv ltac:(lra)) as (j & q & Hj & Hq & Sq); [rewrite Zv; lra|].
  exists s, p, q. repeat (split; [solve [auto | lra]|]). split; [exists i | exists j]; split; assumption.
Qed.
Lemma sep_alternates M u v : (0 < d)%nat -> separated (S M) u v -> exists s x s' y, (s' = 1%R \/ s' = (-1)%R) /\ (u < x)%R /\ (y < v)%R /\ alternates 1 (S M) s x s' y.
Proof.
  intros Hd H. remember (S M) as M1 eqn:E. revert M E.
  induction H as [u Hu | M u v w H IH Hvw Hw Hn]; intros M0 E; [discriminate|]. injection E as <-.
  destruct (both_signs v w Hd (sep_zero _ _ _ H) Hw Hvw Hn) as (s & p & q & Hs & Hvp & Hpq & Hqw & (kp & Ap & Sp) & (kq & Aq_ & Sq)).
  destruct M as [|M].
  - inversion H; subst. exists s, p, (- s)%R, q. split; [destruct Hs as [-> | ->]; [right | left]; ring|]. split; [lra|]. split; [lra|].
    apply (alt_more 1 0 s p s p kq q (alt_one 1 kp s p Ap Sp) Hpq Aq_ Sq).
  - destruct (IH M eq_refl) as (s0 & x & s' & y & Hs' & Hx & Hy & A).
    assert (s' = s \/ - s' = s)%R as [Es|Es] by (destruct Hs as [-> | ->], Hs' as [-> | ->]; solve [left; ring | right; ring]).
    + subst s'. exists s0, x, (- s)%R, q. split; [destruct Hs as [-> | ->]; [right | left]; ring|]. split; [lra|]. split; [lra|].
      apply (alt_more 1 (S M) s0 x s y kq q A ltac:(lra) Aq_ Sq).
    + exists s0, x, (- s')%R, p. split; [rewrite Es; exact Hs|]. split; [lra|]. split; [lra|].
      apply (alt_more 1 (S M) s0 x s' y kp p A ltac:(lra) Ap). rewrite Es. exact Sp.
Qed.
(** Their number, with the orders of the zeros of the derivative at the ends: less than the dimension. *)
Lemma separated_bound M u v m r : (0 < d)%nat -> separated (S M) u v -> (m < d)%nat -> (r < d)%nat ->
  (forall i, (i < m)%nat -> P (S i) lo (xi lo) = 0%R) -> (forall i, (i < r)%nat -> P (S i) (hi - 1) (xi hi) = 0%R) ->
  Z.of_nat (S M + m + r) + 2 <= hi - lo + Z.of_nat d.
Proof.
  intros Hd H Hm Hr Zl Zr. destruct (sep_alternates M u v Hd H) as (s & x & s' & y & _ & _ & _ & A).
  pose proof (sign_changes (pred d) 1 m r (S M) s x s' y ltac:(lia) ltac:(lia) ltac:(lia) A Zl Zr) as B. lia.
Qed.

(** Increasing zeros: they are separated, or the function vanishes between two of them. *)
Fixpoint zeros_from (u : R) (L : list R) : Prop := match L with [] => True | v :: L' => (u < v)%R /\ zero_at v /\ zeros_from v L' end.
Lemma zeros_separated M u0 u L : separated M u0 u -> zeros_from u L ->
  (exists v, separated (M + length L) u0 v) \/ exists v w, (v < w)%R /\ zero_at v /\ zero_at w /\ vanishes_between v w.
Proof.
  revert M u. induction L as [|v L IH]; intros M u H Hz.
  - left. exists u. cbn [length]. rewrite Nat.add_0_r. exact H.
  - destruct Hz as (Huv & Hv & Hz). destruct (classic (vanishes_between u v)) as [C|C].
    + right. exists u, v. split; [exact Huv|]. split; [exact (sep_zero _ _ _ H)|]. split; assumption.
    + specialize (IH (S M) v (sep_more M u0 u v H Huv Hv C) Hz). cbn [length]. rewrite Nat.add_succ_r. exact IH.
Qed.
(** A function that vanishes between two points vanishes on a cell, with its derivatives. *)
Lemma zero_everywhere k u v : lo <= k < hi -> (u < v)%R -> (forall x, (u < x < v)%R -> P 0 k x = 0%R) -> forall l x, (l <= d)%nat -> P l k x = 0%R.
Proof.
  intros Hk Huv H0.
  assert (Z1 : forall l, (l <= d)%nat -> forall x, (u < x < v)%R -> P l k x = 0%R).
  { induction l as [|l IH]; intros Hl x Hx; [exact (H0 x Hx)|].
    pose proof (tw_deriv _ _ _ _ _ T l k x ltac:(lia) Hk) as D.
    assert (D0 : derivable_pt_lim (P l k) x 0%R).
    { intros eps He. set (dl := Rmin (x - u) (v - x)). assert (Hdl : (0 < dl)%R) by (unfold dl; apply Rmin_pos; lra).
      exists (mkposreal dl Hdl). intros h Hh Hb. cbn in Hb. pose proof (Rmin_l (x - u) (v - x)) as M1. pose proof (Rmin_r (x - u) (v - x)) as M2. fold dl in M1, M2.
      assert (Hab : (- dl < h < dl)%R) by (apply Rabs_def2 in Hb; lra).
      rewrite (IH ltac:(lia) (x + h)%R ltac:(lra)), (IH ltac:(lia) x Hx). replace ((0 - 0) / h - 0)%R with 0%R by (field; exact Hh). rewrite Rabs_R0. exact He. }
    exact (uniqueness_limite _ _ _ _ D D0). }
  assert (Z2 : forall e l, (l + e)%nat = d -> forall x, P l k x = 0%R).
  { induction e as [|e IH]; intros l Hl x.
    - assert (l = d) as -> by lia. rewrite (tw_const _ _ _ _ _ T k x ((u + v) / 2)%R Hk). apply Z1; [lia | lra].
    - rewrite <- (Z1 l ltac:(lia) ((u + v) / 2)%R ltac:(lra)). set (w := ((u + v) / 2)%R).
      destruct (Rtotal_order x w) as [C|[C|C]]; [| subst x; reflexivity |].
      + destruct (MVT_cor2 (P l k) (P (S l) k) x w C) as (z & Hz & _); [intros; apply (tw_deriv _ _ _ _ _ T); lia|]. rewrite (IH (S l) ltac:(lia)) in Hz. lra.
      + destruct (MVT_cor2 (P l k) (P (S l) k) w x C) as (z & Hz & _); [intros; apply (tw_deriv _ _ _ _ _ T); lia|]. rewrite (IH (S l) ltac:(lia)) in Hz. lra. }
  intros l x Hl. apply (Z2 (d - l)%nat). lia.
Qed.
Lemma zero_cell v w : (v < w)%R -> zero_at v -> zero_at w -> vanishes_between v w -> exists k, lo <= k < hi /\ forall l x, (l <= d)%nat -> P l k x = 0%R.
Proof.
  intros Hvw (kv & Av & _) (kw & Aw & _) H. pose proof (at_range _ _ Av) as Rv. pose proof (at_range _ _ Aw) as Rw.
  destruct (at_exists ((v + w) / 2)%R ltac:(lra) ltac:(destruct Av; lia)) as (k & Hk).
  destruct Hk as [Hk Hx]. pose proof (tw_knots _ _ _ _ _ T k Hk) as K.
  exists k. split; [exact Hk|]. apply (zero_everywhere k (Rmax v (xi k)) (Rmin w (xi (k + 1)%Z)) Hk).
  - unfold Rmax, Rmin. destruct (Rle_dec v (xi k)), (Rle_dec w (xi (k + 1)%Z)); lra.
  - intros x Hxx. apply H; [split; [exact Hk|]|]; unfold Rmax, Rmin in Hxx; destruct (Rle_dec v (xi k)), (Rle_dec w (xi (k + 1)%Z)); lra.
Qed.
(** A first, then increasing zeros: if they are as many as the dimension, with the zeros of the derivative at the ends, the function vanishes on a cell. *)
Lemma many_zeros u L m r : (0 < d)%nat -> zero_at u -> zeros_from u L -> (m < d)%nat -> (r < d)%nat ->
  (forall i, (i < m)%nat -> P (S i) lo (xi lo) = 0%R) -> (forall i, (i < r)%nat -> P (S i) (hi - 1) (xi hi) = 0%R) ->
  hi - lo + Z.of_nat d < Z.of_nat (length L + m + r) + 2 ->
  exists k, lo <= k < hi /\ forall l x, (l <= d)%nat -> P l k x = 0%R.
Proof.
  intros Hd Hu Hz Hm Hr Zl Zr Hn.
  destruct (zeros_separated 0 u u L (sep_one u Hu) Hz) as [(v & S)|(v & w & Hvw & Hv & Hw & C)]; [|exact (zero_cell v w Hvw Hv Hw C)].
  cbn [Nat.add] in S. destruct (length L) as [|n] eqn:E.
  - (* one zero: the derivative vanishes, or has a sign somewhere *)
    destruct Hu as (k & [Hk Hx] & Z0). exists k. split; [exact Hk|]. pose proof (tw_knots _ _ _ _ _ T k Hk) as K.
    assert (D0 : forall y, (xi k <= y <= xi (k + 1)%Z)%R -> P 1 k y = 0%R).
    { intros y Hy. apply NNPP. intros Ny.
      assert (A : exists s, (0 < s * P 1%nat k y)%R). { destruct (Rtotal_order (P 1%nat k y) 0) as [C|[C|C]]; [exists (-1)%R; lra | contradiction | exists 1%R; lra]. }
      destruct A as (s & A). pose proof (alt_one 1 k s y (conj Hk Hy) A) as B.
      pose proof (sign_changes (pred d) 1 m r 0 s y s y ltac:(lia) ltac:(lia) ltac:(lia) B Zl Zr). lia. }
    apply (zero_everywhere k (xi k) (xi (k + 1)%Z) Hk K). intros y Hy.
    destruct (Rtotal_order y u) as [C|[C|C]]; [| rewrite C; exact Z0 |].
    + destruct (MVT_cor2 (P 0%nat k) (P 1%nat k) y u C) as (z & Hzz & Hz2); [intros; apply (tw_deriv _ _ _ _ _ T); lia|]. rewrite D0 in Hzz by lra. lra.
    + destruct (MVT_cor2 (P 0%nat k) (P 1%nat k) u y C) as (z & Hzz & Hz2); [intros; apply (tw_deriv _ _ _ _ _ T); lia|]. rewrite D0 in Hzz by lra. lra.
  - exfalso. pose proof (separated_bound n u v m r Hd S Hm Hr Zl Zr). lia.
Qed.
End Tower.

Lemma last_default (l : list R) : forall a b c, last (a :: l) b = last (a :: l) c.
Proof. induction l as [|y l IH]; intros a b c; [reflexivity|]. change (last (y :: l) b = last (y :: l) c). apply IH. Qed.
Definition one_if (c : bool) : Z := if c then 1 else 0.
(** The points x(j), j from m + (1 if zl) to d + n - r - (1 if zr), are zeros of a tower of n cells.  At the lower end there is a zero if zl, and the derivatives of orders 1, ..., m vanish;
    at the upper end, a zero if zr, and the derivatives of orders 1, ..., r vanish.
    The point x(j) is after the knot j, before the knot j + d + 1: the tower vanishes. *)
Section Nested.
Context (d : nat) (xi : Z -> R) (P : nat -> Z -> R -> R) (n : Z) (zl zr : bool) (m r : nat) (x : Z -> R).
Let D := Z.of_nat d.
Hypothesis Hd : (0 < d)%nat.
Hypothesis T : tower d xi P D (D + n).
Hypothesis Hm : (m < d)%nat.
Hypothesis Hr : (r < d)%nat.
Hypothesis Vl : zl = true -> P 0 D (xi D) = 0%R.
Hypothesis Vr : zr = true -> P 0 (D + n - 1) (xi (D + n)) = 0%R.
Hypothesis Zl : forall i, (i < m)%nat -> P (S i) D (xi D) = 0%R.
Hypothesis Zr : forall i, (i < r)%nat -> P (S i) (D + n - 1) (xi (D + n)) = 0%R.
Let inner (j : Z) : Prop := Z.of_nat m + one_if zl <= j < D + n - (Z.of_nat r + one_if zr).
Hypothesis some : zl = true \/ zr = true \/ exists j, inner j.
Hypothesis zeros : forall j k, inner j -> at_ xi D (D + n) k (x j) -> P 0 k (x j) = 0%R.
Hypothesis inside_ : forall j, inner j -> (xi D < x j < xi (D + n))%R.
Hypothesis incr : forall i j, inner i -> inner j -> i < j -> (x i < x j)%R.
Hypothesis nest_l : forall j, inner j -> D < j -> (xi j < x j)%R.
Hypothesis nest_r : forall j, inner j -> j + D + 1 < D + n -> (x j < xi (j + D + 1)%Z)%R.

Fixpoint listed_from (j : Z) (k : nat) : list R := match k with O => [] | S k' => x j :: listed_from (j + 1) k' end.
Lemma listed_length k : forall j, length (listed_from j k) = k.
Proof. induction k as [|k IH]; intros j; [reflexivity | cbn [listed_from length]; rewrite IH; reflexivity]. Qed.

Lemma zero_sub p q j : D <= p -> q <= D + n -> p < q -> inner j -> (xi p <= x j <= xi q)%R -> zero_at xi P p q (x j).
Proof.
  intros Hp Hq Hpq Hj Hx. pose proof (tower_part _ _ _ _ _ p q T Hp Hq) as T'.
  destruct (at_exists xi p q (x j) Hx Hpq) as (k & Hk & Hxk). exists k. split; [split; [exact Hk | exact Hxk]|].
  apply zeros; [exact Hj|]. split; [lia | exact Hxk].
Qed.
Lemma zeros_app p q u L v : zeros_from xi P p q u L -> (last L u < v)%R -> zero_at xi P p q v -> zeros_from xi P p q u (L ++ [v]).
Proof.
  revert u. induction L as [|w L IH]; intros u H Hl Hv.
  - cbn in Hl |- *. auto.
  - destruct H as (H1 & H2 & H3). cbn [app zeros_from]. split; [exact H1|]. split; [exact H2|]. apply IH; [exact H3 | | exact Hv].
    destruct L as [|y L]; [exact Hl|]. rewrite (last_default L y w u). exact Hl.
Qed.
Lemma listed_zeros p q k : forall j u, D <= p -> q <= D + n -> p < q -> (forall i, j <= i < j + Z.of_nat k -> inner i /\ (xi p < x i < xi q)%R) -> ((0 < k)%nat -> (u < x j)%R) ->
  zeros_from xi P p q u (listed_from j k).
Proof.
  induction k as [|k IH]; intros j u Hp Hq Hpq H Hu; [exact I|]. cbn [listed_from zeros_from].
  destruct (H j ltac:(lia)) as [Hj Hx]. split; [apply Hu; lia|]. split; [apply zero_sub; try assumption; lra|].
  apply IH; [assumption|assumption|assumption| |].
  - intros i Hi. apply H. lia.
  - intros Hk. apply incr; [exact Hj | apply H; lia | lia].
Qed.
Lemma listed_last p q k : forall j u v, (forall i, j <= i < j + Z.of_nat k -> inner i /\ (xi p < x i < xi q)%R) -> (u < v)%R -> (xi q <= v)%R -> (last (listed_from j k) u < v)%R.
Proof.
  induction k as [|k IH]; intros j u v H Hu Hq; [exact Hu|].
  destruct (H j ltac:(lia)) as [_ Hx].
  assert (K : (last (listed_from (j + 1) k) (x j) < v)%R). { apply IH; [intros i Hi; apply H; lia | lra | lra]. }
  cbn [listed_from]. destruct k as [|k]; [cbn [listed_from last]; lra|]. cbn [listed_from] in *. 
  change (last (x j :: x (j + 1)%Z :: listed_from (j + 1 + 1) k) u) with (last (x (j + 1)%Z :: listed_from (j + 1 + 1) k) u).
  rewrite (last_default _ _ u (x j)). exact K.
Qed.

Lemma part_vanishes N : forall p q, q - p <= Z.of_nat N -> D <= p -> p < q -> q <= D + n ->
  p = D \/ (forall l, (l < d)%nat -> P l p (xi p) = 0%R) -> q = D + n \/ (forall l, (l < d)%nat -> P l (q - 1) (xi q) = 0%R) ->
  forall k, p <= k < q -> forall l y, (l <= d)%nat -> P l k y = 0%R.
Proof.
  induction N as [|N IH]; intros p q HN Hp Hpq Hq HL HR; [lia|].
  pose proof (tower_part _ _ _ _ _ p q T Hp Hq) as T'.
  assert (Ol : 0 <= one_if zl <= 1) by (unfold one_if; destruct zl; lia). assert (Or : 0 <= one_if zr <= 1) by (unfold one_if; destruct zr; lia).
  assert (CELL : exists k, p <= k < q /\ forall l y, (l <= d)%nat -> P l k y = 0%R).
  { assert (LEFT : exists (z : bool) mm jl, (mm < d)%nat /\ (z = true -> P 0 p (xi p) = 0%R) /\ (forall i, (i < mm)%nat -> P (S i) p (xi p) = 0%R) /\ jl = p - D + Z.of_nat mm + one_if z /\
        Z.of_nat m + one_if zl <= jl /\ (forall j, inner j -> jl <= j -> (xi p < x j)%R) /\ (z = true \/ (z = zl /\ p = D /\ mm = m))).
    { destruct (Z.eq_dec p D) as [E|E].
      - exists zl, m, (Z.of_nat m + one_if zl). split; [exact Hm|]. split; [rewrite E; exact Vl|]. split; [rewrite E; exact Zl|]. split; [lia|]. split; [lia|].
        split; [intros j Hj _; rewrite E; apply inside_; exact Hj | right; auto].
      - destruct HL as [HL|HL]; [contradiction|]. exists true, (pred d), p. split; [lia|]. split; [intros _; apply HL; lia|]. split; [intros i Hi; apply HL; lia|].
        unfold one_if at 1. split; [unfold D; lia|]. split; [unfold D in *; lia|]. split; [|left; reflexivity].
        intros j Hj Hpj. assert (j < D + n) by (unfold inner in Hj; lia). pose proof (xi_le _ _ _ _ _ T p j Hp Hpj ltac:(lia)). pose proof (nest_l j Hj ltac:(lia)). lra. }
    assert (RIGHT : exists (z : bool) rr jr, (rr < d)%nat /\ (z = true -> P 0 (q - 1) (xi q) = 0%R) /\ (forall i, (i < rr)%nat -> P (S i) (q - 1) (xi q) = 0%R) /\ jr = q - Z.of_nat rr - one_if z /\
        jr <= D + n - (Z.of_nat r + one_if zr) /\ (forall j, inner j -> j < jr -> (x j < xi q)%R) /\ (z = true \/ (z = zr /\ q = D + n /\ rr = r))).
    { destruct (Z.eq_dec q (D + n)) as [E|E].
      - exists zr, r, (D + n - (Z.of_nat r + one_if zr)). split; [exact Hr|]. split; [rewrite E; exact Vr|]. split; [rewrite E; exact Zr|]. split; [lia|]. split; [lia|].
        split; [intros j Hj _; rewrite E; apply inside_; exact Hj | right; auto].
      - destruct HR as [HR|HR]; [contradiction|]. exists true, (pred d), (q - D). split; [lia|]. split; [intros _; apply HR; lia|]. split; [intros i Hi; apply HR; lia|].
        unfold one_if at 1. split; [unfold D; lia|]. split; [unfold D in *; lia|]. split; [|left; reflexivity].
        intros j Hj Hqj. assert (0 <= j) by (unfold inner in Hj; lia). pose proof (xi_le _ _ _ _ _ T (j + D + 1) q ltac:(lia) ltac:(lia) ltac:(lia)). pose proof (nest_r j Hj ltac:(lia)). lra. }
    destruct LEFT as (z1 & mm & jl & Hmm & VL & ZL & Ejl & Hjl & XL & CL). destruct RIGHT as (z2 & rr & jr & Hrr & VR & ZR & Ejr & Hjr & XR & CR).
    set (k := Z.to_nat (jr - jl)).
    assert (PTS : forall i, jl <= i < jl + Z.of_nat k -> inner i /\ (xi p < x i < xi q)%R).
    { intros i Hi. assert (Hin : inner i) by (unfold inner, k in *; lia). split; [exact Hin|]. split; [apply XL; [exact Hin | lia] | apply XR; [exact Hin | unfold k in Hi; lia]]. }
    assert (Ek : jr - jl <= Z.of_nat k) by (unfold k; lia).
    assert (Hk1 : z1 = false -> z2 = false -> (1 <= k)%nat).
    { intros E1 E2. destruct CL as [CL|(CL1 & CL2 & CL3)]; [congruence|]. destruct CR as [CR|(CR1 & CR2 & CR3)]; [congruence|].
      destruct some as [S1|[S1|(j & Hj)]]; [congruence | congruence|]. unfold inner in Hj. unfold k. subst z1 z2 p q mm rr. lia. }
    clearbody k.
    pose proof (xi_lt _ _ _ _ _ T' p q ltac:(lia) ltac:(lia) ltac:(lia)) as Hxi.
    assert (A_lo : z1 = true -> zero_at xi P p q (xi p)).
    { intros H. exists p. split; [split; [lia|]; pose proof (tw_knots _ _ _ _ _ T' p ltac:(lia)); lra | exact (VL H)]. }
    assert (A_hi : z2 = true -> zero_at xi P p q (xi q)).
    { intros H. exists (q - 1). split; [split; [lia|]; pose proof (tw_knots _ _ _ _ _ T' (q - 1) ltac:(lia)) as K0; replace (q - 1 + 1) with q in * by lia; lra | exact (VR H)]. }
    destruct z1, z2; unfold one_if in Ejl, Ejr.
    - apply (many_zeros d xi P p q T' (xi p) (listed_from jl k ++ [xi q]) mm rr Hd); [apply A_lo; reflexivity | | lia | lia | exact ZL | exact ZR | rewrite app_length, listed_length; cbn [length]; unfold D in *; lia].
      apply zeros_app; [|apply (listed_last p q); [exact PTS | lra | lra] | apply A_hi; reflexivity].
      apply (listed_zeros p q k); try assumption. intros Hk. apply PTS. lia.
    - apply (many_zeros d xi P p q T' (xi p) (listed_from jl k) mm rr Hd); [apply A_lo; reflexivity | | lia | lia | exact ZL | exact ZR | rewrite listed_length; unfold D in *; lia].
      apply (listed_zeros p q k); try assumption. intros Hk. apply PTS. lia.
    - destruct k as [|k].
      + apply (many_zeros d xi P p q T' (xi q) [] mm rr Hd); [apply A_hi; reflexivity | exact I | lia | lia | exact ZL | exact ZR | cbn [length]; unfold D in *; lia].
      + destruct (PTS jl ltac:(lia)) as [Hj0 Hx0].
        apply (many_zeros d xi P p q T' (x jl) (listed_from (jl + 1) k ++ [xi q]) mm rr Hd); [apply zero_sub; try assumption; lra | | lia | lia | exact ZL | exact ZR | rewrite app_length, listed_length; cbn [length]; unfold D in *; lia].
        apply zeros_app; [|apply (listed_last p q); [intros i Hi; apply PTS; lia | lra | lra] | apply A_hi; reflexivity].
        apply (listed_zeros p q k); try assumption; [intros i Hi; apply PTS; lia|]. intros Hk. apply incr; [exact Hj0 | apply PTS; lia | lia].
    - specialize (Hk1 eq_refl eq_refl). destruct k as [|k]; [lia|].
      destruct (PTS jl ltac:(lia)) as [Hj0 Hx0].
      apply (many_zeros d xi P p q T' (x jl) (listed_from (jl + 1) k) mm rr Hd); [apply zero_sub; try assumption; lra | | lia | lia | exact ZL | exact ZR | rewrite listed_length; unfold D in *; lia].
      apply (listed_zeros p q k); try assumption; [intros i Hi; apply PTS; lia|]. intros Hk. apply incr; [exact Hj0 | apply PTS; lia | lia]. }
  destruct CELL as (k0 & Hk0 & Z0). intros k Hk l y Hl.
  destruct (Z.lt_trichotomy k k0) as [C|[C|C]].
  - apply (IH p k0); try lia; try assumption. right. intros l' Hl'.
    pose proof (tw_glue _ _ _ _ _ T l' (k0 - 1) Hl' ltac:(lia) ltac:(lia)) as G0. replace (k0 - 1 + 1) with k0 in G0 by lia. rewrite G0. apply Z0. lia.
  - rewrite C. apply Z0. exact Hl.
  - apply (IH (k0 + 1) q); try lia; try assumption. right. intros l' Hl'.
    rewrite <- (tw_glue _ _ _ _ _ T l' k0 Hl' ltac:(lia) ltac:(lia)). apply Z0. lia.
Qed.
Theorem nested_vanishes : 0 < n -> forall k, D <= k < D + n -> forall l y, (l <= d)%nat -> P l k y = 0%R.
Proof. intros Hn. apply (part_vanishes (Z.to_nat n)); try lia; left; reflexivity. Qed.
End Nested.
