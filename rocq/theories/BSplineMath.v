(** Facts about the Cox-de Boor recursion on real numbers. *)
From Coq Require Import Reals ZArith Lia Lra.
From Verif Require Import BSplineSpec.
Local Open Scope Z_scope.

Lemma ratio_nz x y : y <> 0%R -> ratio x y = (x / y)%R.
Proof. intros H. unfold ratio. destruct (Req_EM_T y 0); [contradiction | reflexivity]. Qed.
Lemma cdb_S b t q i x : cox_de_boor b t (S q) i x =
  (ratio (x - t i) (t (i + Z.of_nat (S q))%Z - t i) * cox_de_boor b t q i x
   + ratio (t (i + Z.of_nat (S q) + 1)%Z - x) (t (i + Z.of_nat (S q) + 1)%Z - t (i + 1)%Z) * cox_de_boor b t q (i + 1)%Z x)%R.
Proof. reflexivity. Qed.
(** The value depends on the base in the support only. *)
Lemma cdb_ext b b' t p : forall i x, (forall j, i <= j <= i + Z.of_nat p -> b j = b' j) ->
  cox_de_boor b t p i x = cox_de_boor b' t p i x.
Proof.
  induction p as [|p IH]; intros i x H.
  - apply H. lia.
  - rewrite !cdb_S, (IH i), (IH (i + 1)); [reflexivity | | ]; intros j Hj; apply H; lia.
Qed.
Lemma cdb_zero b t p : forall i x, (forall j, i <= j <= i + Z.of_nat p -> b j = 0%R) -> cox_de_boor b t p i x = 0%R.
Proof.
  induction p as [|p IH]; intros i x H.
  - apply H. lia.
  - rewrite cdb_S, (IH i), (IH (i + 1)); [ring | | ]; intros j Hj; apply H; lia.
Qed.
(** The value depends on the knots of the support only. *)
Lemma cdb_knots b t t' p : forall i x, (forall j, i <= j <= i + Z.of_nat p + 1 -> t j = t' j) ->
  cox_de_boor b t p i x = cox_de_boor b t' p i x.
Proof.
  induction p as [|p IH]; intros i x H; [reflexivity|].
  rewrite !cdb_S, (IH i), (IH (i + 1)) by (intros j Hj; apply H; lia).
  rewrite (H i), (H (i + 1)), (H (i + Z.of_nat (S p))), (H (i + Z.of_nat (S p) + 1)) by lia. reflexivity.
Qed.
Lemma piece_zero t c p i x : ~ (i <= c <= i + Z.of_nat p) -> bspline_piece t c p i x = 0%R.
Proof. intros H. apply cdb_zero. intros j Hj. destruct (Z.eq_dec j c); [lia | reflexivity]. Qed.

(** On the cell [t(c), t(c+1)) the B-splines are the polynomials of the cell; also at the right end. *)
Lemma bspline_is_piece t c rmax x p i lo hi :
  (forall a b, lo <= a <= b -> b <= hi -> (t a <= t b)%R) -> lo <= c -> c + 1 <= hi ->
  lo <= i -> i + Z.of_nat p + 1 <= hi ->
  ((t c <= x < t (c + 1)%Z)%R /\ x <> rmax) \/ ((t c < t (c + 1)%Z)%R /\ x = t (c + 1)%Z /\ x = rmax) ->
  bspline t rmax p i x = bspline_piece t c p i x.
Proof.
  intros Hm Hc Hc1 Hi Hi1 Hx. apply cdb_ext. intros j Hj. unfold indicator.
  destruct (Z.eq_dec j c) as [->|Hne].
  - destruct (Req_EM_T x rmax), (Rlt_dec (t c) x), (Rle_dec x (t (c + 1))), (Rle_dec (t c) x), (Rlt_dec x (t (c + 1))); lra.
  - assert (j + 1 <= c \/ c + 1 <= j) as [H|H] by lia.
    + pose proof (Hm (j + 1) c ltac:(lia) ltac:(lia)).
      destruct (Req_EM_T x rmax), (Rlt_dec (t j) x), (Rle_dec x (t (j + 1))), (Rle_dec (t j) x), (Rlt_dec x (t (j + 1))); lra.
    + pose proof (Hm (c + 1) j ltac:(lia) ltac:(lia)).
      destruct (Req_EM_T x rmax), (Rlt_dec (t j) x), (Rle_dec x (t (j + 1))), (Rle_dec (t j) x), (Rlt_dec x (t (j + 1))); lra.
Qed.

Section Cell.
Context (t : Z -> R) (c d : Z).
Hypothesis mono : forall a b, c - d + 1 <= a <= b -> b <= c + d -> (t a <= t b)%R.
Hypothesis cell : (t c < t (c + 1)%Z)%R.
(** The values on the cell, numbered from the first B-spline that does not vanish. *)
Definition V (p r : Z) (x : R) : R := bspline_piece t c (Z.to_nat p) (c - p + r) x.
Definition Lp (p r : Z) (x : R) : R :=
  if r =? 0 then 0%R else ((x - t (c - p - 1 + r)%Z) * (V p (r - 1) x / (t (c + r)%Z - t (c - p - 1 + r)%Z)))%R.
Definition Rp (p r : Z) (x : R) : R :=
  if r =? p + 1 then 0%R else ((t (c + r + 1)%Z - x) * (V p r x / (t (c + r + 1)%Z - t (c - p + r)%Z)))%R.
Lemma gap p r : 0 <= r <= p -> p + 1 <= d -> (0 < t (c + r + 1)%Z - t (c - p + r)%Z)%R.
Proof.
  intros Hr Hp. pose proof (mono (c - p + r) c ltac:(lia) ltac:(lia)). pose proof (mono (c + 1) (c + r + 1) ltac:(lia) ltac:(lia)). lra.
Qed.
Lemma V_0 x : V 0 0 x = 1%R.
Proof. unfold V. cbn. destruct (Z.eq_dec (c - 0 + 0) c); [reflexivity | lia]. Qed.
Lemma V_out p r x : 0 <= p -> r < 0 \/ p < r -> V p r x = 0%R.
Proof. intros H Hr. apply piece_zero. lia. Qed.
Lemma V_step p r x : 0 <= p -> p + 1 <= d -> 0 <= r <= p + 1 -> V (p + 1) r x = (Lp p r x + Rp p r x)%R.
Proof.
  intros Hp Hd Hr. unfold V at 1. replace (Z.to_nat (p + 1)) with (S (Z.to_nat p)) by lia.
  unfold bspline_piece. rewrite cdb_S. fold (bspline_piece t c (Z.to_nat p) (c - (p + 1) + r) x).
  fold (bspline_piece t c (Z.to_nat p) (c - (p + 1) + r + 1) x).
  replace (c - (p + 1) + r) with (c - p + (r - 1)) by ring. replace (c - p + (r - 1) + 1) with (c - p + r) by ring.
  fold (V p (r - 1) x). fold (V p r x).
  replace (c - p + (r - 1) + Z.of_nat (S (Z.to_nat p))) with (c + r) by lia.
  f_equal.
  - unfold Lp. destruct (r =? 0) eqn:E.
    + rewrite V_out by lia. ring.
    + replace (c - p - 1 + r) with (c - p + (r - 1)) by ring. pose proof (gap p (r - 1) ltac:(lia) Hd) as G.
      replace (c + (r - 1) + 1) with (c + r) in G by ring. rewrite ratio_nz by lra. unfold Rdiv. ring.
  - unfold Rp. destruct (r =? p + 1) eqn:E.
    + rewrite (V_out p r) by lia. ring.
    + pose proof (gap p r ltac:(lia) Hd). rewrite ratio_nz by lra. unfold Rdiv. ring.
Qed.
Lemma V_nonneg p : 0 <= p -> p <= d -> forall r x, (t c <= x <= t (c + 1)%Z)%R -> (0 <= V p r x)%R.
Proof.
  intros Hp. pattern p. apply natlike_ind; [| | exact Hp].
  - intros _ r x Hx. destruct (Z.eq_dec r 0) as [->|]; [rewrite V_0; lra | rewrite V_out by lia; lra].
  - clear p Hp. intros p Hp IH Hd r x Hx. rewrite <- Z.add_1_r in *.
    destruct (Z_lt_ge_dec r 0); [rewrite V_out by lia; lra|]. destruct (Z_lt_ge_dec (p + 1) r); [rewrite V_out by lia; lra|].
    rewrite V_step by lia. apply Rplus_le_le_0_compat.
    + unfold Lp. destruct (r =? 0) eqn:E; [lra|]. pose proof (gap p (r - 1) ltac:(lia) Hd) as G.
      replace (c + (r - 1) + 1) with (c + r) in G by ring. replace (c - p + (r - 1)) with (c - p - 1 + r) in G by ring.
      pose proof (mono (c - p - 1 + r) c ltac:(lia) ltac:(lia)).
      apply Rmult_le_pos; [lra|]. apply Rmult_le_pos; [apply IH; [lia | exact Hx]|]. left. now apply Rinv_0_lt_compat.
    + unfold Rp. destruct (r =? p + 1) eqn:E; [lra|]. pose proof (gap p r ltac:(lia) Hd) as G.
      pose proof (mono (c + 1) (c + r + 1) ltac:(lia) ltac:(lia)).
      apply Rmult_le_pos; [lra|]. apply Rmult_le_pos; [apply IH; [lia | exact Hx]|]. left. now apply Rinv_0_lt_compat.
Qed.
(** sums *)
Lemma LR_one p r x : 0 <= r <= p -> p + 1 <= d -> (Lp p (r + 1) x + Rp p r x = V p r x)%R.
Proof.
  intros Hr Hd. pose proof (gap p r Hr Hd) as G. unfold Lp, Rp.
  destruct (r + 1 =? 0) eqn:?; [lia|]. destruct (r =? p + 1) eqn:?; [lia|].
  replace (r + 1 - 1) with r by ring. replace (c + (r + 1)) with (c + r + 1) by ring.
  replace (c - p - 1 + (r + 1)) with (c - p + r) by ring. field. lra.
Qed.
Lemma V_sum p : 0 <= p -> p <= d -> forall x, sum_f_R0 (fun r => V p (Z.of_nat r) x) (Z.to_nat p) = 1%R.
Proof.
  intros Hp. pattern p. apply natlike_ind; [| | exact Hp].
  - intros _ x. change (Z.to_nat 0) with O. cbn [sum_f_R0]. apply (V_0 x).
  - clear p Hp. intros p Hp IH Hd x. rewrite <- Z.add_1_r in *. specialize (IH ltac:(lia) x).
    assert (G : forall n, (n <= Z.to_nat p)%nat ->
      sum_f_R0 (fun r => V (p + 1) (Z.of_nat r) x) n = (sum_f_R0 (fun r => V p (Z.of_nat r) x) n - Lp p (Z.of_nat n + 1) x)%R).
    { induction n as [|n IHn]; intros Hn.
      - cbn [sum_f_R0]. rewrite V_step by lia. pose proof (LR_one p 0 x ltac:(lia) Hd). change (Z.of_nat 0) with 0 in *.
        unfold Lp at 1. cbn [Z.eqb]. lra.
      - cbn [sum_f_R0]. rewrite IHn by lia. rewrite V_step by lia. pose proof (LR_one p (Z.of_nat (S n)) x ltac:(lia) Hd).
        replace (Z.of_nat n + 1) with (Z.of_nat (S n)) by lia. lra. }
    replace (Z.to_nat (p + 1)) with (S (Z.to_nat p)) by lia. cbn [sum_f_R0]. rewrite G by lia. rewrite IH.
    rewrite V_step by lia. replace (Z.of_nat (S (Z.to_nat p))) with (p + 1) by lia.
    replace (Z.of_nat (Z.to_nat p)) with p by lia. unfold Rp. rewrite Z.eqb_refl. lra.
Qed.
End Cell.
