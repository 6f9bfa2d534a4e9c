(** Translations of periodic splines on uniform knots. *)
From Coq Require Import Bool Reals Lia Lra ZifyBool List.
From Verif Require Import AdvectionSpec LoopProofs BSplineMath BSplineDeriv EvaluatorSpace EvaluatorProofs IntegralMath IntegralMath2 BuilderMath HeatReals.
Import ListNotations.
Local Open Scope bool_scope. Local Open Scope Z_scope.

Lemma zsum_total n f : 0 <= n -> zsum n f = total1 n f.
Proof.
  intros Hn. unfold total1, indices. rewrite <- (Z2Nat.id n Hn) at 1. generalize (Z.to_nat n) as k. clear Hn. induction k as [|k IH]; [reflexivity|].
  rewrite Nat2Z.inj_succ. unfold Z.succ. rewrite zsum_S by lia. rewrite IH. rewrite seq_S, !map_app, fold_right_app. cbn [map fold_right Nat.add].
  assert (G : forall l (z : R), fold_right Rplus z l = (fold_right Rplus 0 l + z)%R) by (induction l as [|x l IHl]; intros z; cbn [fold_right]; [lra|rewrite IHl; lra]).
  rewrite (G _ (f (Z.of_nat k) + 0)%R). lra.
Qed.
Section Math.
Context (d nx : Z) (a b : R).
Hypothesis Hd : 1 <= d.
Hypothesis Hn : d + 1 <= nx.
Hypothesis Hab : (a < b)%R.
Notation t := (uniform_knots d a b nx).
Definition h : R := ((b - a) / IZR nx)%R.
Lemma n_pos : (0 < IZR nx)%R. Proof. apply IZR_lt. lia. Qed.
Lemma h_pos : (0 < h)%R. Proof. unfold h. pose proof n_pos. apply Rdiv_lt_0_compat; lra. Qed.
Lemma nh : (IZR nx * h = b - a)%R. Proof. unfold h. pose proof n_pos. field. lra. Qed.
Lemma t_at k : t k = (a + IZR (k - d) * h)%R. Proof. reflexivity. Qed.
Lemma t_shift k m : t (k + m) = (t k + IZR m * h)%R. Proof. rewrite !t_at. replace (k + m - d) with ((k - d) + m) by lia. rewrite plus_IZR. ring. Qed.
Lemma piece_move m : forall p c i x, bspline_piece t (c + m) p (i + m) (x + IZR m * h)%R = bspline_piece t c p i x.
Proof.
  induction p as [|p IH]; intros c i x; unfold bspline_piece.
  - cbn [cox_de_boor]. destruct (Z.eq_dec i c), (Z.eq_dec (i + m) (c + m)); lia || reflexivity.
  - rewrite !cdb_S. fold (bspline_piece t c p i x) (bspline_piece t c p (i + 1) x) (bspline_piece t (c + m) p (i + m) (x + IZR m * h)%R) (bspline_piece t (c + m) p (i + m + 1) (x + IZR m * h)%R).
    rewrite IH. replace (i + m + 1) with (i + 1 + m) by lia. rewrite IH.
    replace (i + m + Z.of_nat (S p)) with (i + Z.of_nat (S p) + m) by lia. replace (i + Z.of_nat (S p) + m + 1) with (i + Z.of_nat (S p) + 1 + m) by lia.
    rewrite !t_shift.
    f_equal; f_equal; f_equal; ring.
Qed.
(** The weight of the coefficient [r] of a cell, at the fraction [u] of the cell. *)
Definition weight (r : Z) (u : R) : R := bspline_piece t d (Z.to_nat d) r (a + u * h)%R.
Lemma weight_cell m r u : bspline_piece t (d + m) (Z.to_nat d) (m + r) (a + (IZR m + u) * h)%R = weight r u.
Proof. unfold weight. rewrite <- (piece_move m _ d r). f_equal; [lia | ring]. Qed.
Context (s : bspline_space RA) (F : facts s d true nx t a b).
Lemma weights_unity u : zsum (d + 1) (fun r => weight r u) = 1%R.
Proof. rewrite <- (unity_piece _ _ _ _ _ _ _ F d (a + u * h)%R) by lia. apply zsum_ext. intros r Hr. unfold weight. f_equal. lia. Qed.
Definition value (k : Z -> R) (K : Z) (u : R) : R := zsum (d + 1) (fun r => k (K mod nx + r)%Z * weight r u)%R.
Lemma value_cell k m u : 0 <= m < nx -> (0 <= u < 1)%R -> spline t b d nx k (a + (IZR m + u) * h)%R = value k m u.
Proof.
  intros Hm Hu. pose proof h_pos. rewrite (spline_is_piece _ _ _ _ _ _ _ F (d + m)).
  - rewrite (piece_sum _ _ _ _ _ _ _ F) by lia. unfold value. rewrite Z.mod_small by lia. apply zsum_ext. intros r Hr.
    replace (d + m - d + r) with (m + r) by lia. rewrite weight_cell. reflexivity.
  - split; [lia|]. left. rewrite !t_at. replace (d + m - d) with m by lia. replace (d + m + 1 - d) with (m + 1) by lia. rewrite plus_IZR. nra.
Qed.
Lemma value_mod k K K' u : K mod nx = K' mod nx -> value k K u = value k K' u.
Proof. intros E. unfold value. now rewrite E. Qed.
Lemma periodic_value_is k K u f : (0 <= u < 1)%R -> periodic_value d nx a b k (a + (IZR K + u) * h)%R f -> f = value k K u.
Proof.
  intros Hu (y & m & Hy & E & ->). pose proof h_pos as Hh. pose proof nh as Hnh.
  assert (Ey : y = (a + (IZR (K - m * nx) + u) * h)%R).
  { rewrite minus_IZR, mult_IZR. rewrite <- Hnh in E. lra. }
  assert (Hm : 0 <= K - m * nx < nx).
  { assert (L1 : -1 < K - m * nx). { apply lt_IZR. apply (Rmult_lt_reg_r h); [exact Hh|]. rewrite Ey in Hy. change (IZR (-1)) with (-1)%R. nra. }
    assert (L2 : K - m * nx < nx). { apply lt_IZR. apply (Rmult_lt_reg_r h); [exact Hh|]. rewrite Hnh. rewrite Ey in Hy. nra. }
    lia. }
  rewrite Ey, value_cell by auto. apply value_mod. rewrite Zminus_mod, Z_mod_mult, Z.sub_0_r. apply Zmod_mod.
Qed.
Lemma value_periodic k K u : (0 <= u < 1)%R -> periodic_value d nx a b k (a + (IZR K + u) * h)%R (value k K u).
Proof.
  intros Hu. pose proof h_pos as Hh. pose proof nh as Hnh. pose proof (Z.mod_pos_bound K nx ltac:(lia)) as HK.
  exists (a + (IZR (K mod nx) + u) * h)%R, (K / nx). split; [|split].
  - assert (A1 := IZR_le 0 _ (proj1 HK)). assert (A2 := IZR_le (K mod nx) (nx - 1) ltac:(lia)). rewrite minus_IZR in A2. nra.
  - rewrite <- Hnh. rewrite (Z_div_mod_eq_full K nx) at 1. rewrite plus_IZR, mult_IZR. ring.
  - rewrite value_cell by auto. apply value_mod. now rewrite Zmod_mod.
Qed.
Lemma cell_fraction x : exists K u, (0 <= u < 1)%R /\ x = (a + (IZR K + u) * h)%R.
Proof.
  pose proof h_pos as Hh. pose proof (base_Int_part ((x - a) / h)) as [B1 B2]. exists (Int_part ((x - a) / h)), ((x - a) / h - IZR (Int_part ((x - a) / h)))%R.
  split; [lra|]. field. lra.
Qed.
Lemma value_unique k x f f' : periodic_value d nx a b k x f -> periodic_value d nx a b k x f' -> f = f'.
Proof. destruct (cell_fraction x) as (K & u & Hu & ->). intros H1 H2. rewrite (periodic_value_is _ _ _ _ Hu H1), (periodic_value_is _ _ _ _ Hu H2). reflexivity. Qed.
(** The sum of the values at points one cell apart is the sum of the coefficients. *)
Lemma coefficients_rotate k r : periodic_coefficients k d nx -> 0 <= r <= d -> zsum nx (fun m => k (m + r)) = zsum nx k.
Proof.
  intros Hk Hr. rewrite <- (zsum_cyclic nx r k) by lia. apply zsum_ext. intros m Hm.
  destruct (Z_lt_ge_dec (m + r) nx) as [L|L]; [rewrite Z.mod_small by lia; reflexivity|].
  rewrite <- (Z_mod_plus_full (m + r) (-1) nx), Z.mod_small by lia. rewrite <- (Hk (m + r + -1 * nx)) by lia. f_equal. lia.
Qed.
Lemma values_sum k K u : periodic_coefficients k d nx -> zsum nx (fun i => value k (K + i) u) = zsum nx k.
Proof.
  intros Hk. unfold value. rewrite zsum_exchange by lia.
  rewrite (zsum_ext (d + 1) _ (fun r => zsum nx k * weight r u)%R).
  - rewrite zsum_scal, weights_unity. ring.
  - intros r Hr. rewrite (zsum_ext nx _ (fun i => weight r u * (fun m => k (m + r)%Z) ((i + K) mod nx)%Z)%R).
    + rewrite zsum_scal. rewrite (zsum_cyclic nx K (fun m => k (m + r)%Z)) by lia. rewrite coefficients_rotate by (auto; lia). ring.
    + intros i _. rewrite (Z.add_comm i K). ring.
Qed.
Definition u0 : R := if Z.odd d then 0%R else (1 / 2)%R.
Lemma u0_ok : (0 <= u0 < 1)%R. Proof. unfold u0. destruct (Z.odd d); lra. Qed.
Lemma x_point_is i : x_point d nx a b i = (a + (IZR i + u0) * h)%R. Proof. reflexivity. Qed.
Context (ny : Z) (Hny : 0 <= ny).
Lemma moved_total delta D D' : moved d nx ny a b delta D D' -> total nx ny D' = total nx ny D.
Proof.
  intros H. unfold total. rewrite !(total1_swap nx ny). apply total1_ext. intros j Hj. destruct (H j Hj) as (k & Hk & H0 & H1).
  rewrite <- !zsum_total by lia. transitivity (zsum nx k).
  - destruct (cell_fraction (x_point d nx a b 0 - delta)) as (K & u & Hu & E). rewrite <- (values_sum k K u Hk). apply zsum_ext. intros i Hi.
    apply (periodic_value_is k (K + i) u); [exact Hu|]. replace (a + (IZR (K + i) + u) * h)%R with (x_point d nx a b i - delta)%R; [now apply H1|].
    rewrite x_point_is in *. rewrite plus_IZR. lra.
  - rewrite <- (values_sum k 0 u0 Hk). symmetry. apply zsum_ext. intros i Hi. apply (periodic_value_is k (0 + i) u0); [apply u0_ok|]. rewrite Z.add_0_l, <- x_point_is. now apply H0.
Qed.
Lemma moved_cells n delta D D' : delta = (IZR n * h)%R -> moved d nx ny a b delta D D' -> forall i j, 0 <= i < nx -> 0 <= j < ny -> D' i j = D ((i - n) mod nx) j.
Proof.
  intros Ed H i j Hi Hj. destruct (H j Hj) as (k & Hk & H0 & H1). pose proof (Z.mod_pos_bound (i - n) nx ltac:(lia)) as Hm.
  rewrite (periodic_value_is k ((i - n) mod nx) u0 _ u0_ok (H0 _ Hm)). transitivity (value k (i - n) u0).
  - apply (periodic_value_is k (i - n) u0 _ u0_ok). replace (a + (IZR (i - n) + u0) * h)%R with (x_point d nx a b i - delta)%R; [now apply H1|].
    rewrite x_point_is, Ed, minus_IZR. ring.
  - apply value_mod. now rewrite Zmod_mod.
Qed.
(** Degree 1: the spline is the piecewise linear interpolant. *)
Lemma linear_weights u : d = 1 -> weight 0 u = (1 - u)%R /\ weight 1 u = u.
Proof.
  intros E. pose proof h_pos as Hh. unfold weight. rewrite E. change (Z.to_nat 1) with 1%nat. unfold bspline_piece. cbn [cox_de_boor].
  change (Z.of_nat 1) with 1. change (0 + 1 + 1)%Z with 2%Z. change (0 + 1)%Z with 1%Z. change (1 + 1 + 1)%Z with 3%Z. change (1 + 1)%Z with 2%Z.
  destruct (Z.eq_dec 0 1), (Z.eq_dec 1 1), (Z.eq_dec 2 1); try lia. unfold uniform_knots. fold h.
  change (IZR (0 - 1)) with (-1)%R. change (IZR (1 - 1)) with 0%R. change (IZR (2 - 1)) with 1%R. change (IZR (3 - 1)) with 2%R.
  unfold ratio. repeat match goal with |- context [Req_EM_T ?x 0] => destruct (Req_EM_T x 0); [lra|] end. split; field; lra.
Qed.
Lemma moved_linear delta D D' lo hi : d = 1 -> (forall i j, 0 <= i < nx -> 0 <= j < ny -> (lo <= D i j <= hi)%R) -> moved d nx ny a b delta D D' ->
  forall i j, 0 <= i < nx -> 0 <= j < ny -> (lo <= D' i j <= hi)%R.
Proof.
  intros E B H i j Hi Hj. destruct (H j Hj) as (k & Hk & H0 & H1).
  assert (V : forall K u, value k K u = ((1 - u) * k (K mod nx) + u * k (K mod nx + 1)%Z)%R).
  { intros K u. destruct (linear_weights u E) as [W0 W1]. unfold value. replace (d + 1) with (0 + 1 + 1) by lia. rewrite !zsum_S by lia. rewrite zsum_0, Z.add_0_r. change (0 + 1) with 1. rewrite W0, W1. ring. }
  assert (C : forall m, 0 <= m < nx -> k m = D m j).
  { intros m Hm. rewrite (periodic_value_is k m u0 _ u0_ok (H0 m Hm)). rewrite V, Z.mod_small by lia. unfold u0. rewrite E. cbn [Z.odd]. ring. }
  assert (C' : forall m, 0 <= m < nx -> (lo <= k m <= hi)%R /\ (lo <= k (m + 1)%Z <= hi)%R).
  { intros m Hm. split; [rewrite C by exact Hm; now apply B|]. destruct (Z.eq_dec m (nx - 1)) as [->|N].
    - replace (nx - 1 + 1) with (nx + 0) by lia. rewrite Hk, C by lia. apply B; lia.
    - rewrite C by lia. apply B; lia. }
  destruct (cell_fraction (x_point d nx a b i - delta)) as (K & u & Hu & Ex). specialize (H1 i Hi). rewrite Ex in H1. rewrite (periodic_value_is k K u _ Hu H1), V.
  destruct (C' (K mod nx) (Z.mod_pos_bound K nx ltac:(lia))) as [A1 A2]. clear -A1 A2 Hu. nra.
Qed.
End Math.
