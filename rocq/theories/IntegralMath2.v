(** Sums of integrals of B-splines; equally spaced knots. *)
From Coq Require Import Bool Reals Lia Lra ZifyBool.
From Coquelicot Require Import Coquelicot.
From Verif Require Import BSplineSpec BSplineMath BSplineDeriv IntegralMath.
Local Open Scope bool_scope. Local Open Scope Z_scope.

Lemma zsum_add u v (f : Z -> R) : 0 <= u -> 0 <= v -> zsum (u + v) f = (zsum u f + zsum v (fun m => f (u + m)%Z))%R.
Proof.
  intros Hu Hv. pattern v. apply natlike_ind; [| |exact Hv]; [rewrite zsum_0; replace (u + 0) with u by lia; ring|].
  intros w Hw IH. unfold Z.succ. replace (u + (w + 1)) with (u + w + 1) by lia. rewrite !zsum_S, IH by lia. ring.
Qed.
Lemma zsum_reverse n (f : Z -> R) : 0 <= n -> zsum n (fun m => f (n - 1 - m)) = zsum n f.
Proof.
  intros Hn. pattern n. apply natlike_ind; [reflexivity| |exact Hn]. intros k Hk IH. unfold Z.succ. rewrite zsum_shift by exact Hk. rewrite zsum_S by exact Hk.
  rewrite <- IH. replace (k + 1 - 1 - 0) with k by lia. rewrite Rplus_comm. f_equal. apply zsum_ext. intros m _. f_equal. lia.
Qed.
Lemma zsum_exchange n m (f : Z -> Z -> R) : 0 <= n -> zsum n (fun i => zsum m (fun j => f i j)) = zsum m (fun j => zsum n (fun i => f i j)).
Proof.
  intros Hn. pattern n. apply natlike_ind; [| |exact Hn].
  - rewrite zsum_0. symmetry. apply zsum_zero. intros. apply zsum_0.
  - intros k Hk IH. unfold Z.succ. rewrite zsum_S, IH by exact Hk. rewrite <- zsum_plus. apply zsum_ext. intros j _. symmetry. now rewrite (zsum_S k) by exact Hk.
Qed.
Lemma is_RInt_zsum N (f : Z -> R -> R) (v : Z -> R) (a b : R) : 0 <= N -> (forall i, 0 <= i < N -> is_RInt (f i) a b (v i)) ->
  is_RInt (fun x => zsum N (fun i => f i x)) a b (zsum N v).
Proof.
  intros HN. pattern N. apply natlike_ind; [| |exact HN]; clear N HN.
  - intros _. pose proof (is_RInt_const (V := R_NormedModule) a b 0%R) as H. refine (eq_ind _ (fun v => is_RInt _ _ _ v) H _ _). apply Rmult_0_r.
  - intros N HN IH H. unfold Z.succ. rewrite zsum_S by exact HN.
    eapply is_RInt_ext; [|apply (is_RInt_plus (V := R_NormedModule) _ _ _ _ _ _ (IH ltac:(intros; apply H; lia)) (H N ltac:(lia)))].
    intros x _. cbn beta. rewrite zsum_S by exact HN. reflexivity.
Qed.

Section Knots.
Context (t : Z -> R).
Hypothesis Hmono : forall i j, i <= j -> (t i <= t j)%R.
Notation P := (bspline_piece t).
Context (p ncells : Z) (rmax : R).
Hypothesis Hp : 1 <= p.
Hypothesis Hn : 1 <= ncells.
Hypothesis Hcell : forall c, p <= c < p + ncells -> (t c < t (c + 1)%Z)%R.
Hypothesis Hrmax : t (p + ncells) = rmax.
Lemma unity_cell c x : p <= c < p + ncells -> (t c < x < t (c + 1)%Z)%R -> zsum (ncells + p) (fun i => bspline t rmax (Z.to_nat p) i x) = 1%R.
Proof.
  intros Hc Hx. rewrite <- (Sg_all t Hmono (p - 1) ltac:(lia) (ncells + p) c 0 x (Hcell c Hc)) by lia. unfold Sg. apply zsum_ext. intros m Hm.
  replace (p - 1 + 1) with p by lia. rewrite Z.add_0_l. symmetry. now apply (bspline_cell t Hmono p ncells rmax).
Qed.
Lemma unity_integral : is_RInt (fun x => zsum (ncells + p) (fun i => bspline t rmax (Z.to_nat p) i x)) (t p) rmax (rmax - t p)%R.
Proof.
  assert (H : forall k, 0 <= k -> k <= ncells -> is_RInt (fun x => zsum (ncells + p) (fun i => bspline t rmax (Z.to_nat p) i x)) (t p) (t (p + k)) (t (p + k) - t p)%R).
  { intros k Hk. pattern k. apply natlike_ind; [| |exact Hk]; clear k Hk.
    - intros _. replace (p + 0) with p by lia. replace (t p - t p)%R with 0%R by ring. apply (is_RInt_point (V := R_NormedModule)).
    - intros k Hk IH Hk'. specialize (IH ltac:(lia)). replace (p + Z.succ k) with (p + k + 1) by lia. set (c := p + k) in *.
      replace (t (c + 1)%Z - t p)%R with (plus (t c - t p)%R (t (c + 1)%Z - t c)%R) by (unfold plus; cbn; ring).
      apply (is_RInt_Chasles (V := R_NormedModule) _ _ (t c)); [exact IH|].
      pose proof (is_RInt_const (V := R_NormedModule) (t c) (t (c + 1)%Z) 1%R) as Hc.
      assert (Hc' : is_RInt (fun _ : R => 1%R) (t c) (t (c + 1)%Z) (t (c + 1)%Z - t c)%R).
      { refine (eq_ind _ (fun v => is_RInt _ _ _ v) Hc _ _). apply Rmult_1_r. }
      eapply is_RInt_ext; [|exact Hc']. intros x. pose proof (Hcell c ltac:(lia)). rewrite Rmin_left, Rmax_right by lra. intros Hx. symmetry. apply (unity_cell c); [lia | exact Hx]. }
  pose proof (H ncells ltac:(lia) ltac:(lia)) as Hl. rewrite Hrmax in Hl. exact Hl.
Qed.
Lemma integrals_sum v : (forall i, 0 <= i < ncells + p -> is_RInt (bspline t rmax (Z.to_nat p) i) (t p) rmax (v i)) -> zsum (ncells + p) v = (rmax - t p)%R.
Proof.
  intros H. pose proof (is_RInt_zsum (ncells + p) _ v (t p) rmax ltac:(lia) H) as H1. apply (is_RInt_unique (V := R_CompleteNormedModule)) in H1.
  pose proof unity_integral as H2. apply (is_RInt_unique (V := R_CompleteNormedModule)) in H2. cbn beta in *. congruence.
Qed.
Lemma periodic_integrals_sum v :
  (forall i, 0 <= i < ncells -> is_RInt (fun x => zsum (ncells + p) (fun j => if j mod ncells =? i then bspline t rmax (Z.to_nat p) j x else 0%R)) (t p) rmax (v i)) ->
  zsum ncells v = (rmax - t p)%R.
Proof.
  intros H. pose proof (is_RInt_zsum ncells _ v (t p) rmax ltac:(lia) H) as H1.
  assert (H1' : is_RInt (fun x => zsum (ncells + p) (fun i => bspline t rmax (Z.to_nat p) i x)) (t p) rmax (zsum ncells v)).
  { eapply is_RInt_ext; [|exact H1]. intros x _. cbn beta. rewrite zsum_exchange by lia. apply zsum_ext. intros j Hj.
    rewrite (zsum_ext ncells _ (fun i => if i =? j mod ncells then bspline t rmax (Z.to_nat p) j x else 0%R)).
    - apply zsum_delta. apply Z.mod_pos_bound. lia.
    - intros i _. rewrite Z.eqb_sym. reflexivity. }
  apply (is_RInt_unique (V := R_CompleteNormedModule)) in H1'. pose proof unity_integral as H2. apply (is_RInt_unique (V := R_CompleteNormedModule)) in H2. cbn beta in *. congruence.
Qed.

(** *** equally spaced knots *)
Section Uniform.
Context (h : R).
Hypothesis Hh : (0 < h)%R.
Hypothesis Hstep : forall i j, (t j - t i = IZR (j - i) * h)%R.
(** the values of degree p + 1 at the first end of the domain *)
Definition edge (r : Z) : R := P p (Z.to_nat (p + 1)) (r - 1) (t p).
Lemma u_all c : (t c < t (c + 1)%Z)%R.
Proof. pose proof (Hstep c (c + 1)) as H. replace (c + 1 - c) with 1 in H by lia. lra. Qed.
Lemma u_per k : t (k + ncells) = (t k + (rmax - t p))%R.
Proof. rewrite <- Hrmax. pose proof (Hstep k (k + ncells)) as H1. pose proof (Hstep p (p + ncells)) as H2. replace (k + ncells - k) with ncells in H1 by lia. replace (p + ncells - p) with ncells in H2 by lia. lra. Qed.
Lemma u_W i : W t p i = h.
Proof. unfold W. rewrite Hstep. replace (i + p + 1 - i) with (p + 1) by lia. field. apply not_0_IZR. lia. Qed.
Lemma edge_symmetric r : edge r = edge (p - r).
Proof.
  unfold edge. replace (Z.to_nat (p + 1)) with (S (Z.to_nat p)) by lia. unfold bspline_piece at 1.
  rewrite (cdb_reflect t _ (fun j => if Z.eq_dec j (p - 1) then 1%R else 0%R) t (2 * p) (2 * t p)%R).
  - replace (2 * t p - t p)%R with (t p) by ring. fold (P (p - 1) (S (Z.to_nat p)) (2 * p - (r - 1) - Z.of_nat (S (Z.to_nat p)) - 1) (t p)).
    rewrite piece_simple.
    + f_equal. lia.
    + pose proof (u_all (p - 1)) as H. now replace (p - 1 + 1) with p in H by lia.
    + apply u_all.
  - intros k. pose proof (Hstep p k) as H1. pose proof (Hstep (2 * p - k) p) as H2. replace (p - (2 * p - k)) with (k - p) in H2 by lia. lra.
  - intros j. destruct (Z.eq_dec j p), (Z.eq_dec (2 * p - 1 - j) (p - 1)); try lia; reflexivity.
Qed.
Lemma edge_last : edge (p + 1) = 0%R.
Proof. unfold edge. replace (p + 1 - 1) with p by lia. replace (Z.to_nat (p + 1)) with (S (Z.to_nat p)) by lia. apply piece_at_start, u_all. Qed.
Lemma edge_out r : r < 0 \/ p + 1 < r -> edge r = 0%R.
Proof. intros H. unfold edge. apply piece_zero. lia. Qed.
Lemma edge_sum : zsum (p + 2) edge = 1%R.
Proof. rewrite <- (Sg_all t Hmono p ltac:(lia) (p + 2) p (-1) (t p) (u_all p)) by lia. unfold Sg, edge. apply zsum_ext. intros m _. f_equal. lia. Qed.
Lemma edge_tail n i : -1 <= i -> p < i + n -> 0 <= n -> Sg t p n p i (t p) = (1 - zsum (i + 1) edge)%R.
Proof.
  intros Hi Hin Hn0. pose proof (Sg_all t Hmono p ltac:(lia) (i + 1 + n) p (-1) (t p) (u_all p) ltac:(lia) ltac:(lia)) as H. unfold Sg in *.
  rewrite zsum_add in H by lia. rewrite <- H. rewrite (zsum_ext (i + 1) edge (fun m => P p (Z.to_nat (p + 1)) (-1 + m) (t p))) by (intros; unfold edge; f_equal; lia).
  rewrite (zsum_ext n (fun m => P p (Z.to_nat (p + 1)) (-1 + (i + 1 + m)) (t p)) (fun m => P p (Z.to_nat (p + 1)) (i + m) (t p))) by (intros; f_equal; lia). ring.
Qed.
Lemma edge_half i : 0 <= i < p -> zsum (i + 1) edge = (1 - zsum (p - i) edge)%R.
Proof.
  intros Hi. pose proof edge_sum as H. replace (p + 2) with (p + 1 + 1) in H by lia. rewrite zsum_S, edge_last in H by lia.
  replace (p + 1) with (p - i + (i + 1)) in H by lia. rewrite zsum_add in H by lia.
  rewrite (zsum_ext (i + 1) (fun m => edge (p - i + m)) (fun m => edge (i + 1 - 1 - m))) in H by (intros; rewrite edge_symmetric; f_equal; lia).
  rewrite zsum_reverse in H by lia. lra.
Qed.
Lemma uniform_integral i : 0 <= i < ncells + p -> is_RInt (bspline t rmax (Z.to_nat p) i) (t p) rmax
  (h * ((if i <? ncells then 1 else 1 - zsum (i - ncells + 1) edge) - (1 - zsum (i + 1) edge)))%R.
Proof.
  intros Hi. pose proof (domain_integral t Hmono p ltac:(lia) p ncells rmax Hn Hcell Hrmax (p + ncells + 1) i ltac:(lia) ltac:(lia)) as H.
  rewrite u_W in H. rewrite (Sg_wrap t p ltac:(lia) p ncells rmax Hn Hcell Hrmax u_per) in H. rewrite (edge_tail (p + ncells + 1) i) in H by lia.
  destruct (Z.ltb_spec i ncells).
  - rewrite (Sg_all t Hmono p) in H by (apply u_all || lia). exact H.
  - rewrite edge_tail in H by lia. exact H.
Qed.
Lemma edge_full i : p <= i -> zsum (i + 1) edge = 1%R.
Proof.
  intros Hi. replace (i + 1) with (p + 1 + (i - p)) by lia. rewrite zsum_add by lia. rewrite (zsum_zero (i - p)).
  - pose proof edge_sum as H. replace (p + 2) with (p + 1 + 1) in H by lia. rewrite zsum_S, edge_last in H by lia. lra.
  - intros m Hm. destruct (Z.eq_dec m 0) as [->|]; [replace (p + 1 + 0) with (p + 1) by lia; apply edge_last | apply edge_out; lia].
Qed.
Lemma u_first_integral i : 0 <= i < p -> i < ncells -> is_RInt (bspline t rmax (Z.to_nat p) i) (t p) rmax (h * (1 - zsum (p - i) edge))%R.
Proof.
  intros Hi Hin. pose proof (uniform_integral i ltac:(lia)) as H. replace (i <? ncells) with true in H by lia. rewrite edge_half in H by lia.
  replace (1 - (1 - (1 - zsum (p - i) edge)))%R with (1 - zsum (p - i) edge)%R in H by ring. exact H.
Qed.
Lemma u_inner_integral i : p <= i < ncells -> is_RInt (bspline t rmax (Z.to_nat p) i) (t p) rmax h.
Proof.
  intros Hi. pose proof (uniform_integral i ltac:(lia)) as H. replace (i <? ncells) with true in H by lia. rewrite edge_full in H by lia.
  replace (h * (1 - (1 - 1)))%R with h in H by ring. exact H.
Qed.
Lemma u_last_integral i : 0 <= i < p -> p <= ncells -> is_RInt (bspline t rmax (Z.to_nat p) (ncells + p - 1 - i)) (t p) rmax (h * (1 - zsum (p - i) edge))%R.
Proof.
  intros Hi Hin. pose proof (uniform_integral (ncells + p - 1 - i) ltac:(lia)) as H. replace (ncells + p - 1 - i <? ncells) with false in H by lia. rewrite (edge_full (ncells + p - 1 - i)) in H by lia.
  replace (ncells + p - 1 - i - ncells + 1) with (p - i) in H by lia. replace (1 - zsum (p - i) edge - (1 - 1))%R with (1 - zsum (p - i) edge)%R in H by ring. exact H.
Qed.
End Uniform.
End Knots.
