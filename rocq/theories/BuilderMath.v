(** Facts on B-splines used for the construction of splines. *)
From Coq Require Import Bool Reals Lia Lra ZifyBool List.
From Coquelicot Require Import Coquelicot.
From Verif Require Import BuilderSpec LoopProofs BSplineMath BSplineDeriv LinearProofs2 LinearProofs4 IntegralMath IntegralMath2 IntegralProofs EvaluatorSpace EvaluatorProofs EvaluatorProofs2 EvaluatorLemmas.
Local Open Scope bool_scope. Local Open Scope Z_scope.

(** ** Derivatives *)
Lemma nd_Derive_n k : forall f g x, nth_derivative k f g -> Derive_n f k x = g x.
Proof.
  induction k as [|k IH]; intros f g x H; [apply H|].
  destruct H as (h & Hd & Hn). replace (S k) with (k + 1)%nat by lia. rewrite <- Derive_n_comp.
  rewrite (Derive_n_ext (Derive_n f 1) h).
  - now apply IH.
  - intros y. cbn [Derive_n]. apply is_derive_unique, is_derive_Reals, Hd.
Qed.
Lemma nd_power k : forall (K z : R) p, (k <= p)%nat ->
  exists v, nth_derivative k (fun x => K * (x - z) ^ p)%R (fun x => v * (x - z) ^ (p - k))%R.
Proof.
  induction k as [|k IH]; intros K z p H.
  - exists K. intros x. now rewrite Nat.sub_0_r.
  - destruct p as [|p]; [lia|]. destruct (IH (K * INR (S p))%R z p ltac:(lia)) as (v & Hv).
    exists v. exists (fun x => K * INR (S p) * (x - z) ^ p)%R. split; [|exact Hv].
    intros x. apply is_derive_Reals. auto_derive; [exact I|]. unfold Rdiv, Rminus. change (match p with O => 1%R | S _ => (INR p + 1)%R end) with (INR (S p)). set (q := INR (S p)). ring.
Qed.
(** The last B-spline of a cell, near the beginning of the cell; the first, near the end. *)
Lemma piece_last t c p : exists K, forall x, bspline_piece t c p c x = (K * (x - t c) ^ p)%R.
Proof.
  induction p as [|p (K & IH)].
  - exists 1%R. intros x. unfold bspline_piece. cbn [cox_de_boor pow]. destruct (Z.eq_dec c c); [ring | lia].
  - destruct (Req_dec (t (c + Z.of_nat (S p)) - t c) 0) as [E | E].
    + exists 0%R. intros x. unfold bspline_piece. rewrite cdb_S. fold (bspline_piece t c p c x) (bspline_piece t c p (c + 1) x).
      rewrite (piece_zero t c p (c + 1)) by lia. unfold ratio at 1. destruct (Req_EM_T _ 0); [ring | lra].
    + exists (K / (t (c + Z.of_nat (S p))%Z - t c))%R. intros x. unfold bspline_piece. rewrite cdb_S. fold (bspline_piece t c p c x) (bspline_piece t c p (c + 1) x).
      rewrite (piece_zero t c p (c + 1)) by lia. unfold ratio at 1. destruct (Req_EM_T _ 0); [lra|]. rewrite IH. cbn [pow]. field. exact E.
Qed.
Lemma piece_first t c p : exists K, forall x, bspline_piece t c p (c - Z.of_nat p) x = (K * (x - t (c + 1)%Z) ^ p)%R.
Proof.
  induction p as [|p (K & IH)].
  - exists 1%R. intros x. unfold bspline_piece. cbn [cox_de_boor pow]. destruct (Z.eq_dec (c - Z.of_nat 0) c); [ring | lia].
  - assert (F : forall x, bspline_piece t c (S p) (c - Z.of_nat (S p)) x =
      (ratio (t (c + 1)%Z - x) (t (c + 1)%Z - t (c - Z.of_nat p)%Z) * bspline_piece t c p (c - Z.of_nat p) x)%R).
    { intros x. unfold bspline_piece at 1. rewrite cdb_S. fold (bspline_piece t c p (c - Z.of_nat (S p)) x) (bspline_piece t c p (c - Z.of_nat (S p) + 1) x).
      rewrite (piece_zero t c p (c - Z.of_nat (S p))) by lia.
      replace (c - Z.of_nat (S p) + Z.of_nat (S p) + 1) with (c + 1) by lia. replace (c - Z.of_nat (S p) + 1) with (c - Z.of_nat p) by lia. ring. }
    destruct (Req_dec (t (c + 1)%Z - t (c - Z.of_nat p)%Z) 0) as [E | E].
    + exists 0%R. intros x. rewrite F. unfold ratio. destruct (Req_EM_T _ 0); [ring | lra].
    + exists (- K / (t (c + 1)%Z - t (c - Z.of_nat p)%Z))%R. intros x. rewrite F. unfold ratio. destruct (Req_EM_T _ 0); [lra|]. rewrite IH. cbn [pow]. field. exact E.
Qed.
Lemma Derive_n_power_zero f K z k p : (k < p)%nat -> (forall x, f x = K * (x - z) ^ p)%R -> Derive_n f k z = 0%R.
Proof.
  intros Hk H. rewrite (Derive_n_ext _ _ k z H). destruct (nd_power k K z p ltac:(lia)) as (v & Hv).
  rewrite (nd_Derive_n k _ _ z Hv). replace (p - k)%nat with (S (p - k - 1)) by lia. cbn [pow]. ring.
Qed.
Lemma Derive_n_zero f k z : (forall x, f x = 0%R) -> Derive_n f k z = 0%R.
Proof. intros H. rewrite (Derive_n_ext _ (fun _ => 0%R) k z H). apply (nd_Derive_n k _ (fun _ => 0%R)), nd_zero. Qed.
(** Only the B-splines of indices c - d, ..., c have a derivative at the beginning of the cell c, c excluded for derivatives of order less than d; similarly at its end. *)
Lemma deriv_begin t c d k j : 0 <= d -> Z.of_nat k < d -> j < c - d \/ c <= j -> Derive_n (bspline_piece t c (Z.to_nat d) j) k (t c) = 0%R.
Proof.
  intros Hd Hk Hj. destruct (Z.eq_dec j c) as [-> | N].
  - destruct (piece_last t c (Z.to_nat d)) as (K & HK). apply (Derive_n_power_zero _ K _ k (Z.to_nat d)); [lia | exact HK].
  - apply Derive_n_zero. intros x. apply piece_zero. lia.
Qed.
Lemma deriv_end t c d k j : 0 <= d -> Z.of_nat k < d -> j <= c - d \/ c < j -> Derive_n (bspline_piece t c (Z.to_nat d) j) k (t (c + 1)%Z) = 0%R.
Proof.
  intros Hd Hk Hj. destruct (Z.eq_dec j (c - d)) as [-> | N].
  - destruct (piece_first t c (Z.to_nat d)) as (K & HK). rewrite Z2Nat.id in HK by lia. apply (Derive_n_power_zero _ K _ k (Z.to_nat d)); [lia | exact HK].
  - apply Derive_n_zero. intros x. apply piece_zero. lia.
Qed.

(** ** Sums modulo a period *)
Lemma zsum_cyclic n k (f : Z -> R) : 1 <= n -> zsum n (fun j => f ((j + k) mod n)) = zsum n f.
Proof.
  intros Hn. pose proof (Z.mod_pos_bound k n ltac:(lia)) as Hk. set (q := k mod n) in *.
  rewrite (zsum_ext n _ (fun j => f ((j + q) mod n))).
  2:{ intros j _. f_equal. unfold q. rewrite Zplus_mod_idemp_r. reflexivity. }
  replace n with ((n - q) + q) at 1 by lia. rewrite zsum_split by lia.
  transitivity (zsum (n - q) (fun j => f (q + j)%Z) + zsum q f)%R.
  - f_equal.
    + apply zsum_ext. intros j Hj. f_equal. rewrite Z.mod_small; lia.
    + apply zsum_ext. intros j Hj. f_equal. replace (n - q + j + q) with (j + 1 * n) by lia. rewrite Z_mod_plus_full, Z.mod_small; lia.
  - rewrite Rplus_comm. rewrite <- zsum_split by lia. f_equal. lia.
Qed.

Section Facts.
Context (s : bspline_space RA) (d : Z) (periodic : bool) (ncells : Z) (t : Z -> R) (a b : R) (F : facts s d periodic ncells t a b).
Let Hd := f_d _ _ _ _ _ _ _ F.
Let Hn := f_n _ _ _ _ _ _ _ F.
(** ** Periodic splines as combinations of the periodic B-splines *)
Lemma periodic_sum (v : Z -> R) x : periodic_coefficients v d ncells ->
  spline t b d ncells v x = zsum ncells (fun i => v i * periodic_bspline t b d ncells i x)%R.
Proof using Hd Hn.
  intros Hv. unfold spline, periodic_bspline. rewrite sum_first_zsum.
  rewrite (zsum_ext ncells _ (fun i => zsum (ncells + d) (fun j => if j mod ncells =? i then v j * bspline t b (Z.to_nat d) j x else 0)%R)).
  2:{ intros i Hi. rewrite sum_first_zsum, <- zsum_scal. apply zsum_ext. intros j Hj. destruct (Z.eqb_spec (j mod ncells) i) as [E|N]; [|ring].
      rewrite (coef_mod s d periodic ncells t a b F v Hv (Z.to_nat (j + 1)) j) by nia. now rewrite E. }
  rewrite zsum_exchange by lia. symmetry. apply zsum_ext. intros j Hj. pose proof (Z.mod_pos_bound j ncells ltac:(lia)).
  rewrite (zsum_ext ncells _ (fun i => if i =? j mod ncells then v j * bspline t b (Z.to_nat d) j x else 0)%R).
  + apply zsum_delta. lia.
  + intros i _. now rewrite Z.eqb_sym.
Qed.
Lemma periodic_row (y v : Z -> R) shift x : (forall k, 0 <= k < ncells + d -> v k = y ((k - shift) mod ncells)) ->
  periodic_coefficients v d ncells /\
  spline t b d ncells v x = zsum ncells (fun j => periodic_bspline t b d ncells ((j + shift) mod ncells) x * y j)%R.
Proof using Hd Hn F.
  intros H. assert (P : periodic_coefficients v d ncells).
  { intros i Hi. rewrite !H by lia. f_equal. replace (ncells + i - shift) with (i - shift + 1 * ncells) by ring. apply Z_mod_plus_full. }
  split; [exact P|]. rewrite (periodic_sum v x P), <- (zsum_cyclic ncells shift) by lia. apply zsum_ext. intros j Hj. cbn beta.
  pose proof (Z.mod_pos_bound (j + shift) ncells ltac:(lia)). rewrite H by lia. rewrite Rmult_comm. f_equal. f_equal.
  rewrite Zminus_mod_idemp_l. replace (j + shift - shift) with j by ring. now rewrite Z.mod_small.
Qed.
Lemma periodic_single x c k : d + 1 <= ncells -> in_cell t d ncells b x c -> 0 <= k < ncells ->
  (forall r, 0 <= r <= d -> (c - d + r) mod ncells = k -> periodic_bspline t b d ncells k x = bspline_piece t c (Z.to_nat d) (c - d + r) x) /\
  ((forall r, 0 <= r <= d -> (c - d + r) mod ncells <> k) -> periodic_bspline t b d ncells k x = 0%R).
Proof using Hd Hn F.
  intros Hcells Hc Hk. pose proof Hc as [Hc' _]. unfold periodic_bspline. rewrite sum_first_zsum. split.
  - intros r Hr E.
    rewrite (zsum_ext _ _ (fun j => if j =? c - d + r then bspline_piece t c (Z.to_nat d) (c - d + r) x else 0%R)).
    + rewrite (zsum_delta (ncells + d) (c - d + r)); [reflexivity | lia].
    + intros j Hj. rewrite (cell_bspline s d periodic ncells t a b F _ x c j Hc).
      destruct (Z.eqb_spec j (c - d + r)) as [-> | N]; [now rewrite E, Z.eqb_refl|].
      destruct (Z.eqb_spec (j mod ncells) k) as [E' | _]; [|reflexivity].
      destruct (Z_lt_dec j (c - d)); [apply piece_zero; lia|]. destruct (Z_lt_dec c j); [apply piece_zero; lia|].
      exfalso. apply N.
      assert (D : (j - (c - d + r)) mod ncells = 0) by (rewrite Zminus_mod, E, E', Z.sub_diag; apply Z.mod_0_l; lia).
      apply Z.mod_divide in D; [|lia]. destruct D as [q Hq]. assert (q = 0) by (clear -Hq Hr n n0 Hcells; nia). subst q. lia.
  - intros H. apply zsum_zero.
    intros j Hj. rewrite (cell_bspline s d periodic ncells t a b F _ x c j Hc). destruct (Z.eqb_spec (j mod ncells) k) as [E | _]; [|reflexivity].
    destruct (Z_lt_dec j (c - d)); [apply piece_zero; lia|]. destruct (Z_lt_dec c j); [apply piece_zero; lia|].
    exfalso. apply (H (j - (c - d))); [lia|]. now replace (c - d + (j - (c - d))) with j by lia.
Qed.
(** ** The cells of the ends *)
Lemma cell_first c : in_cell t d ncells b a c -> c = d.
Proof using Hd Hn F.
  intros [Hc H]. pose proof (f_first _ _ _ _ _ _ _ F). pose proof (f_ab _ _ _ _ _ _ _ F). pose proof (f_last _ _ _ _ _ _ _ F).
  destruct (Z.eq_dec c d) as [|N]; [assumption | exfalso].
  pose proof (f_cell _ _ _ _ _ _ _ F d ltac:(lia)). pose proof (f_mono _ _ _ _ _ _ _ F (d + 1) c ltac:(lia)). destruct H as [H | [H _]]; lra.
Qed.
Lemma cell_last c : in_cell t d ncells b b c -> c = d + ncells - 1.
Proof using Hd Hn F.
  intros [Hc H]. pose proof (f_last _ _ _ _ _ _ _ F). destruct H as [H | [_ H]]; [|exact H].
  pose proof (f_mono _ _ _ _ _ _ _ F (c + 1) (d + ncells) ltac:(lia)). lra.
Qed.
(** ** Rows of derivatives *)
Lemma derivative_row k c o z (y v : Z -> R) h : k = ncells + d -> d <= c < d + ncells -> Z.of_nat o <= d -> (forall i, 0 <= i < ncells + d -> v i = y i) ->
  exists g, nth_derivative o (spline_piece t c d ncells v) g /\ zsum k (fun j => scaled_derivative t c d h o z j * y j)%R = (h ^ o * g z)%R.
Proof using Hd Hn F.
  intros -> Hc Ho Hv. exists (deriv_sum d t c (Z.of_nat o) v). split.
  - pose proof (deriv_sum_nd s d periodic ncells t a b F c (Z.of_nat o) v Hc ltac:(lia)) as H. now rewrite Nat2Z.id in H.
  - unfold deriv_sum. rewrite Nat2Z.id. rewrite <- zsum_scal.
    rewrite (zsum_part (ncells + d) (c - d) (d + 1)); [| lia | lia | lia |].
    2:{ intros i Hi Ho'. unfold scaled_derivative. rewrite Derive_n_zero; [ring | intros; apply piece_zero; lia]. }
    apply zsum_ext. intros r Hr. rewrite <- Hv by lia. unfold scaled_derivative.
    pose proof (kth_nd s d periodic ncells t a b F c r (Z.of_nat o) Hc ltac:(lia) ltac:(lia)) as K. rewrite Nat2Z.id in K.
    rewrite (nd_Derive_n _ _ _ z K). ring.
Qed.
Lemma scaled_kth c h o z r : d <= c < d + ncells -> Z.of_nat o <= d -> 0 <= r <= d ->
  scaled_derivative t c d h o z (c - d + r) = (h ^ o * kth t c d r o z)%R.
Proof using Hd Hn F.
  intros Hc Ho Hr. unfold scaled_derivative. pose proof (kth_nd s d periodic ncells t a b F c r (Z.of_nat o) Hc ltac:(lia) ltac:(lia)) as K. rewrite Nat2Z.id in K.
  now rewrite (nd_Derive_n _ _ _ z K).
Qed.
End Facts.
