(** Evaluation of splines: values, derivatives and integrals. *)
From Coq Require Import Bool Reals Lia Lra ZifyBool List.
From Verif Require Import EvaluatorSpec EvaluatorSpace LoopProofs BSplineMath BSplineDeriv IntegralMath IntegralMath2 IntegralProofs SamplingProofs LinearProofs2.
Import ListNotations.
Local Open Scope bool_scope. Local Open Scope Z_scope.

Lemma zsum_part n lo k (f : Z -> R) : 0 <= lo -> 0 <= k -> lo + k <= n -> (forall i, 0 <= i < n -> i < lo \/ lo + k <= i -> f i = 0%R) ->
  zsum n f = zsum k (fun r => f (lo + r)).
Proof.
  intros Hlo Hk Hn H. replace n with (lo + (k + (n - lo - k))) by lia. rewrite !zsum_add by lia.
  rewrite (zsum_zero lo) by (intros; apply H; lia). rewrite (zsum_zero (n - lo - k)) by (intros; apply H; lia). ring.
Qed.

(** *** derivatives of sums *)
Lemma nd_plus k : forall f g f' g', nth_derivative k f f' -> nth_derivative k g g' -> nth_derivative k (fun x => f x + g x)%R (fun x => f' x + g' x)%R.
Proof.
  induction k as [|k IH]; cbn [nth_derivative]; intros f g f' g' H1 H2.
  - intros x. now rewrite H1, H2.
  - destruct H1 as (h1 & A1 & B1), H2 as (h2 & A2 & B2). exists (fun x => h1 x + h2 x)%R. split; [|apply IH; assumption].
    intros x. apply dpl_plus; auto.
Qed.
Lemma nd_scal k v : forall f f', nth_derivative k f f' -> nth_derivative k (fun x => v * f x)%R (fun x => v * f' x)%R.
Proof.
  induction k as [|k IH]; cbn [nth_derivative]; intros f f' H1.
  - intros x. now rewrite H1.
  - destruct H1 as (h1 & A1 & B1). exists (fun x => v * h1 x)%R. split; [|apply IH; assumption].
    intros x. apply dpl_scal; auto.
Qed.
Lemma nd_zero k : nth_derivative k (fun _ => 0%R) (fun _ => 0%R).
Proof. induction k as [|k IH]; cbn [nth_derivative]; [reflexivity|]. exists (fun _ => 0%R). split; [|exact IH]. intros x. apply dpl_const. Qed.
Lemma nd_zsum k n (f g : Z -> R -> R) : (forall i, 0 <= i < n -> nth_derivative k (f i) (g i)) -> nth_derivative k (fun x => zsum n (fun i => f i x)) (fun x => zsum n (fun i => g i x)).
Proof.
  destruct (Z_lt_ge_dec n 0) as [L|L]. { intros _. unfold zsum. replace (Z.to_nat n) with O by lia. apply nd_zero. }
  revert f g. pattern n. apply natlike_ind; [| |lia].
  - intros f g _. apply nd_zero.
  - intros m Hm IH f g H. unfold Z.succ. apply (nth_derivative_ext k (fun x => zsum m (fun i => f i x) + f m x)%R (fun x => zsum m (fun i => g i x) + g m x)%R).
    + intros x. symmetry. apply (zsum_S m (fun i => f i x)). lia.
    + intros x. symmetry. apply (zsum_S m (fun i => g i x)). lia.
    + apply nd_plus; [apply IH; intros; apply H; lia | apply H; lia].
Qed.
Lemma nd_unique k : forall f g f' g', (forall x, f x = f' x) -> nth_derivative k f g -> nth_derivative k f' g' -> forall x, g x = g' x.
Proof.
  induction k as [|k IH]; cbn [nth_derivative]; intros f g f' g' He H1 H2 x.
  - rewrite <- H1, <- H2. apply He.
  - destruct H1 as (h1 & A1 & B1), H2 as (h2 & A2 & B2). apply (IH h1 g h2 g'); try assumption.
    intros y. apply (uniqueness_limite f y); [apply A1|]. apply (dpl_ext f' f y (h2 y)); [intros; symmetry; apply He | reflexivity | apply A2].
Qed.
(** *** floor *)
Lemma nfloor_R x : exists k, nfloor RA x = IZR k /\ (IZR k <= x < IZR k + 1)%R.
Proof.
  unfold nfloor. cbn [RA ntrunc nofz nltb nsub num]. unfold R_trunc, R_ltb. destruct (Rlt_dec x 0) as [H|H].
  - pose proof (base_Int_part (- x)) as [B1 B2]. set (p := Int_part (- x)) in *. rewrite opp_IZR. destruct (Rlt_dec x (- IZR p)) as [L|L].
    + exists (- p - 1). rewrite minus_IZR, opp_IZR. split; [reflexivity | lra].
    + exists (- p). rewrite opp_IZR. split; [reflexivity | lra].
  - pose proof (base_Int_part x) as [B1 B2]. destruct (Rlt_dec x (IZR (Int_part x))); [lra|]. exists (Int_part x). split; [reflexivity | lra].
Qed.

Section Facts.
Context (s : bspline_space RA) (d : Z) (periodic : bool) (ncells : Z) (t : Z -> R) (a b : R).
Hypothesis F : facts s d periodic ncells t a b.
Let Hd : 1 <= d := f_d _ _ _ _ _ _ _ F.
Let Hn : 1 <= ncells := f_n _ _ _ _ _ _ _ F.
Let Hab : (a < b)%R := f_ab _ _ _ _ _ _ _ F.
Let Hmono := f_mono _ _ _ _ _ _ _ F.
Let Hcell := f_cell _ _ _ _ _ _ _ F.
Let Hfirst := f_first _ _ _ _ _ _ _ F.
Let Hlast := f_last _ _ _ _ _ _ _ F.
Let Hbig := f_big _ _ _ _ _ _ _ F.

(** *** the spline on a cell *)
Lemma cell_closed x c : in_cell t d ncells b x c -> (t c <= x <= t (c + 1)%Z)%R.
Proof.
  intros [Hc [H|[-> ->]]]; [lra|]. replace (d + ncells - 1 + 1) with (d + ncells) by lia. rewrite Hlast. split; [|lra]. rewrite <- Hlast. apply Hmono. lia.
Qed.
Lemma cell_bspline p x c i : in_cell t d ncells b x c -> bspline t b p i x = bspline_piece t c p i x.
Proof.
  intros [Hc Hx]. unfold bspline, bspline_piece. apply cdb_ext. intros j _. unfold indicator.
  assert (Hcb : (t (c + 1)%Z <= b)%R) by (rewrite <- Hlast; apply Hmono; lia).
  destruct Hx as [Hx|[-> ->]].
  - destruct (Req_EM_T x b); [lra|].
    destruct (Z.eq_dec j c) as [->|N].
    + destruct (Rle_dec (t c) x); [|lra]. destruct (Rlt_dec x (t (c + 1)%Z)); [reflexivity | lra].
    + destruct (Rle_dec (t j) x) as [H1|]; [|reflexivity]. destruct (Rlt_dec x (t (j + 1)%Z)) as [H2|]; [|reflexivity]. exfalso.
      destruct (Z_lt_ge_dec j c) as [L|L].
      * pose proof (Hmono (j + 1) c ltac:(lia)). lra.
      * pose proof (Hmono (c + 1) j ltac:(lia)). lra.
  - destruct (Req_EM_T b b) as [_|]; [|lra]. pose proof (Hcell (d + ncells - 1) ltac:(lia)) as Hl. replace (d + ncells - 1 + 1) with (d + ncells) in Hl by lia. rewrite Hlast in Hl.
    destruct (Z.eq_dec j (d + ncells - 1)) as [->|N].
    + destruct (Rlt_dec (t (d + ncells - 1)%Z) b); [|lra]. replace (d + ncells - 1 + 1) with (d + ncells) by lia. destruct (Rle_dec b (t (d + ncells))); [reflexivity | lra].
    + destruct (Rlt_dec (t j) b) as [H1|]; [|reflexivity]. destruct (Rle_dec b (t (j + 1)%Z)) as [H2|]; [|reflexivity]. exfalso.
      destruct (Z_lt_ge_dec j (d + ncells - 1)) as [L|L].
      * pose proof (Hmono (j + 1) (d + ncells - 1) ltac:(lia)). lra.
      * pose proof (Hmono (d + ncells) j ltac:(lia)). lra.
Qed.
Lemma piece_outside c i x : i < c - d \/ c < i -> bspline_piece t c (Z.to_nat d) i x = 0%R.
Proof. intros H. apply piece_zero. lia. Qed.
Lemma piece_sum c (k : Z -> R) x : d <= c < d + ncells ->
  spline_piece t c d ncells k x = zsum (d + 1) (fun r => k (c - d + r)%Z * bspline_piece t c (Z.to_nat d) (c - d + r) x)%R.
Proof.
  intros Hc. unfold spline_piece. rewrite sum_first_zsum. rewrite (zsum_part (ncells + d) (c - d) (d + 1)); [reflexivity | lia | lia | lia|].
  intros i _ Hi. rewrite piece_outside by lia. ring.
Qed.
Lemma spline_is_piece c (k : Z -> R) x : in_cell t d ncells b x c -> spline t b d ncells k x = spline_piece t c d ncells k x.
Proof. intros H. unfold spline, spline_piece. rewrite !sum_first_zsum. apply zsum_ext. intros i _. now rewrite (cell_bspline _ _ c). Qed.
Lemma exists_cell x : (a <= x <= b)%R -> exists c, in_cell t d ncells b x c.
Proof.
  intros H. destruct (f_eval _ _ _ _ _ _ _ F (mk_scratch (A := RA) (fun _ => 0%R) (fun _ => 0%R) (fun _ => 0%R) (fun _ _ => 0%R) (fun _ _ => 0%R) (fun _ _ => 0%R)) x H) as (v & c & _ & Hc & _).
  exists c. exact Hc.
Qed.
Lemma unity_piece c x : d <= c < d + ncells -> zsum (d + 1) (fun r => bspline_piece t c (Z.to_nat d) (c - d + r) x) = 1%R.
Proof.
  intros Hc. pose proof (V_sum t c d (fun i j H _ => Hmono i j (proj2 H)) (Hcell c Hc) d ltac:(lia) ltac:(lia) x) as K.
  rewrite (sum_f_R0_zsum (fun r => V t c d r x)) in K. rewrite Z2Nat.id in K by lia. exact K.
Qed.

(** *** sums of the code *)
Lemma c1_get_ok (c : chunk_1d RA) i : has_coefficients c (ncells + d) -> 0 <= i < ncells + d -> c1_get RA c i = Ok (coefficient c i : num RA).
Proof.
  intros [H1 H2] Hi. unfold c1_get. unfold c1_size in H2. rewrite H1. replace (elem_minus i 0) with i.
  - rewrite aget_ok by lia. reflexivity.
  - unfold elem_minus. unfold u64_sub. rewrite u64_small by lia. rewrite i64_small by lia. lia.
Qed.
Lemma spline_sum_ok jmin (v : arr R) (c : chunk_1d RA) : has_coefficients c (ncells + d) -> 0 <= jmin < ncells -> a_len v = d + 1 ->
  spline_sum RA s jmin v c = Ok (zsum (d + 1) (fun r => coefficient c (jmin + r) * a_at v r)%R : num RA).
Proof.
  intros Hc Hj Hv. unfold spline_sum. rewrite (f_deg _ _ _ _ _ _ _ F).
  destruct (for_range_inv (fun k (y : num RA) => y = zsum k (fun r => coefficient c (jmin + r) * a_at v r)%R)
    (fun i y => c0 <- c1_get RA c (u64_add jmin i) ;; v0 <- aget v i ;; Ok (y + c0 * v0)%N_) 0 (d + 1) (0%R : num RA)) as (y & E & Hy).
  - lia.
  - reflexivity.
  - intros k y Hk ->. replace (u64_add jmin k) with (jmin + k) by (unfold u64_add; rewrite u64_small; lia).
    rewrite c1_get_ok by (try assumption; lia). cbn [rbind]. rewrite aget_ok by lia. cbn [rbind]. eexists. split; [reflexivity|].
    rewrite zsum_S by lia. reflexivity.
  - cbn [nofz RA] in *. etransitivity; [exact E|]. now rewrite Hy.
Qed.
Lemma eval_no_bc_ok m (c : chunk_1d RA) x : has_coefficients c (ncells + d) -> (a <= x <= b)%R ->
  eval_no_bc RA s m None x c = Ok (spline t b d ncells (coefficient c) x : num RA).
Proof.
  intros Hc Hx. cbn [eval_no_bc]. destruct (f_eval _ _ _ _ _ _ _ F m x Hx) as (v & k & E & Hk & Hl & Hv). rewrite E. cbn [rbind].
  pose proof Hk as [Hk1 _]. rewrite spline_sum_ok by (try assumption; lia). f_equal.
  rewrite (spline_is_piece k) by exact Hk. rewrite piece_sum by lia. apply zsum_ext. intros r Hr. rewrite Hv by lia. reflexivity.
Qed.
Lemma eval_no_bc_far m order (c : chunk_1d RA) x : (x < a - (b - a) * tolerance RA \/ b + (b - a) * tolerance RA < x)%R ->
  eval_no_bc RA s m order x c = Undef.
Proof.
  intros H. destruct (f_far _ _ _ _ _ _ _ F m (match order with Some k => k | None => 0 end) x H) as [E1 E2]. destruct order as [k|]; cbn [eval_no_bc].
  - cbn in E2. rewrite E2. cbn [rbind]. unfold assert_. now destruct (_ && _).
  - now rewrite E1.
Qed.

(** *** derivatives *)
Lemma kth_nd c r k : d <= c < d + ncells -> 0 <= r <= d -> 0 <= k <= d -> nth_derivative (Z.to_nat k) (bspline_piece t c (Z.to_nat d) (c - d + r)) (kth t c d r (Z.to_nat k)).
Proof. intros Hc Hr Hk. apply (kth_nth t c d (fun i j H _ => Hmono i j (proj2 H)) (Hcell c Hc)); lia. Qed.
Definition deriv_sum (c k : Z) (v : Z -> R) (x : R) : R := zsum (d + 1) (fun r => v (c - d + r)%Z * kth t c d r (Z.to_nat k) x)%R.
Lemma deriv_sum_nd c k v : d <= c < d + ncells -> 0 <= k <= d -> nth_derivative (Z.to_nat k) (spline_piece t c d ncells v) (deriv_sum c k v).
Proof.
  intros Hc Hk. eapply nth_derivative_ext; [| |apply (nd_zsum (Z.to_nat k) (d + 1) (fun r x => v (c - d + r)%Z * bspline_piece t c (Z.to_nat d) (c - d + r) x)%R (fun r x => v (c - d + r)%Z * kth t c d r (Z.to_nat k) x)%R)].
  - intros x. cbn beta. symmetry. apply piece_sum. exact Hc.
  - intros x. reflexivity.
  - intros i Hi. apply nd_scal. apply kth_nd; lia.
Qed.
Lemma eval_deriv_ok m (v : chunk_1d RA) x k : has_coefficients v (ncells + d) -> (a <= x <= b)%R -> 1 <= k <= d -> falling_z d (Z.to_nat k) < 2 ^ 31 ->
  exists c, in_cell t d ncells b x c /\ eval_no_bc RA s m (Some k) x v = Ok (deriv_sum c k (coefficient v) x : num RA).
Proof.
  intros Hv Hx Hk Hf. destruct (f_derivs _ _ _ _ _ _ _ F m x k Hx ltac:(lia) Hf) as (w & c & E & Hc & W1 & W2 & W3).
  exists c. split; [exact Hc|]. cbn [eval_no_bc]. rewrite (f_deg _ _ _ _ _ _ _ F). replace ((0 <? k) && (k <=? d)) with true by lia. cbn [assert_]. rewrite E. cbn [rbind].
  change (num RA) with R in *.
  destruct (for_range_inv (fun i (vals : arr R) => a_len vals = d + 1 /\ forall r, 0 <= r < i -> a_at vals r = kth t c d r (Z.to_nat k) x)
    (fun i vals => v <- aget2 w i k ;; aset vals i v) 0 (d + 1) (mk_arr (d + 1) (m_vals m))) as (vals & E' & Hl & Hvals).
  - lia.
  - split; [reflexivity | lia].
  - intros i vals Hi [Hl Hvals]. rewrite aget2_ok by lia. cbn [rbind]. rewrite aset_ok by lia. eexists. split; [reflexivity|]. cbn [a_len a_at]. split; [exact Hl|].
    intros r Hr. destruct (Z.eq_dec r i) as [->|N]; [rewrite upd_eq; apply W3; lia | rewrite upd_neq by lia; apply Hvals; lia].
  - etransitivity; [exact (f_equal (fun r => rbind r (fun vals => spline_sum RA s (c - d) vals v)) E')|]. cbn [rbind]. pose proof Hc as [Hc1 _]. rewrite spline_sum_ok by (try assumption; lia). f_equal. unfold deriv_sum. apply zsum_ext. intros r Hr. now rewrite Hvals by lia.
Qed.
Lemma piece_closed c v y : d <= c < d + ncells -> (t c <= y <= t (c + 1)%Z)%R -> spline t b d ncells v y = spline_piece t c d ncells v y.
Proof.
  intros Hc Hy. destruct (Rlt_dec y (t (c + 1)%Z)) as [L|L].
  - apply spline_is_piece. split; [exact Hc | left; lra].
  - assert (y = t (c + 1)%Z) as -> by lra. destruct (Z.eq_dec c (d + ncells - 1)) as [->|N].
    + apply spline_is_piece. split; [lia | right; split; [|reflexivity]]. rewrite <- Hlast. f_equal. lia.
    + pose proof (Hcell c Hc) as H1. pose proof (Hcell (c + 1) ltac:(lia)) as H2.
      rewrite (spline_is_piece (c + 1)) by (split; [lia | left; lra]). unfold spline_piece. rewrite !sum_first_zsum. apply zsum_ext. intros i _. f_equal.
      replace (Z.to_nat d) with (S (Z.to_nat (d - 1))) by lia. pose proof (piece_simple t (c + 1) (Z.to_nat (d - 1)) i) as K.
      replace (c + 1 - 1) with c in K by lia. symmetry. apply K; assumption.
Qed.
Lemma constant_piece c v w x : d <= c < d + ncells -> (forall i, 0 <= i < ncells + d -> v i = w) -> spline_piece t c d ncells v x = w.
Proof.
  intros Hc H. rewrite piece_sum by exact Hc. rewrite (zsum_ext _ _ (fun r => w * bspline_piece t c (Z.to_nat d) (c - d + r) x)%R).
  - rewrite zsum_scal, unity_piece by exact Hc. ring.
  - intros r Hr. now rewrite H by lia.
Qed.
(** *** periodicity *)
Lemma seam v : periodic = true -> periodic_coefficients v d ncells -> spline t b d ncells v b = spline t b d ncells v a.
Proof.
  intros Hp Hv. pose proof (f_period _ _ _ _ _ _ _ F Hp) as Per.
  assert (L1 : (t (d + ncells - 1) < t (d + ncells))%R). { replace (d + ncells) with (d + ncells - 1 + 1) at 2 by lia. apply Hcell. lia. }
  assert (L2 : (t (d + ncells) < t (d + ncells + 1))%R). { replace (d + ncells + 1) with (d + 1 + ncells) by lia. rewrite !Per. pose proof (Hcell d ltac:(lia)). lra. }
  rewrite (spline_is_piece (d + ncells - 1) v b) by (split; [lia | right; split; reflexivity]).
  rewrite (spline_is_piece d v a) by (split; [lia | left; rewrite Hfirst; pose proof (Hcell d ltac:(lia)); rewrite Hfirst in *; lra]).
  unfold spline_piece. rewrite !sum_first_zsum.
  rewrite (zsum_ext _ _ (fun i => v i * bspline_piece t d (Z.to_nat d) (i - ncells) a)%R).
  2:{ intros i _. f_equal. replace (Z.to_nat d) with (S (Z.to_nat (d - 1))) by lia. rewrite <- Hlast, piece_simple by assumption.
      rewrite Hlast. replace b with (a + (b - a))%R at 1 by ring. replace i with (i - ncells + ncells) at 1 by lia. apply (piece_translate t ncells (b - a) d). exact Per. }
  rewrite (zsum_part (ncells + d) ncells d) by (try lia; intros i Hi Ho; rewrite piece_outside by lia; ring).
  rewrite (zsum_part (ncells + d) 0 d (fun i => v i * bspline_piece t d (Z.to_nat d) i a)%R).
  - apply zsum_ext. intros r Hr. rewrite Hv by lia. do 2 f_equal; lia.
  - lia.
  - lia.
  - lia.
  - intros i Hi Ho. destruct (Z.eq_dec i d) as [->|N].
    + rewrite <- Hfirst. replace (Z.to_nat d) with (S (Z.to_nat (d - 1))) by lia. rewrite piece_at_start by (apply Hcell; lia). ring.
    + rewrite piece_outside by lia. ring.
Qed.
Lemma same_point v y y' k : periodic = true -> periodic_coefficients v d ncells -> (a <= y <= b)%R -> (a <= y' <= b)%R -> (y' = y + IZR k * (b - a))%R ->
  spline t b d ncells v y' = spline t b d ncells v y.
Proof.
  intros Hp Hv Hy Hy' E.
  assert (k < 2). { apply lt_IZR. apply Rnot_le_lt. intros L. pose proof (Rmult_le_compat_r (b - a) 2 (IZR k) ltac:(lra) L). lra. }
  assert (-2 < k). { apply lt_IZR. apply Rnot_le_lt. intros L. pose proof (Rmult_le_compat_r (b - a) (IZR k) (-2) ltac:(lra) L). lra. }
  assert (k = 0 \/ k = 1 \/ k = -1) as [-> | [-> | ->]] by lia.
  - f_equal. lra.
  - assert (y = a) as -> by lra. assert (y' = b) as -> by lra. now apply seam.
  - assert (y = b) as -> by lra. assert (y' = a) as -> by lra. symmetry. now apply seam.
Qed.
Lemma eval_periodic_ok m lower upper (v : chunk_1d RA) x y k : periodic = true -> has_coefficients v (ncells + d) -> periodic_coefficients (coefficient v) d ncells ->
  (a <= y <= b)%R -> (x = y + IZR k * (b - a))%R -> eval RA s m lower upper x v = Ok (spline t b d ncells (coefficient v) y : num RA).
Proof.
  intros Hp Hv Hc Hy Hx. unfold eval, bs_length. rewrite (f_rmin _ _ _ _ _ _ _ F), (f_rmax _ _ _ _ _ _ _ F), (f_per _ _ _ _ _ _ _ F), Hp. cbn [rbind].
  cbn [RA nltb nsub nmul ndiv num]. unfold R_ltb.
  assert (Hred : exists j, let z := (x - nfloor RA ((x - a) / (b - a)) * (b - a))%R in (a <= z <= b)%R /\ (z = y + IZR j * (b - a))%R).
  { destruct (nfloor_R ((x - a) / (b - a))%R) as (f & -> & Hf). exists (k - f). cbn zeta. rewrite minus_IZR. split; [|lra].
    assert ((x - a) = (x - a) / (b - a) * (b - a))%R by (field; lra).
    pose proof (Rmult_le_compat_r (b - a) _ _ ltac:(lra) (proj1 Hf)). pose proof (Rmult_lt_compat_r (b - a) _ _ ltac:(lra) (proj2 Hf)). lra. }
  destruct Hred as (j & Hz & Ez). cbn zeta in *.
  destruct (Rlt_dec x a) as [L|L]; [|destruct (Rlt_dec b x) as [L'|L']]; cbn [orb].
  - rewrite eval_no_bc_ok by assumption. f_equal. apply (same_point _ _ _ j); assumption.
  - rewrite eval_no_bc_ok by assumption. f_equal. apply (same_point _ _ _ j); assumption.
  - rewrite eval_no_bc_ok by (try assumption; lra). f_equal. apply (same_point _ _ _ k); try assumption. lra.
Qed.
(** *** other spaces *)
Lemma eval_inside_ok m lower upper (v : chunk_1d RA) x : has_coefficients v (ncells + d) -> (a <= x <= b)%R ->
  eval RA s m lower upper x v = Ok (spline t b d ncells (coefficient v) x : num RA).
Proof.
  intros Hv Hx. unfold eval, bs_length. rewrite (f_rmin _ _ _ _ _ _ _ F), (f_rmax _ _ _ _ _ _ _ F). cbn [rbind].
  cbn [RA nltb nsub nmul ndiv num]. unfold R_ltb. destruct (Rlt_dec x a) as [L|L]; [lra|]. destruct (Rlt_dec b x) as [L'|L']; [lra|]. cbn [orb].
  destruct (bs_periodic RA s); apply eval_no_bc_ok; assumption.
Qed.
Lemma eval_outside_ok m lower upper (v : chunk_1d RA) x : periodic = false ->
  ((x < a)%R -> eval RA s m lower upper x v = lower x v) /\ ((b < x)%R -> eval RA s m lower upper x v = upper x v).
Proof.
  intros Hp. unfold eval. rewrite (f_rmin _ _ _ _ _ _ _ F), (f_rmax _ _ _ _ _ _ _ F), (f_per _ _ _ _ _ _ _ F), Hp. cbn [rbind].
  cbn [RA nltb nsub nmul ndiv num]. unfold R_ltb. split; intros H.
  - destruct (Rlt_dec x a); [reflexivity | lra].
  - destruct (Rlt_dec x a); [lra|]. destruct (Rlt_dec b x); [reflexivity | lra].
Qed.
Lemma constant_rule_ok m (v : chunk_1d RA) pos x : has_coefficients v (ncells + d) -> (a <= pos <= b)%R ->
  constant_rule RA s m pos x v = Ok (spline t b d ncells (coefficient v) pos : num RA).
Proof. intros Hv Hp. exact (eval_no_bc_ok m v pos Hv Hp). Qed.
End Facts.
