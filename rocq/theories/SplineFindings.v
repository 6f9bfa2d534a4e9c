(** What does not hold of the B-splines: the [int] factor of high derivatives, the location of a cell in
    double precision. *)
From Coq Require Import Bool Reals Lia Lra ZifyBool List.
From Verif Require Import BSplineModel BSplineSpec LoopProofs BSplineMath BSplineDeriv BSplineProofs BSplineNDerivs BSplineUniform SamplingSpec SamplingProofs CellProofs KnotProofs NonUniformProofs UniformProofs SplineLemmas.
Import ListNotations.
Local Open Scope bool_scope. Local Open Scope Z_scope.

Fixpoint wrapped (d : Z) (k : nat) : Z :=
  match k with O => i32 d | S k' => i32 (u64_mul (u64 (wrapped d k')) (u64_sub d (Z.of_nat k))) end.
Lemma nb_scale_wrapped s d m (dv : arr2 R) : nb_degree RA s = d -> 0 <= d -> 0 <= m <= d -> a2_n dv = d + 1 -> a2_m dv = m + 1 ->
  exists dv', nb_scale RA s m dv = Ok dv' /\
    (forall r k, 0 <= r <= d -> 1 <= k <= m -> a2_at dv' r k = (a2_at dv r k * IZR (wrapped d (Z.to_nat (k - 1))))%R).
Proof.
  intros Hdeg Hd Hm Hn Hmm. unfold nb_scale. rewrite Hdeg.
  match goal with |- context [for_range 1 (m + 1) ?f ?i] => set (body := f); set (init := i) end.
  destruct (for_range_inv
    (fun k (st : Z * arr2 (num RA)) => fst st = wrapped d (Z.to_nat (k - 1)) /\ a2_n (snd st) = d + 1 /\ a2_m (snd st) = m + 1 /\
      (forall r j, 0 <= r <= d -> 1 <= j < k -> a2_at (snd st) r j = (a2_at dv r j * IZR (wrapped d (Z.to_nat (j - 1))))%R) /\
      (forall r j, k <= j -> a2_at (snd st) r j = a2_at dv r j)) body 1 (m + 1) init) as ([rr dv'] & E & H).
  - lia.
  - unfold init. cbn [fst snd]. split; [reflexivity|]. split; [exact Hn | split; [exact Hmm | split; [intros; lia | reflexivity]]].
  - intros k [r0 w] Hk (H1 & H2 & H3 & H4 & H5). cbn [fst snd] in *. unfold body at 1. change (num RA) with R in *.
    destruct (scale_column w k (IZR r0) ltac:(lia) ltac:(lia)) as (w' & Ew & L1 & L2 & Hs1 & Hs2). change (num RA) with R in *.
    cbn [nofz RA]. rewrite Ew. cbn [rbind]. eexists. split; [reflexivity|]. cbn [fst snd]. split; [|split; [congruence | split; [congruence | split]]].
    + replace (Z.to_nat (k + 1 - 1)) with (S (Z.to_nat (k - 1))) by lia. cbn [wrapped]. rewrite <- H1. do 3 f_equal. lia.
    + intros r j Hr Hj. destruct (Z.eq_dec j k) as [->|].
      * rewrite Hs1 by lia. rewrite H5 by lia. now rewrite H1.
      * rewrite Hs2 by lia. apply H4; lia.
    + intros r j Hj. rewrite Hs2 by lia. apply H5. lia.
  - cbn [fst snd] in H. destruct H as (_ & _ & _ & H4 & _). change (num RA) with R in *. rewrite E. cbn [rbind]. exists dv'.
    split; [reflexivity|]. intros r k Hr Hk; apply H4; lia.
Qed.
(** Column k of the result, in general. *)
Lemma n_derivs_wrapped l d periodic s x c (left_ right_ : Z -> R) (ndu_ a_ : Z -> Z -> R) (derivs : arr2 R) m :
  1 <= d -> (2 <= length l)%nat -> Z.of_nat (length l) + 2 * d < 2 ^ 31 -> strictly_increasing l ->
  nb_degree RA s = d -> nb_break_front RA s = d -> (forall k, 0 <= k < Z.of_nat (length l) + 2 * d -> nb_coord RA s k = Ok (knots periodic d l k : num RA)) ->
  d <= c < d + (Z.of_nat (length l) - 1) -> nb_cell RA s x = Ok c -> 0 <= m <= d -> a2_n derivs = d + 1 -> a2_m derivs = m + 1 ->
  exists dv j, nb_eval_basis_and_n_derivs RA s left_ right_ ndu_ a_ derivs x m = Ok (dv, j) /\
    (forall r k, 0 <= r <= d -> 1 <= k <= m ->
       a2_at dv r k = (D d (Gi (knots periodic d l) c) (fun q i => V (knots periodic d l) c q i x) r (Z.to_nat k) * IZR (wrapped d (Z.to_nat (k - 1))))%R).
Proof.
  intros Hd Hlen Hbig Hs Hdeg Hfront Hcoord Hc Ecell Hm Hn Hmm. set (t := knots periodic d l) in *.
  unfold nb_eval_basis_and_n_derivs. cbv zeta. change (num RA) with R. rewrite Hdeg, Hn, Hmm.
  replace ((m <=? d) && (d + 1 =? 1 + d) && (m + 1 =? 1 + m)) with true by lia. unfold assert_. rewrite Ecell. cbn [rbind].
  destruct (nb_ndu_ok s t c d x) with (l := mk_arr d left_) (r := mk_arr d right_) (a := mk_arr2 (d + 1) (d + 1) ndu_)
    as (l' & r' & ndu & E & Hn1 & Hn2 & Hn3 & Hn4); try reflexivity; try lia; try exact Hdeg.
  { intros k Hk. apply Hcoord. lia. }
  { intros. apply sp_mono; try assumption. lia. }
  { apply sp_cell; assumption. }
  change (num RA) with R in *. rewrite E. cbn [rbind].
  destruct (nd_column0_ok d ndu derivs ltac:(lia) Hn1 Hn2 Hn ltac:(lia)) as (dv0 & E0 & L0 & M0 & H0). change (num RA) with R in *. rewrite E0. cbn [rbind].
  destruct (nd_loop_ok d (nb_factor RA) ndu (Gi t c) (fun q k => V t c q k x) Hn1 Hn2 Hn3) with (n := m) (a := mk_arr2 (d + 1) 2 a_) (dv := dv0)
    as (dv1 & E1 & L1 & M1 & H1 & H1'); try reflexivity; try lia.
  { intros q k y Hk Hq. unfold nb_factor. change (num RA) with R in *. rewrite (aget2_ok ndu) by lia. cbn [rbind]. rewrite Hn4 by lia. reflexivity. }
  change (num RA) with R in *. rewrite E1. cbn [rbind].
  destruct (nb_scale_wrapped s d m dv1 Hdeg ltac:(lia) Hm L1 M1) as (dv2 & E2 & H2). change (num RA) with R in *. rewrite E2. cbn [rbind].
  eexists dv2, _. split; [reflexivity|]. intros r k Hr Hk. rewrite H2, H1 by lia. reflexivity.
Qed.

(** The first B-spline of degree 13 on one cell. *)
Definition l01 : list R := [0%R; 1%R].
Definition t01 : Z -> R := knots false 13 l01.
Lemma l01_strict : strictly_increasing l01.
Proof.
  intros i j x y Hij Hx Hy. unfold l01 in *. destruct i as [|[|i]]; destruct j as [|[|j]]; try lia; cbn in Hx, Hy; try discriminate.
  - injection Hx as <-. injection Hy as <-. lra.
  - destruct j; discriminate.
  - destruct j; discriminate.
  - destruct i; discriminate.
Qed.
Lemma l01_len : (2 <= length l01)%nat. Proof. cbn. lia. Qed.
Lemma t01_left k : k <= 13 -> t01 k = 0%R.
Proof. intros. unfold t01. rewrite (knots_open_left l01 13) by first [assumption | exact l01_len | lia]. reflexivity. Qed.
Lemma t01_right : t01 14 = 1%R.
Proof. unfold t01. rewrite (knots_open_right l01 13) by first [exact l01_len | cbn; lia]. reflexivity. Qed.
Lemma t01_mono a b : a <= b -> (t01 a <= t01 b)%R.
Proof. apply (sp_mono l01 13 false l01_len l01_strict). Qed.
Lemma t01_cell : (t01 13 < t01 (13 + 1)%Z)%R.
Proof. change (13 + 1) with 14. rewrite t01_right, t01_left by lia. lra. Qed.
Lemma V01 p : 0 <= p -> p <= 13 -> V t01 13 p 0 0%R = 1%R.
Proof.
  intros Hp. pattern p. apply natlike_ind; [intros; apply V_0 | | exact Hp]. intros q Hq IH Hle.
  replace (Z.succ q) with (q + 1) by lia. specialize (IH ltac:(lia)).
  rewrite (V_step t01 13 13) by first [lia | exact t01_cell | intros; apply t01_mono; lia].
  unfold Lp, Rp. replace (0 =? q + 1) with false by lia. change (0 =? 0) with true. cbv iota. rewrite IH. replace (13 + 0 + 1) with 14 by ring. rewrite t01_right.
  rewrite t01_left by lia.
  field.
Qed.
Lemma coef01 k : Z.of_nat k <= 13 -> coef (Gi t01 13) 13 0 k 0 <> 0%R.
Proof.
  induction k as [|k IH]; intros Hk; [cbn; lra|]. rewrite coef_S by lia. rewrite (coef_support _ _ _ k (0 + 1)) by lia.
  assert (Eg : Gi t01 13 (13 - Z.of_nat (S k)) 0 = 1%R).
  { unfold Gi, G. replace (13 + 0 + 1) with 14 by ring. rewrite t01_right, t01_left by lia. field. }
  rewrite Eg. specialize (IH ltac:(lia)). lra.
Qed.
Lemma D01 : D 13 (Gi t01 13) (fun q i => V t01 13 q i 0%R) 0 11 <> 0%R.
Proof.
  unfold D. change (13 - Z.of_nat 11 + 1) with (0 + 1 + 1 + 1). rewrite !zsum_S by lia. change (13 - Z.of_nat 11) with 2.
  rewrite (coef_support _ _ _ 11 (0 + 1)), (coef_support _ _ _ 11 (0 + 1 + 1)) by lia.
  change (zsum 0 ?f) with 0%R. rewrite V01 by lia. pose proof (coef01 11 ltac:(cbn; lia)). lra.
Qed.
Theorem n_derivs_overflow : exists d l left_ right_ ndu_ a_ derivs x n s v j r k g,
  1 <= d /\ strictly_increasing l /\ (first_point l <= x <= last_point l)%R /\ 0 <= n <= d /\ a2_n derivs = d + 1 /\ a2_m derivs = n + 1 /\
  nb_construct RA (fun _ => 0%R) d false l = Ok (Some s) /\
  nb_eval_basis_and_n_derivs RA s left_ right_ ndu_ a_ derivs x n = Ok (v, j) /\ 0 <= r <= d /\ 0 <= k <= n /\
  nth_derivative (Z.to_nat k) (bspline_piece (knots false d l) d (Z.to_nat d) r) g /\ a2_at v r k <> g x.
Proof.
  destruct (nu_space 13 false l01 ltac:(lia) l01_len l01_strict ltac:(cbn; lia) (fun _ => 0%R)) as (s & E & S1 & S2 & S3 & S4 & S5 & S6).
  assert (Hx : (first_point l01 <= 0 <= last_point l01)%R) by (unfold first_point, last_point; cbn; lra).
  destruct (find_cell_in l01 13 false s ltac:(lia) l01_len ltac:(cbn; lia) l01_strict S3 S4 S6 0%R Hx) as (c & Ec & _ & Hc & _).
  assert (c = 13) by (cbn in Hc; lia). subst c.
  set (z := fun _ : Z => 0%R). set (zz := fun _ _ : Z => 0%R).
  destruct (n_derivs_wrapped l01 13 false s 0%R 13 z z zz zz (mk_arr2 14 12 zz) 11 ltac:(lia) l01_len ltac:(cbn; lia) l01_strict S1 S3 S6 Hc Ec ltac:(lia) eq_refl eq_refl)
    as (v & j & Ev & Hv).
  exists 13, l01, z, z, zz, zz, (mk_arr2 14 12 zz), 0%R, 11, s, v, j, 0, 11, (kth t01 13 13 0 11).
  split; [lia|]. split; [exact l01_strict|]. split; [exact Hx|]. split; [lia|]. split; [reflexivity|]. split; [reflexivity|]. split; [exact E|].
  split; [exact Ev|]. split; [lia|]. split; [lia|]. split.
  - pose proof (kth_nth t01 13 13 ltac:(intros; apply t01_mono; lia) t01_cell 13 0 11 ltac:(lia) ltac:(lia) ltac:(lia)) as H. exact H.
  - rewrite Hv by lia. fold t01. change (Z.to_nat 11) with 11%nat. unfold kth. fold (D 13 (Gi t01 13) (fun q i => V t01 13 q i 0%R) 0 11).
    pose proof D01 as HD. set (Dv := D 13 (Gi t01 13) (fun q i => V t01 13 q i 0%R) 0 11) in *. clearbody Dv.
    replace (wrapped 13 (Z.to_nat (11 - 1))) with (-1181456896) by (vm_compute; reflexivity).
    rewrite fall_R. replace (falling_z 13 11) with 3113510400 by (vm_compute; reflexivity). intros H. apply HD. nra.
Qed.
(** No degree below 13 is concerned. *)
Lemma fall_small d n : 0 <= n <= d -> d <= 12 -> falling_z d (Z.to_nat n) < 2 ^ 31.
Proof.
  intros Hn Hd. assert (B : forallb (fun m => forallb (fun k => falling_z (Z.of_nat m) k <? 2 ^ 31) (seq 0 13)) (seq 0 13) = true) by (vm_compute; reflexivity).
  rewrite forallb_forall in B. specialize (B (Z.to_nat d) ltac:(apply in_seq; lia)). cbn beta in B. rewrite forallb_forall in B.
  specialize (B (Z.to_nat n) ltac:(apply in_seq; lia)). rewrite Z2Nat.id in B by lia. lia.
Qed.
