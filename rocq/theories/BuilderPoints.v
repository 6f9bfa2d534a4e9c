(** The interpolation points of the library suit the storage of the matrix. *)
From Coq Require Import Bool Reals Lia Lra ZifyBool List.
From Coquelicot Require Import Coquelicot.
From Verif Require Import BuilderSpec BuilderMath BuilderProofs BuilderProofs2 BuilderProofs3 BuilderProofs4 BuilderBand BuilderGrid BuilderLemmas.
From Verif Require Import LoopModel LoopProofs SamplingProofs BSplineMath IntegralMath EvaluatorSpace EvaluatorProofs EvaluatorLemmas PointsModel PointsSpec PointsProofs BSplineDeriv.
Import ListNotations.
Local Open Scope Z_scope.
Local Arguments Z.pow : simpl never.

(** ** Values of uniform B-splines at knots *)
Section Knots.
Context (t : Z -> R) (h : R) (Hh : (0 < h)%R) (Ht : forall k m, t (k + m) = (t k + IZR m * h)%R) (c : Z).
Definition at_knot (p : nat) (k : Z) : R := bspline_piece t c p (c - k) (t c).
Lemma at_knot_0 k : at_knot 0 k = if Z.eq_dec k 0 then 1%R else 0%R.
Proof. unfold at_knot, bspline_piece. cbn [cox_de_boor]. destruct (Z.eq_dec (c - k) c), (Z.eq_dec k 0); lra || lia. Qed.
Lemma at_knot_S p k : (INR (S p) * at_knot (S p) k = IZR k * at_knot p k + (INR (S p) + 1 - IZR k) * at_knot p (k - 1))%R.
Proof.
  unfold at_knot, bspline_piece. cbn [cox_de_boor]. replace (c - k + 1) with (c - (k - 1)) by ring.
  set (A1 := cox_de_boor _ t p (c - k) (t c)). set (A2 := cox_de_boor _ t p (c - (k - 1)) (t c)).
  assert (E1 : (t c - t (c - k)%Z = IZR k * h)%R). { replace (t c) with (t (c - k + k)) by (f_equal; ring). rewrite Ht. ring. }
  assert (E0 : (t (c - (k - 1))%Z = t (c - k)%Z + h)%R). { replace (c - (k - 1)) with (c - k + 1) by ring. rewrite Ht. ring. }
  pose proof (lt_0_INR (S p) ltac:(lia)) as Hp. assert (E2 : t (c - k + Z.of_nat (S p)) = (t (c - k)%Z + INR (S p) * h)%R) by (rewrite Ht, <- INR_IZR_INZ; ring).
  assert (E3 : t (c - k + Z.of_nat (S p) + 1) = (t (c - k)%Z + (INR (S p) + 1) * h)%R) by (rewrite Ht, E2; ring).
  rewrite E3, E2, E0. replace (t c) with (t (c - k)%Z + IZR k * h)%R by lra. unfold ratio.
  assert (0 < INR (S p) * h)%R by (apply Rmult_lt_0_compat; lra).
  
  replace (t (c - k)%Z + INR (S p) * h - t (c - k)%Z)%R with (INR (S p) * h)%R by ring. replace (t (c - k)%Z + (INR (S p) + 1) * h - (t (c - k)%Z + h))%R with (INR (S p) * h)%R by ring.
  destruct (Req_EM_T _ _); [lra|]. field. lra.
Qed.
Lemma at_knot_out p k : (1 <= p)%nat -> k <= 0 \/ Z.of_nat p < k -> at_knot p k = 0%R.
Proof.
  intros Hp. revert k. induction p as [|p IH]; intros k Hk; [lia|]. apply (Rmult_eq_reg_l (INR (S p))); [|apply not_0_INR; lia]. rewrite at_knot_S.
  destruct p as [|p]; [|clear Hp].
  - rewrite !at_knot_0. destruct (Z.eq_dec (k - 1) 0); [lia|]. destruct (Z.eq_dec k 0) as [->|]; lra.
  - destruct (Z.eq_dec k (Z.of_nat (S (S p)) + 1)) as [E|]; [|]. 
    + rewrite (IH ltac:(lia) k) by lia. rewrite (IH ltac:(lia) (k - 1)) by lia. ring.
    + destruct (Z.eq_dec k 0) as [->|]; [rewrite (IH ltac:(lia) (0 - 1)) by lia; ring|].
      rewrite (IH ltac:(lia) k), (IH ltac:(lia) (k - 1)) by lia. ring.
Qed.
Lemma at_knot_symmetric p k : (1 <= p)%nat -> at_knot p (Z.of_nat p + 1 - k) = at_knot p k.
Proof.
  intros Hp. revert k. induction p as [|p IH]; intros k; [lia|]. apply (Rmult_eq_reg_l (INR (S p))); [|apply not_0_INR; lia]. rewrite !at_knot_S.
  destruct p as [|p].
  - rewrite !at_knot_0. change (Z.of_nat 1 + 1) with 2. rewrite minus_IZR. destruct (Z.eq_dec k 0) as [E0|]; [rewrite E0; cbn; lra|]. destruct (Z.eq_dec k 1) as [E0|]; [rewrite E0; cbn; lra|]. destruct (Z.eq_dec k 2) as [E0|]; [rewrite E0; cbn; lra|].
    destruct (Z.eq_dec (2 - k) 0); [lia|]. destruct (Z.eq_dec (2 - k - 1) 0); [lia|]. destruct (Z.eq_dec (k - 1) 0); [lia|]. lra.
  - replace (Z.of_nat (S (S p)) + 1 - k - 1) with (Z.of_nat (S p) + 1 - k) by lia. rewrite (IH ltac:(lia)).
    replace (Z.of_nat (S (S p)) + 1 - k) with (Z.of_nat (S p) + 1 - (k - 1)) at 2 by lia. rewrite (IH ltac:(lia)).
    rewrite minus_IZR, plus_IZR, <- INR_IZR_INZ. ring.
Qed.
Lemma at_knot_decreasing p k : (1 <= p)%nat -> Z.of_nat p + 1 <= 2 * k -> (at_knot p (k + 1) <= at_knot p k)%R /\ (k <= Z.of_nat p -> (at_knot p (k + 1) < at_knot p k)%R).
Proof.
  intros Hp. revert k. induction p as [|p IH]; intros k Hk; [lia|]. pose proof (lt_0_INR (S p) ltac:(lia)) as HS.
  assert (G : (0 <= INR (S p) * (at_knot (S p) k - at_knot (S p) (k + 1)%Z))%R /\ (k <= Z.of_nat (S p) -> (0 < INR (S p) * (at_knot (S p) k - at_knot (S p) (k + 1)%Z))%R)).
  2: { destruct G as [G1 G2]. split; [|intros Hk2; specialize (G2 Hk2)].
       - destruct (Rle_dec (at_knot (S p) (k + 1)) (at_knot (S p) k)); [assumption|]. exfalso. assert (0 < INR (S p) * (at_knot (S p) (k + 1)%Z - at_knot (S p) k))%R by (apply Rmult_lt_0_compat; lra). lra.
       - destruct (Rlt_dec (at_knot (S p) (k + 1)) (at_knot (S p) k)); [assumption|]. exfalso. assert (0 <= INR (S p) * (at_knot (S p) (k + 1)%Z - at_knot (S p) k))%R by (apply Rmult_le_pos; lra). lra. }
  rewrite Rmult_minus_distr_l, !at_knot_S. replace (k + 1 - 1) with k by ring.
  destruct p as [|p].
  - rewrite !at_knot_0. destruct (Z.eq_dec k 0), (Z.eq_dec (k - 1) 0), (Z.eq_dec (k + 1) 0); try lia.
    + assert (k = 1) as -> by lia. cbn. split; [lra|]. intros; lra.
    + split; [lra|]. intros; lia.
  - set (a := at_knot (S p)) in *. set (q := S p) in *.
    replace (IZR k * a k + (INR (S q) + 1 - IZR k) * a (k - 1)%Z - (IZR (k + 1) * a (k + 1)%Z + (INR (S q) + 1 - IZR (k + 1)) * a k))%R
      with (IZR (k + 1) * (a k - a (k + 1)%Z) + (INR (S q) + 1 - IZR k) * (a (k - 1)%Z - a k))%R by (rewrite plus_IZR; ring).
    destruct (IH ltac:(lia) k ltac:(lia)) as [H1 H2]. pose proof (IZR_lt 0 (k + 1) ltac:(lia)) as Hk1.
    assert (Hin : (INR (S q) + 1 - IZR k = IZR (Z.of_nat (S q) + 1 - k))%R) by (rewrite minus_IZR, plus_IZR, <- INR_IZR_INZ; ring). rewrite Hin.
    assert (P1 : (0 <= IZR (k + 1) * (a k - a (k + 1)%Z))%R) by (apply Rmult_le_pos; lra).
    assert (Hsec : (0 <= a (k - 1)%Z - a k)%R).
    { destruct (Z_le_dec (Z.of_nat q + 1) (2 * (k - 1))) as [L|L].
      - destruct (IH ltac:(lia) (k - 1) L) as [H3 _]. replace (k - 1 + 1) with k in H3 by ring. lra.
      - unfold a. rewrite <- (at_knot_symmetric q (k - 1)) by lia. replace (Z.of_nat q + 1 - (k - 1)) with k by lia. lra. }
    assert (P2 : (0 <= IZR (Z.of_nat (S q) + 1 - k) * (a (k - 1)%Z - a k))%R).
    { destruct (Z_le_dec k (Z.of_nat (S q) + 1)) as [L|L].
      - apply Rmult_le_pos; [apply IZR_le; lia | exact Hsec].
      - unfold a. rewrite !at_knot_out by lia. lra. }
    split; [lra|]. intros Hle. destruct (Z_le_dec k (Z.of_nat q)) as [L|L].
    + specialize (H2 L). assert (0 < IZR (k + 1) * (a k - a (k + 1)%Z))%R by (apply Rmult_lt_0_compat; lra). lra.
    + assert (k = Z.of_nat q + 1) as Ek by lia. destruct (IH ltac:(lia) (k - 1) ltac:(lia)) as [_ H3]. replace (k - 1 + 1) with k in H3 by ring. specialize (H3 ltac:(lia)).
      replace (Z.of_nat (S q) + 1 - k) with 1 by lia. lra.
Qed.
End Knots.

Lemma greville_uniform d a b ncells i : 1 <= d -> greville (uniform_knots d a b ncells) d i = (uniform_knots d a b ncells i + (IZR d + 1) / 2 * ((b - a) / IZR ncells))%R.
Proof.
  intros Hd. rewrite greville_zsum by lia. set (h := ((b - a) / IZR ncells)%R).
  assert (E : forall n, nsum n (fun k => uniform_knots d a b ncells (i + 1 + k)) = (INR n * uniform_knots d a b ncells i + INR n * (INR n + 1) / 2 * h)%R).
  { induction n as [|n IH]; cbn [nsum]; [change (INR 0) with 0%R; lra|]. rewrite IH, S_INR. unfold uniform_knots. fold h. replace (i + 1 + Z.of_nat n - d) with (i - d + 1 + Z.of_nat n) by ring.
    rewrite !plus_IZR, <- INR_IZR_INZ. field. }
  unfold zsum. rewrite E, INR_IZR_INZ, Z2Nat.id by lia. clear E. field. apply not_0_IZR. lia.
Qed.

Lemma greville_in (t : Z -> R) d i : 1 <= d -> (forall i j, i <= j -> (t i <= t j)%R) -> (t (i + 1)%Z <= greville t d i <= t (i + d)%Z)%R.
Proof. intros Hd Hm. apply greville_bounds; [exact Hd|]. intros k Hk. split; apply Hm; lia. Qed.
Lemma greville_placed s d periodic ncells t a b i : spline_space s d periodic ncells t a b -> placed (bs_uniform RA s) t a b d ncells i (greville t d i).
Proof.
  intros HS. pose proof (space_facts _ _ _ _ _ _ _ HS) as F. unfold placed. destruct (bs_uniform RA s) eqn:Eu.
  - rewrite (space_uniform _ _ _ _ _ _ _ HS Eu). apply greville_uniform. exact (f_d _ _ _ _ _ _ _ F).
  - apply greville_in; [exact (f_d _ _ _ _ _ _ _ F) | exact (f_mono _ _ _ _ _ _ _ F)].
Qed.
(** Greville abscissae, all but those of the closures. *)
Theorem greville_suited : forall solver s d ncells t a b lower upper x, spline_space s d false ncells t a b ->
  (forall i, 0 <= i < points_expected false d ncells lower upper -> x i = greville t d (i + equations lower d)) ->
  suited solver (bs_uniform RA s) false t a b d ncells lower upper x 0.
Proof.
  intros solver s d ncells t a b lower upper x HS Hx. destruct solver; [exact I|]. pose proof (space_facts _ _ _ _ _ _ _ HS) as F. pose proof (f_d _ _ _ _ _ _ _ F) as Hd.
  assert (Hb : forall u c, equations c d <= border u c d). { intros u [ | | | ]; cbn [equations border]; try lia; destruct u; lia. }
  intros i Hi. pose proof (Hb (bs_uniform RA s) lower). pose proof (Hb (bs_uniform RA s) upper). unfold points_expected, unknowns in Hx.
  rewrite Hx by lia. replace (i - equations lower d + equations lower d) with i by ring. exact (greville_placed _ _ _ _ _ _ _ i HS).
Qed.
(** The points for uniform splines with a closure GREVILLE. *)
Theorem uniform_points_suited : forall solver s d ncells a b lower upper x, spline_space s d false ncells (uniform_knots d a b ncells) a b -> bs_uniform RA s = true ->
  lower <> PERIODIC -> upper <> PERIODIC ->
  let n := points_expected false d ncells lower upper in
  (forall i, 0 <= i < n -> x i = uniform_point (is_greville lower) (is_greville upper) d a b ((b - a) / IZR ncells) n i) ->
  suited solver true false (uniform_knots d a b ncells) a b d ncells lower upper x 0.
Proof.
  intros solver s d ncells a b lower upper x HS Hu Hl Hup n Hx. destruct solver; [exact I|]. pose proof (space_facts _ _ _ _ _ _ _ HS) as F. pose proof (f_d _ _ _ _ _ _ _ F) as Hd. pose proof (f_n _ _ _ _ _ _ _ F) as Hn.
  pose proof (half_d s d false ncells _ a b F) as (Hh & Hr & E).
  intros i Hi. unfold placed. unfold n, points_expected, unknowns in Hx.
  set (h := ((b - a) / IZR ncells)%R) in *. unfold uniform_knots. fold h.
  assert (Hmid : (a + IZR (i - d) * h + (IZR d + 1) / 2 * h = a + (IZR (i - d / 2) + half_if_even d) * h)%R).
  { unfold half_if_even. destruct (Z.even d) eqn:Ee.
    - apply Z.even_spec in Ee. destruct Ee as [q Eq]. assert (d / 2 = q) as -> by lia. subst d. rewrite !minus_IZR, mult_IZR. field.
    - assert (Z.odd d = true) as Eo by (rewrite <- Z.negb_even, Ee; reflexivity). apply Z.odd_spec in Eo. destruct Eo as [q Eq]. assert (d / 2 = q) as -> by lia. subst d. rewrite !minus_IZR, plus_IZR, mult_IZR. field. }
  rewrite Hmid. clear Hmid.
  assert (Hlast : (b = a + IZR ncells * h)%R). { unfold h. field. apply not_0_IZR. lia. }
  assert (Hq : 0 <= i - equations lower d < ncells + d - equations lower d - equations upper d /\ i - equations lower d - (if is_greville lower then d / 2 else 0) = i - d / 2 /\
    (is_greville lower = true -> equations lower d = 0 /\ d - 1 <= i) /\ (is_greville upper = true -> equations upper d = 0 /\ d - 1 <= ncells + d - 1 - i)).
  { destruct lower, upper; cbn [equations border is_greville] in *; try contradiction; repeat split; intros; try discriminate; try lia. }
  destruct Hq as (Q1 & Q2 & Q3 & Q4). rewrite Hx by exact Q1. unfold uniform_point. rewrite Q2.
  assert (Hedge : forall k, d - 1 <= k -> k <= d / 2 -> (edge_point d h k = (IZR (k - d / 2) + half_if_even d) * h)%R).
  { intros k K1 K2. assert (d = 1 \/ d = 2) as [-> | ->] by lia; [assert (k = 0) as -> by (change (1 / 2) with 0 in K2; lia) | assert (k = 1) as -> by (change (2 / 2) with 1 in K2; lia)];
      unfold edge_point, half_if_even; cbn; lra. }
  destruct (is_greville lower && (i - equations lower d <=? d / 2)) eqn:T1.
  { apply andb_true_iff in T1. destruct T1 as [T1 T2]. destruct (Q3 T1) as [Q5 Q6]. rewrite Q5 in *. replace (i - 0) with i in * by ring. rewrite Hedge by lia. reflexivity. }
  clear T1. destruct (is_greville upper && _) eqn:T1; [|reflexivity].
  apply andb_true_iff in T1. destruct T1 as [T1 T2]. destruct (Q4 T1) as [Q5 Q6].
  set (k := ncells + d - equations lower d - equations upper d - 1 - (i - equations lower d)) in *. assert (Ek : k = ncells + d - 1 - i) by (unfold k; lia).
  rewrite Hedge by lia. rewrite Hlast, Ek. assert (Hi2 : i - d / 2 = ncells - (ncells + d - 1 - i - d / 2) + (d - 1) - 2 * (d / 2)) by lia. rewrite Hi2.
  unfold half_if_even. rewrite !minus_IZR, !plus_IZR, !minus_IZR, !plus_IZR. destruct (Z.even d) eqn:Ee.
  - apply Z.even_spec in Ee. destruct Ee as [q Eq]. assert (d / 2 = q) as -> by lia. subst d. rewrite !mult_IZR. field.
  - assert (Z.odd d = true) as Eo by (rewrite <- Z.negb_even, Ee; reflexivity). apply Z.odd_spec in Eo. destruct Eo as [q Eq]. assert (d / 2 = q) as -> by lia. subst d. rewrite !plus_IZR, !mult_IZR. field.
Qed.
(** Periodic uniform splines: the offset. *)
Section Periodic.
Context (solver : spline_solver) (s : bspline_space RA) (d ncells : Z) (a b : R) (start n : Z) (coord : Z -> res R) (x : Z -> R).
Let t := uniform_knots d a b ncells.
Context (IP : interpolation solver s d true ncells t a b PERIODIC PERIODIC start n coord x) (Hn : n = ncells) (Hu : bs_uniform RA s = true).
Context (Hx : forall i, 0 <= i < ncells -> x i = greville t d (i + d / 2)).
Let F : facts s d true ncells t a b := space_facts _ _ _ _ _ _ _ (i_space _ _ _ _ _ _ _ _ _ _ _ _ _ _ IP).
Let h := ((b - a) / IZR ncells)%R.
Let Hcompat : compatible_closures RA s PERIODIC PERIODIC = true := proj1 (closures_compat s true PERIODIC PERIODIC (f_per _ _ _ _ _ _ _ F)) (conj eq_refl eq_refl).
Lemma centre_case i : centre d ncells a b i = t (d - d / 2 + i) \/ (centre d ncells a b i = (t (d - d / 2 + i) + h / 2)%R /\ d = 2 * (d / 2)).
Proof. exact (centre_cell s d true ncells a b F PERIODIC PERIODIC Hcompat i). Qed.
Lemma neighbour_knot k : d mod 2 = 1 -> neighbour d ncells a b k = at_knot t (d - d / 2) (Z.to_nat d) (d - d / 2 - k).
Proof.
  intros Ho. unfold neighbour, at_knot. fold t. replace (d - d / 2 - (d - d / 2 - k)) with k by ring. f_equal.
  destruct (centre_case 0) as [E | [_ E]]; [rewrite E; f_equal; ring | lia].
Qed.
Lemma step k m : t (k + m) = (t k + IZR m * h)%R. Proof. unfold t, h. apply t_step. Qed.
Lemma hpos : (0 < h)%R. Proof. exact (h_positive s d true ncells a b F PERIODIC PERIODIC Hcompat). Qed.
Lemma neighbour_below : d mod 2 = 1 -> (neighbour d ncells a b 1 < neighbour d ncells a b 0)%R.
Proof.
  intros Ho. pose proof (f_d _ _ _ _ _ _ _ F) as Hd. pose proof (half_d s d true ncells t a b F) as (Hh & Hr & E).
  rewrite <- (neighbour_symmetric s d true ncells a b F PERIODIC PERIODIC Hcompat 1). rewrite !neighbour_knot by exact Ho.
  replace (d - d / 2 - - (1)) with (d - d / 2 + 1) by ring. replace (d - d / 2 - 0) with (d - d / 2) by ring.
  apply (at_knot_decreasing t h hpos step); lia.
Qed.
Theorem uniform_offset m : compute_offset RA s m start coord = Ok (d / 2 - start).
Proof.
  pose proof IP as IP'. destruct IP' as [_ _ Hpts Hcells Hst Hsm _ _]. specialize (Hcells eq_refl). pose proof (f_d _ _ _ _ _ _ _ F) as Hd.
  pose proof (half_d s d true ncells t a b F) as (Hh & Hr & Ed).
  unfold compute_offset. rewrite (f_per _ _ _ _ _ _ _ F), (f_deg _ _ _ _ _ _ _ F). unfold u64_add at 1. rewrite u64_small by lia.
  destruct (Hpts d ltac:(lia)) as [-> Hxd]. cbn [rbind]. destruct (f_eval _ _ _ _ _ _ _ F m (x d) Hxd) as (v & c & E & Hcell & Hv & Hvr).
  change (num RA) with R in *. rewrite E. cbn [rbind].
  assert (G : forall k, 0 <= k <= d -> i32 (u64_sub (u64_add (u64_sub (c - d) start) k) d) = c - d - start + k - d).
  { intros k Hk. unfold u64_sub at 1, u64_add, u64_sub, u64. rewrite Zplus_mod_idemp_l, Zminus_mod_idemp_l. fold (u64 (c - d - start + k - d)). rewrite i32_u64. apply i32_small. destruct Hcell. lia. }
  assert (Ex : x d = centre d ncells a b (d + d / 2)) by (rewrite Hx by lia; apply greville_uniform; exact Hd).
  assert (Hval : forall r, 0 <= r <= d -> a_at v r = neighbour d ncells a b (c - d + r - (d + d / 2))).
  { intros r Hr'. rewrite Hvr by exact Hr'. rewrite <- (cell_bspline s d true ncells t a b F _ _ _ _ Hcell). rewrite Ex. apply (neighbour_value s d true ncells a b F PERIODIC PERIODIC Hcompat). rewrite <- Ex. exact Hxd. }
  assert (Hlow : (t (2 * d) <= x d < t (2 * d + 1))%R).
  { pose proof hpos. rewrite (step (2 * d) 1). destruct (centre_case (d + d / 2)) as [K | [K _]]; rewrite <- Ex in K; replace (d - d / 2 + (d + d / 2)) with (2 * d) in K by ring; rewrite K; lra. }
  assert (Hc : c = 2 * d).
  { destruct Hcell as [Hc0 [Hc1 | [Hc1 _]]].
    - destruct (Z_lt_dec c (2 * d)) as [L|L]; [pose proof (f_mono _ _ _ _ _ _ _ F (c + 1) (2 * d) ltac:(lia)); lra|].
      destruct (Z_lt_dec (2 * d) c) as [L'|L']; [|lia]. pose proof (f_mono _ _ _ _ _ _ _ F (2 * d + 1) c ltac:(lia)). lra.
    - exfalso. pose proof (f_mono _ _ _ _ _ _ _ F (2 * d + 1) (d + ncells) ltac:(lia)). rewrite (f_last _ _ _ _ _ _ _ F) in *. lra. }
  subst c. destruct (d mod 2 =? 0) eqn:Em; [rewrite G by lia; f_equal; lia|].
  rewrite !aget_ok by lia. cbn [rbind]. rewrite !Hval by lia. replace (2 * d - d + (d / 2 + 1) - (d + d / 2)) with 1 by ring. replace (2 * d - d + d / 2 - (d + d / 2)) with 0 by ring.
  cbn [nltb RA]. rewrite R_ltb_true by (apply neighbour_below; lia). rewrite G by lia. f_equal. lia.
Qed.
Theorem uniform_suited : suited solver (bs_uniform RA s) true t a b d ncells PERIODIC PERIODIC x (d / 2).
Proof.
  pose proof (f_d _ _ _ _ _ _ _ F) as Hd. pose proof (half_d s d true ncells t a b F) as (Hh & Hr & Ed). destruct solver; [exact I|]. cbn [suited]. split; [lia|].
  intros i Hi. rewrite Hx by (destruct (bs_uniform RA s); lia). apply (greville_placed s d true ncells t a b). exact (i_space _ _ _ _ _ _ _ _ _ _ _ _ _ _ IP).
Qed.
End Periodic.
