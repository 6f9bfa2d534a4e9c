(** Existence without uniqueness cannot be; problems that are not well posed. *)
From Coq Require Import Bool Reals ZArith Lia Lra ZifyBool List Classical.
From Verif Require Import BSplineSpec BSplineMath BSplineDeriv EvaluatorSpec EvaluatorSpace EvaluatorProofs BuilderSpec BuilderLemmas BuilderProofs BuilderProofs4 LinearKernel LinearProofs2
  SplineZeros SplineTower SplineUnique SplineUniquePeriodic SplineUniqueUniform WellPosedSpec WellPosedProofs WellPosedPoints WellPosedBuild.
Local Open Scope bool_scope. Local Open Scope Z_scope.

Lemma finite_choice (P : Z -> (Z -> R) -> Prop) (n : nat) : (forall k, 0 <= k < Z.of_nat n -> exists y, P k y) -> exists f : Z -> Z -> R, forall k, 0 <= k < Z.of_nat n -> P k (f k).
Proof.
  induction n as [|n IH]; intros H; [exists (fun _ _ => 0%R); intros; lia|]. destruct IH as (f & Hf); [intros k Hk; apply H; lia|]. destruct (H (Z.of_nat n) ltac:(lia)) as (y & Hy).
  exists (fun k => if k =? Z.of_nat n then y else f k). intros k Hk. destruct (Z.eqb_spec k (Z.of_nat n)) as [->|]; [exact Hy | apply Hf; lia].
Qed.
Lemma zsum_delta n i (f : Z -> R) : 0 <= i < n -> zsum n (fun k => (if i =? k then 1 else 0) * f k)%R = f i.
Proof.
  intros Hi. rewrite (zsum_pivot _ _ i Hi), Z.eqb_refl, zsum_zero; [ring|]. intros m Hm. replace (i =? skip i m) with false; [ring|]. unfold skip. destruct (m <? i) eqn:?; lia.
Qed.
(** A square matrix that reaches all the right-hand sides has no kernel. *)
Lemma onto_injective n (M : Z -> Z -> R) : 0 <= n -> (forall b, exists y, forall i, 0 <= i < n -> zsum n (fun j => M i j * y j)%R = b i) ->
  forall y, (forall i, 0 <= i < n -> zsum n (fun j => M i j * y j)%R = 0%R) -> forall j, 0 <= j < n -> y j = 0%R.
Proof.
  intros Hn Hon. destruct (finite_choice (fun k y => forall i, 0 <= i < n -> zsum n (fun j => M i j * y j)%R = if i =? k then 1%R else 0%R) (Z.to_nat n)) as (f & Hf).
  { intros k Hk. apply Hon. }
  assert (RI : forall z i, 0 <= i < n -> zsum n (fun j => M i j * zsum n (fun k => f k j * z k))%R = z i).
  { intros z i Hi. rewrite <- (zsum_delta n i z Hi). transitivity (zsum n (fun j => zsum n (fun k => M i j * f k j * z k)))%R.
    - apply zsum_ext. intros j Hj. rewrite <- zsum_scal. apply zsum_ext. intros. ring.
    - rewrite zsum_swap. apply zsum_ext. intros k Hk. rewrite <- (Hf k ltac:(lia) i Hi). rewrite Rmult_comm, <- zsum_scal. apply zsum_ext. intros. ring. }
  intros y Hy. destruct (onto n (fun j k => f k j) y Hn) as (z & Hz).
  { intros z Hz k Hk. rewrite <- (RI z k Hk). apply zsum_zero. intros j Hj. rewrite (Hz j Hj). ring. }
  assert (Z0 : forall k, 0 <= k < n -> z k = 0%R). { intros k Hk. rewrite <- (RI z k Hk). rewrite <- (Hy k Hk). apply zsum_ext. intros j Hj. rewrite (Hz j Hj). reflexivity. }
  intros j Hj. rewrite <- (Hz j Hj). apply zsum_zero. intros k Hk. rewrite (Z0 k Hk). ring.
Qed.

Section Alternative.
Context (s : bspline_space RA) (d : Z) (periodic : bool) (ncells : Z) (t : Z -> R) (a b : R).
Hypothesis F : facts s d periodic ncells t a b.
Context (lower upper : closure) (n : Z) (x : Z -> R).
Hypothesis Hclos : closures_for periodic lower upper.
Hypothesis Hn : n = points_expected periodic d ncells lower upper.
Let N := unknowns periodic d ncells.
Let first := equations lower d.
Let last := N - equations upper d.
Let h := ((b - a) / IZR ncells)%R.
Let Hcompat : compatible_closures RA s lower upper = true := proj1 (closures_compat s periodic lower upper (f_per _ _ _ _ _ _ _ F)) Hclos.
(** The equations of a solution, as rows. *)
Lemma solution_rows v wl wu c : solution periodic t a b d ncells lower upper n x v wl wu c ->
  forall i, 0 <= i < N -> zsum N (fun j => collocation periodic t a b d ncells lower upper x 0 i j * c j)%R =
    (if i <? first then h ^ BuilderSpec.order d i * wl i else if i <? last then v (i - first)%Z else h ^ BuilderSpec.order d (i - last) * wu (i - last)%Z)%R.
Proof.
  intros (S1 & S2 & S3 & S4) i Hi. destruct (count s d periodic ncells t a b F lower upper n x Hclos Hn) as (Cn & C1 & C2 & C3 & C4 & C5). fold N first last in Cn, C1, C3, C4, C5.
  destruct (row_meaning s d periodic ncells t a b F lower upper Hcompat x c c 0) as (R1 & R2 & R3 & _).
  { intros k Hk. destruct (bool_dec periodic true) as [Ep | Ep%not_true_is_false]; rewrite Ep; [|reflexivity]. rewrite Z.sub_0_r. symmetry.
    pose proof F as F'. rewrite Ep in F'. exact (coefficient_mod s d ncells t a b F' c (S4 Ep) k Hk). }
  fold N first last h in R1, R2, R3. rewrite <- rsum_zsum. destruct (i <? first) eqn:E1; [|destruct (i <? last) eqn:E2].
  - destruct (R2 i ltac:(lia)) as (g & G1 & G2). rewrite G2. destruct (S2 i ltac:(fold first; lia)) as (g' & G1' & G2'). rewrite <- G2'. f_equal. exact (nd_unique _ _ _ _ _ (fun _ => eq_refl) G1 G1' a).
  - pose proof (R1 (i - first) ltac:(lia)) as E. replace (first + (i - first)) with i in E by lia. rewrite E. apply S1. lia.
  - destruct (R3 (i - last) ltac:(lia)) as (g & G1 & G2). replace (last + (i - last)) with i in G2 by lia. rewrite G2. destruct (S3 (i - last) ltac:(unfold last in *; lia)) as (g' & G1' & G2'). rewrite <- G2'. f_equal.
    exact (nd_unique _ _ _ _ _ (fun _ => eq_refl) G1 G1' b).
Qed.
Theorem exists_unique : (forall v wl wu, exists c, solution periodic t a b d ncells lower upper n x v wl wu c) -> at_most_one periodic t a b d ncells lower upper n x.
Proof.
  intros Hex v wl wu c c' S S'. destruct (count s d periodic ncells t a b F lower upper n x Hclos Hn) as (Cn & C1 & C2 & C3 & C4 & C5). fold N first last in Cn, C1, C3, C4, C5.
  pose proof (h_pos s d periodic ncells t a b F lower upper x Hclos) as Hh. fold h in Hh.
  assert (K : forall j, 0 <= j < N -> (c j - c' j)%R = 0%R).
  { apply (onto_injective N (collocation periodic t a b d ncells lower upper x 0) ltac:(lia)).
    - intros rhs. destruct (Hex (fun i => rhs (first + i)) (fun i => rhs i / h ^ BuilderSpec.order d i)%R (fun i => rhs (last + i)%Z / h ^ BuilderSpec.order d i)%R) as (y & Hy). exists y. intros i Hi.
      rewrite (solution_rows _ _ _ _ Hy i Hi). destruct (i <? first) eqn:E1; [|destruct (i <? last) eqn:E2].
      + field. apply pow_nonzero. lra.
      + f_equal. lia.
      + replace (last + (i - last)) with i by lia. field. apply pow_nonzero. lra.
    - intros i Hi. transitivity (zsum N (fun j => collocation periodic t a b d ncells lower upper x 0 i j * c j + -1 * (collocation periodic t a b d ncells lower upper x 0 i j * c' j)))%R; [apply zsum_ext; intros; ring|].
      rewrite zsum_plus, zsum_scal, (solution_rows _ _ _ _ S i Hi), (solution_rows _ _ _ _ S' i Hi). ring. }
  intros i Hi. destruct (bool_dec periodic true) as [Ep | Ep%not_true_is_false].
  - pose proof F as F'. rewrite Ep in F'. pose proof (f_n _ _ _ _ _ _ _ F) as Hn1. destruct S as (_ & _ & _ & P). destruct S' as (_ & _ & _ & P').
    rewrite <- (coefficient_mod s d ncells t a b F' c (P Ep) i Hi), <- (coefficient_mod s d ncells t a b F' c' (P' Ep) i Hi).
    pose proof (K (i mod ncells) ltac:(pose proof (Z.mod_pos_bound i ncells ltac:(lia)); lia)). lra.
  - specialize (K i ltac:(unfold N, unknowns; rewrite Ep; lia)). lra.
Qed.
Theorem alternative : at_most_one periodic t a b d ncells lower upper n x <-> forall v wl wu, exists c, solution periodic t a b d ncells lower upper n x v wl wu c.
Proof. split; [exact (solution_exists s d periodic ncells t a b F lower upper n x Hclos Hn) | exact exists_unique]. Qed.
Theorem unreachable : ~ at_most_one periodic t a b d ncells lower upper n x -> exists v wl wu, forall c, ~ solution periodic t a b d ncells lower upper n x v wl wu c.
Proof.
  intros H. apply NNPP. intros K. apply H, exists_unique. intros v wl wu. apply NNPP. intros K'. apply K. exists v, wl, wu. intros c Hc. apply K'. exists c. exact Hc.
Qed.
End Alternative.

(** Uniform periodic spaces with an even number of cells: points half a cell away from the centres of the B-splines. *)
Theorem alternating_not_unique s d ncells a b m x : let t := uniform_knots d a b ncells in facts s d true ncells t a b -> Z.even ncells = true ->
  (forall i, 0 <= i < ncells -> (a <= x i <= b)%R /\ x i = (t (i + m)%Z + (IZR d + 2) / 2 * ((b - a) / IZR ncells))%R) ->
  ~ at_most_one true t a b d ncells PERIODIC PERIODIC ncells x.
Proof.
  intros t F He Hx U. pose proof (f_d _ _ _ _ _ _ _ F) as Hd. pose proof (f_n _ _ _ _ _ _ _ F) as Hn. set (h := ((b - a) / IZR ncells)%R) in *.
  assert (Hh : (0 < h)%R) by (apply Rdiv_lt_0_compat; [pose proof (f_ab _ _ _ _ _ _ _ F); lra | apply IZR_lt; lia]).
  assert (step : forall k, t (k + 1) = (t k + h)%R). { intros k. unfold t, uniform_knots. fold h. replace (k + 1 - d) with (k - d + 1) by lia. rewrite plus_IZR. ring. }
  set (c := fun i : Z => if Z.even i then 1%R else (-1)%R).
  assert (Halt : forall i, c (i + 1) = (- c i)%R). { intros i. unfold c. rewrite Z.add_1_r, Z.even_succ, <- Z.negb_even. destruct (Z.even i); cbn [negb]; lra. }
  assert (S : solution true t a b d ncells PERIODIC PERIODIC ncells x (fun _ => 0%R) (fun _ => 0%R) (fun _ => 0%R) c).
  { split; [|split; [intros i Hi; cbn [equations] in Hi; lia | split; [intros i Hi; cbn [equations] in Hi; lia|]]].
    - intros i Hi. destruct (Hx i Hi) as [Hin E].
      destruct (exists_cell _ _ _ _ _ _ _ F (x i) Hin) as (k & Hk). pose proof (cell_closed _ _ _ _ _ _ _ F (x i) k Hk) as Hc. destruct Hk as [Hk _].
      rewrite (piece_closed _ _ _ _ _ _ _ F k c (x i) Hk Hc), <- (pieces_0 _ _ _ _ _ _ _ F c k (x i) Hk).
      pose proof (alternating_zero t d m h Hd Hh step c Halt i) as Z0. pose proof (u_cell_middle t d m h Hh step i) as Bd. change (u_middle t d m h i) with (t (i + m)%Z + (IZR d + 2) / 2 * h)%R in *. rewrite <- E in Z0, Bd. rewrite <- Z0.
      set (k' := u_cell d m i) in *. set (lo := Z.min k k'). set (hi := Z.max k k' + 1).
      assert (T : tower (Z.to_nat d) t (pieces t d c) lo hi). { apply spline_tower; [exact Hd | exact (f_mono _ _ _ _ _ _ _ F) | intros; rewrite step; lra]. }
      apply (at_same _ _ _ _ _ T 0 k _ k'); [lia | |]; (split; [unfold lo, hi; lia|]); assumption.
    - intros _ i Hi. unfold c. rewrite Z.even_add, He. destruct (Z.even i); reflexivity. }
  pose proof (U _ _ _ _ _ S (zero_solution s d true ncells t a b F PERIODIC PERIODIC ncells x (conj eq_refl eq_refl) ltac:(unfold points_expected, unknowns; cbn [equations]; lia)) 0 ltac:(lia)) as E. unfold c in E. cbn in E. lra.
Qed.
