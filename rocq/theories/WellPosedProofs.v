(** Existence and uniqueness of interpolating splines. *)
From Coq Require Import Bool Reals ZArith Lia Lra ZifyBool.
From Verif Require Import BSplineSpec BSplineMath BSplineDeriv SplineZeros SplineTower SplineUnique SplineUniquePeriodic SplineUniqueUniform SplineUniqueKnots LinearKernel.
From Verif Require Import EvaluatorSpec EvaluatorSpace EvaluatorProofs BuilderSpec WellPosedSpec BuilderMath BuilderProofs BuilderProofs4 LinearLemmas LinearProofs2 IntegralProofs.
Local Open Scope Z_scope.

(** ** uniqueness in periodic spaces *)
Section Periodic.
Context (s : bspline_space RA) (d ncells : Z) (t : Z -> R) (a b : R).
Hypothesis F : facts s d true ncells t a b.
Let L := (b - a)%R.
Lemma per_knots (q : Z) k : t (k + q * ncells) = (t k + IZR q * L)%R.
Proof.
  assert (N : forall (q : nat) k, t (k + Z.of_nat q * ncells) = (t k + IZR (Z.of_nat q) * L)%R).
  { clear q k. intros q. induction q as [|q IH]; intros k.
    - change (Z.of_nat 0) with 0. replace (k + 0 * ncells) with k by lia. ring.
    - replace (k + Z.of_nat (S q) * ncells) with (k + Z.of_nat q * ncells + ncells) by lia. rewrite (f_period _ _ _ _ _ _ _ F eq_refl), IH. replace (Z.of_nat (S q)) with (Z.of_nat q + 1) by lia. rewrite plus_IZR. unfold L. ring. }
  destruct (Z.le_gt_cases 0 q) as [H|H].
  - replace q with (Z.of_nat (Z.to_nat q)) by lia. apply N.
  - pose proof (N (Z.to_nat (- q)) (k + q * ncells)) as K. replace (k + q * ncells + Z.of_nat (Z.to_nat (- q)) * ncells) with k in K by lia.
    replace (Z.of_nat (Z.to_nat (- q))) with (- q) in K by lia. rewrite opp_IZR in K. rewrite K. ring.
Qed.
Lemma per_cells k : (t k < t (k + 1)%Z)%R.
Proof.
  pose proof (f_n _ _ _ _ _ _ _ F) as Hn. set (q := (k - d) / ncells). pose proof (Z.div_mod (k - d) ncells ltac:(lia)). pose proof (Z.mod_pos_bound (k - d) ncells ltac:(lia)). fold q in H.
  set (k' := k - q * ncells). pose proof (f_cell _ _ _ _ _ _ _ F k' ltac:(unfold k'; lia)) as C.
  replace k with (k' + q * ncells) by (unfold k'; lia). replace (k' + q * ncells + 1) with (k' + 1 + q * ncells) by lia. rewrite !per_knots. lra.
Qed.
Lemma per_period k : t (k + ncells) = (t k + L)%R.
Proof. pose proof (per_knots 1 k) as K. replace (k + 1 * ncells) with (k + ncells) in K by lia. rewrite K. ring. Qed.
Lemma per_reduce j : exists r q, j = r + q * ncells /\ 0 <= r < ncells.
Proof.
  pose proof (f_n _ _ _ _ _ _ _ F) as Hn. exists (j mod ncells), (j / ncells). pose proof (Z.div_mod j ncells ltac:(lia)). pose proof (Z.mod_pos_bound j ncells ltac:(lia)). split; lia.
Qed.
Lemma per_mod j q : (j + q * ncells) mod ncells = j mod ncells /\ (j + q * ncells) / ncells = j / ncells + q.
Proof. pose proof (f_n _ _ _ _ _ _ _ F) as Hn. rewrite Z.mod_add, Z.div_add by lia. split; reflexivity. Qed.
Lemma coefficient_mod (g : Z -> R) : periodic_coefficients g d ncells -> forall i, 0 <= i < ncells + d -> g (i mod ncells) = g i.
Proof.
  intros Hg. pose proof (f_n _ _ _ _ _ _ _ F) as Hn.
  assert (K : forall m i, 0 <= i < ncells + d -> i < Z.of_nat m -> g (i mod ncells) = g i).
  { induction m as [|m IH]; intros i Hi Hm; [lia|]. destruct (Z.lt_ge_cases i ncells) as [H|H]; [rewrite Z.mod_small by lia; reflexivity|].
    replace i with ((i - ncells) + 1 * ncells) at 1 by lia. rewrite Z.mod_add by lia. rewrite (IH (i - ncells)) by lia. rewrite <- (Hg (i - ncells)) by lia. f_equal. lia. }
  intros i Hi. apply (K (Z.to_nat (i + 1))); lia.
Qed.
(** Coefficients and points of the other periods. *)
Definition all_points (x : Z -> R) (i : Z) : R := (x (i mod ncells) + IZR (i / ncells) * L)%R.
Lemma all_periods x j q : all_points x (j + q * ncells) = (all_points x j + IZR q * L)%R.
Proof. unfold all_points. destruct (per_mod j q) as [-> ->]. rewrite plus_IZR. ring. Qed.
Lemma all_first x j : 0 <= j < ncells -> all_points x j = x j.
Proof. intros Hj. unfold all_points. rewrite Z.mod_small, Z.div_small by lia. ring. Qed.
Definition difference (c c' : Z -> R) (i : Z) : R := (c (i mod ncells) - c' (i mod ncells))%R.
Lemma difference_period c c' i : difference c c' (i + ncells) = difference c c' i.
Proof. unfold difference. destruct (per_mod i 1) as [E _]. replace (i + 1 * ncells) with (i + ncells) in E by lia. rewrite E. reflexivity. Qed.
Section Two.
Context (x v : Z -> R) (c c' : Z -> R).
Hypothesis Hin : forall i, 0 <= i < ncells -> (a <= x i <= b)%R.
Hypothesis V1 : takes_values t b d ncells ncells c x v.
Hypothesis V2 : takes_values t b d ncells ncells c' x v.
Hypothesis P1 : periodic_coefficients c d ncells.
Hypothesis P2 : periodic_coefficients c' d ncells.
Let ce := difference c c'.
Let xe := all_points x.
Lemma difference_zeros j k : (t k <= xe j <= t (k + 1)%Z)%R -> pieces t d ce 0 k (xe j) = 0%R.
Proof.
  intros Hx. pose proof (f_n _ _ _ _ _ _ _ F) as Hn. pose proof (f_d _ _ _ _ _ _ _ F) as Hd. destruct (per_reduce j) as (r & q & -> & Hr). unfold xe in *. rewrite all_periods, (all_first x r Hr) in *.
  destruct (exists_cell _ _ _ _ _ _ _ F (x r) (Hin r Hr)) as (k' & Hk'). pose proof (cell_closed _ _ _ _ _ _ _ F (x r) k' Hk') as Hc. destruct Hk' as [Hk' _].
  assert (Z0 : pieces t d ce 0 k' (x r) = 0%R).
  { unfold ce, difference. rewrite pieces_minus, !(pieces_0 _ _ _ _ _ _ _ F) by exact Hk'.
    assert (K : forall g, periodic_coefficients g d ncells -> spline_piece t k' d ncells (fun i => g (i mod ncells)) (x r) = spline t b d ncells g (x r)).
    { intros g Hg. rewrite (piece_closed _ _ _ _ _ _ _ F k' g (x r) Hk' Hc). unfold spline_piece. rewrite !sum_first_zsum. apply zsum_ext. intros m Hm. rewrite (coefficient_mod g Hg) by lia. reflexivity. }
    rewrite !K by assumption. rewrite (V1 r Hr), (V2 r Hr). ring. }
  assert (Z1 : pieces t d ce 0 (k' + q * ncells) (x r + IZR q * L) = 0%R).
  { rewrite <- Z0. apply (p_pieces t d ce 0 (IZR q * L) (q * ncells)); [intros m; apply per_knots|]. intros m. unfold ce, difference. destruct (per_mod m q) as [-> _]. reflexivity. }
  rewrite <- Z1. set (lo := Z.min k (k' + q * ncells)). set (hi := Z.max k (k' + q * ncells) + 1).
  assert (T : tower (Z.to_nat d) t (pieces t d ce) lo hi). { apply spline_tower; [exact Hd | exact (f_mono _ _ _ _ _ _ _ F) | intros; apply per_cells]. }
  apply (at_same _ _ _ _ _ T 0 k _ (k' + q * ncells)); [lia | |]; (split; [unfold lo, hi; lia|]).
  - exact Hx.
  - replace (k' + q * ncells + 1) with (k' + 1 + q * ncells) by lia. rewrite !per_knots. lra.
Qed.
Lemma difference_zero : (forall j, ce j = 0%R) -> forall i, 0 <= i < ncells + d -> c i = c' i.
Proof.
  intros E0 i Hi. rewrite <- (coefficient_mod c P1 i Hi), <- (coefficient_mod c' P2 i Hi). specialize (E0 i). unfold ce, difference in E0. lra.
Qed.
End Two.
Let periodic_problem (x : Z -> R) := at_most_one true t a b d ncells PERIODIC PERIODIC ncells x.
(** Odd numbers of cells; *)
Lemma unique_odd x shift : (forall i, 0 <= i < ncells -> (a <= x i <= b)%R) -> increasing_points ncells x -> Z.odd ncells = true -> nested_periodic t a b d shift ncells x -> periodic_problem x.
Proof.
  intros Hin Hinc Hodd [Hwrap Hnest] v wl wu c c' (V1 & _ & _ & Q1) (V2 & _ & _ & Q2). specialize (Q1 eq_refl). specialize (Q2 eq_refl).
  pose proof (f_n _ _ _ _ _ _ _ F) as Hn. pose proof (f_d _ _ _ _ _ _ _ F) as Hd. apply difference_zero; [exact Q1 | exact Q2|].
  apply (periodic_vanishes t d ncells L (difference c c') (all_points x) shift Hd Hn per_cells); [exact per_period | apply difference_period | | | | | exact Hodd].
  - intros j. destruct (per_reduce j) as (r & q & -> & Hr). rewrite all_periods, (all_first x r Hr). destruct (Z.eq_dec r (ncells - 1)) as [->|Nr].
    + replace (ncells - 1 + q * ncells + 1) with (0 + (q + 1) * ncells) by lia. rewrite all_periods, (all_first x 0) by lia. rewrite plus_IZR. unfold L. lra.
    + replace (r + q * ncells + 1) with (r + 1 + q * ncells) by lia. rewrite all_periods, (all_first x (r + 1)) by lia. pose proof (Hinc r (r + 1) ltac:(lia) ltac:(lia) ltac:(lia)). lra.
  - intros j. pose proof (all_periods x j 1) as K. replace (j + 1 * ncells) with (j + ncells) in K by lia. rewrite K. ring.
  - intros j. destruct (per_reduce j) as (r & q & -> & Hr). rewrite all_periods, (all_first x r Hr). pose proof (Hnest r Hr) as K.
    replace (r + q * ncells + shift) with (r + shift + q * ncells) by lia. replace (r + shift + q * ncells + d + 1) with (r + shift + d + 1 + q * ncells) by lia. rewrite !per_knots. lra.
  - intros j k. exact (difference_zeros x v c c' Hin V1 V2 Q1 Q2 j k).
Qed.
(** odd degrees, at the knots; *)
Lemma unique_knots x : Z.odd d = true -> (forall i, 0 <= i < ncells -> x i = t (d + i)) -> periodic_problem x.
Proof.
  intros Hodd Hx v wl wu c c' (V1 & _ & _ & Q1) (V2 & _ & _ & Q2). specialize (Q1 eq_refl). specialize (Q2 eq_refl).
  pose proof (f_n _ _ _ _ _ _ _ F) as Hn. pose proof (f_d _ _ _ _ _ _ _ F) as Hd. apply difference_zero; [exact Q1 | exact Q2|].
  assert (Hin : forall i, 0 <= i < ncells -> (a <= x i <= b)%R).
  { intros i Hi. rewrite (Hx i Hi), <- (f_first _ _ _ _ _ _ _ F), <- (f_last _ _ _ _ _ _ _ F). split; apply (f_mono _ _ _ _ _ _ _ F); lia. }
  apply Z.odd_spec in Hodd. destruct Hodd as [e He]. intros j.
  assert (D : d = 2 * Z.of_nat (Z.to_nat (e + 1)) - 1) by lia.
  apply (knots_vanish t (Z.to_nat (e + 1)) ncells L (difference c c') ltac:(lia) Hn per_cells per_period (difference_period c c')). rewrite <- D.
  intros k. replace (t k) with (all_points x (k - d)).
  - apply (difference_zeros x v c c' Hin V1 V2 Q1 Q2). destruct (per_reduce (k - d)) as (r & q & E & Hr). rewrite E, all_periods, (all_first x r Hr), (Hx r Hr), <- per_knots. replace (d + r + q * ncells) with k by lia. pose proof (per_cells k). lra.
  - destruct (per_reduce (k - d)) as (r & q & E & Hr). rewrite E, all_periods, (all_first x r Hr), (Hx r Hr), <- per_knots. f_equal. lia.
Qed.
(** uniform knots, at the centres of B-splines. *)
Lemma unique_uniform x m : (forall k, t (k + 1) = (t k + (b - a) / IZR ncells)%R) -> (forall i, 0 <= i < ncells -> (a <= x i <= b)%R) ->
  (forall i, 0 <= i < ncells -> x i = (t (i + m)%Z + (IZR d + 1) / 2 * ((b - a) / IZR ncells))%R) -> periodic_problem x.
Proof.
  intros Ht Hin Hx v wl wu c c' (V1 & _ & _ & Q1) (V2 & _ & _ & Q2). specialize (Q1 eq_refl). specialize (Q2 eq_refl).
  pose proof (f_n _ _ _ _ _ _ _ F) as Hn. pose proof (f_d _ _ _ _ _ _ _ F) as Hd. apply difference_zero; [exact Q1 | exact Q2|].
  set (h := ((b - a) / IZR ncells)%R) in *. assert (Hh : (0 < h)%R) by (apply Rdiv_lt_0_compat; [pose proof (f_ab _ _ _ _ _ _ _ F); lra | apply IZR_lt; lia]).
  apply (uniform_vanishes t d ncells m h Hd Hn Hh Ht). split; [apply difference_period|].
  intros i k. assert (E : u_centre t d m h i = all_points x i).
  { destruct (per_reduce i) as (r & q & -> & Hr). rewrite all_periods, (all_first x r Hr), (Hx r Hr). unfold u_centre. replace (r + q * ncells + m) with (r + m + q * ncells) by lia. rewrite per_knots. lra. }
  rewrite E. exact (difference_zeros x v c c' Hin V1 V2 Q1 Q2 i k).
Qed.
End Periodic.

(** ** all spaces *)
Section Space.
Context (s : bspline_space RA) (d : Z) (periodic : bool) (ncells : Z) (t : Z -> R) (a b : R).
Hypothesis F : facts s d periodic ncells t a b.
Context (lower upper : closure) (n : Z) (x : Z -> R).
Hypothesis Hclos : closures_for periodic lower upper.
Hypothesis Hn : n = points_expected periodic d ncells lower upper.
Let N := unknowns periodic d ncells.
Let first := equations lower d.
Let last := N - equations upper d.
Let h := ((b - a) / IZR ncells)%R.
Let Hcompat : compatible_closures RA s lower upper = true := proj1 (closures_compat s periodic lower upper (f_per _ _ _ _ _ _ _ F)) Hclos.
Lemma count : n = last - first /\ 0 <= first /\ 0 <= equations upper d /\ first <= last /\ 0 <= N <= ncells + d /\ ncells <= N.
Proof.
  pose proof (f_d _ _ _ _ _ _ _ F). pose proof (f_n _ _ _ _ _ _ _ F). pose proof (eqs_range _ _ _ _ _ _ _ F lower) as B1. pose proof (eqs_range _ _ _ _ _ _ _ F upper) as B2. fold first in B1.
  assert (d / 2 * 2 <= d) by (rewrite Z.mul_comm; apply Z.mul_div_le; lia). pose proof Hn as Hn'. unfold points_expected in Hn'. fold N first in Hn'.
  pose proof (closures_compat s periodic lower upper (f_per _ _ _ _ _ _ _ F)) as _. unfold last.
  assert (first <= N - equations upper d). { unfold N, unknowns. destruct periodic; [|lia]. destruct Hclos as [E1 E2]. unfold first. rewrite E1, E2. cbn [equations]. lia. }
  unfold N, unknowns in *. destruct periodic; lia.
Qed.
(** The coefficients, from the unknowns. *)
Let spread (off : Z) (y : Z -> R) (k : Z) : R := y (if periodic then (k - off) mod ncells else k).
Lemma h_pos : (0 < h)%R.
Proof. unfold h. apply Rdiv_lt_0_compat; [pose proof (f_ab _ _ _ _ _ _ _ F); lra | apply IZR_lt; pose proof (f_n _ _ _ _ _ _ _ F); lia]. Qed.
Lemma rows_solution off (y v wl wu : Z -> R) : (periodic = false -> off = 0) ->
  (let M := collocation periodic t a b d ncells lower upper x off in
   (forall i, 0 <= i < first -> rsum N (fun j => M i j * y j)%R = (h ^ BuilderSpec.order d i * wl i)%R) /\
   (forall i, 0 <= i < n -> rsum N (fun j => M (first + i)%Z j * y j)%R = v i) /\
   (forall i, 0 <= i < equations upper d -> rsum N (fun j => M (last + i)%Z j * y j)%R = (h ^ BuilderSpec.order d i * wu i)%R)) ->
  solution periodic t a b d ncells lower upper n x v wl wu (spread off y).
Proof.
  intros Hoff (H1 & H2 & H3). destruct count as (Cn & C1 & C2 & C3 & C4 & C5).
  destruct (row_meaning s d periodic ncells t a b F lower upper Hcompat x y (spread off y) off) as (R1 & R2 & R3 & R4); [intros k Hk; reflexivity|].
  fold N first last h in R1, R2, R3. pose proof h_pos as Hh.
  split; [|split; [|split; [|exact R4]]].
  - intros i Hi. rewrite <- R1 by lia. apply H2. exact Hi.
  - intros i Hi. destruct (R2 i Hi) as (g & G1 & G2). exists g. split; [exact G1|]. fold first in Hi. specialize (H1 i Hi). rewrite H1 in G2.
    apply Rmult_eq_reg_l with (h ^ BuilderSpec.order d i)%R; [symmetry; exact G2 | apply pow_nonzero; lra].
  - intros i Hi. destruct (R3 i ltac:(unfold last; lia)) as (g & G1 & G2). exists g. split; [exact G1|]. specialize (H3 i Hi). rewrite H3 in G2.
    apply Rmult_eq_reg_l with (h ^ BuilderSpec.order d i)%R; [symmetry; exact G2 | apply pow_nonzero; lra].
Qed.
Lemma zero_solution : solution periodic t a b d ncells lower upper n x (fun _ => 0%R) (fun _ => 0%R) (fun _ => 0%R) (fun _ => 0%R).
Proof.
  destruct count as (Cn & C1 & C2 & C3 & C4 & C5).
  assert (E : forall f : Z -> R, rsum N (fun j => f j * 0)%R = 0%R). { intros f. rewrite rsum_zsum. apply zsum_zero. intros; ring. }
  apply (rows_solution 0 (fun _ => 0%R)); [intros; reflexivity|]. repeat split; intros i Hi; rewrite E; ring.
Qed.
(** The matrix of the equations has no kernel. *)
Theorem collocation_nonsingular off : at_most_one periodic t a b d ncells lower upper n x -> 0 <= off -> (periodic = false -> off = 0) -> nonsingular N (collocation periodic t a b d ncells lower upper x off).
Proof.
  intros U Ho Hoff y Hy j Hj. destruct count as (Cn & C1 & C2 & C3 & C4 & C5). pose proof (f_n _ _ _ _ _ _ _ F) as Hn1.
  assert (S : solution periodic t a b d ncells lower upper n x (fun _ => 0%R) (fun _ => 0%R) (fun _ => 0%R) (spread off y)).
  { apply rows_solution; [exact Hoff|]. split; [|split]; intros i Hi; rewrite Hy; try ring; unfold last in *; lia. }
  pose proof (U _ _ _ _ _ S zero_solution) as E. cbv beta in E.
  destruct (bool_dec periodic true) as [Ep | Ep%not_true_is_false].
  - assert (EN : N = ncells) by (unfold N, unknowns; now rewrite Ep). pose proof (Z.mod_pos_bound (j + off) ncells ltac:(lia)) as MB.
    specialize (E ((j + off) mod ncells) ltac:(pose proof (f_d _ _ _ _ _ _ _ F); lia)). unfold spread in E. rewrite Ep in E.
    rewrite Zminus_mod_idemp_l in E. replace (j + off - off) with j in E by lia. rewrite Z.mod_small in E by lia. exact E.
  - specialize (E j ltac:(lia)). unfold spread in E. rewrite Ep in E. exact E.
Qed.
Theorem solution_exists : at_most_one periodic t a b d ncells lower upper n x -> forall v wl wu, exists c, solution periodic t a b d ncells lower upper n x v wl wu c.
Proof.
  intros U v wl wu. destruct count as (Cn & C1 & C2 & C3 & C4 & C5). set (M := collocation periodic t a b d ncells lower upper x 0).
  set (rhs := fun i => if i <? first then (h ^ BuilderSpec.order d i * wl i)%R else if i <? last then v (i - first) else (h ^ BuilderSpec.order d (i - last) * wu (i - last)%Z)%R).
  destruct (onto N M rhs ltac:(lia)) as (y & Hy).
  { intros y Hy. apply (collocation_nonsingular 0 U); [lia | reflexivity|]. intros i Hi. rewrite rsum_zsum. apply Hy. exact Hi. }
  exists (spread 0 y). apply rows_solution; [intros; reflexivity|]. fold M.
  split; [|split]; intros i Hi; rewrite rsum_zsum, Hy by (unfold last in *; lia); unfold rhs.
  - replace (i <? first) with true by lia. reflexivity.
  - replace (first + i <? first) with false by lia. replace (first + i <? last) with true by lia. f_equal. lia.
  - replace (last + i <? first) with false by lia. replace (last + i <? last) with false by lia. replace (last + i - last) with i by lia. reflexivity.
Qed.
Theorem unique_well_posed : at_most_one periodic t a b d ncells lower upper n x -> well_posed periodic t a b d ncells lower upper n x.
Proof. intros U. split; [exact U | exact (solution_exists U)]. Qed.
(** A kernel of the equations: two solutions. *)
Lemma kernel_not_unique y : (forall i, 0 <= i < N -> rsum N (fun j => collocation periodic t a b d ncells lower upper x 0 i j * y j)%R = 0%R) -> (exists j, 0 <= j < N /\ y j <> 0%R) ->
  ~ at_most_one periodic t a b d ncells lower upper n x.
Proof. intros Hy (j & Hj & Hne) U. apply Hne. exact (collocation_nonsingular 0 U ltac:(lia) (fun _ => eq_refl) y Hy j Hj). Qed.
End Space.

(** ** Schoenberg and Whitney: spaces that are not periodic *)
Section Open.
Context (s : bspline_space RA) (d ncells : Z) (t : Z -> R) (a b : R).
Hypothesis F : facts s d false ncells t a b.
Context (lower upper : closure) (n : Z) (x : Z -> R).
Hypothesis Hclos : closures_for false lower upper.
Hypothesis Hn : n = points_expected false d ncells lower upper.
Hypothesis Hin : forall i, 0 <= i < n -> (a <= x i <= b)%R.
Hypothesis Hinc : increasing_points n x.
Let N := unknowns false d ncells.
Let first := equations lower d.
Let last := N - equations upper d.
Let M := collocation false t a b d ncells lower upper x 0.

Theorem nested_unique : nested t d ncells first n x -> anchored d lower upper a b n x -> at_most_one false t a b d ncells lower upper n x.
Proof.
  intros Hnest Hanc v wl wu c c' (V1 & L1 & U1 & _) (V2 & L2 & U2 & _) i Hi.
  exact (unique_coefficients s d false ncells t a b F lower upper n x v wl wu c c' Hn Hin Hinc Hnest Hanc V1 V2 L1 L2 U1 U2 i Hi).
Qed.
Lemma knots_strict i j : d <= i -> i < j -> j <= d + ncells -> (t i < t j)%R.
Proof. intros H1 H2 H3. pose proof (f_cell _ _ _ _ _ _ _ F i ltac:(lia)). pose proof (f_mono _ _ _ _ _ _ _ F (i + 1) j ltac:(lia)). lra. Qed.
Lemma left_zero r j y : d < r -> r <= j < ncells + d -> (a <= y <= t r)%R -> bspline t b (Z.to_nat d) j y = 0%R.
Proof.
  intros Hr Hj Hy. pose proof (f_d _ _ _ _ _ _ _ F) as Hd. pose proof (f_mono _ _ _ _ _ _ _ F r (d + ncells) ltac:(lia)) as Mb. rewrite (f_last _ _ _ _ _ _ _ F) in Mb.
  destruct (exists_cell _ _ _ _ _ _ _ F y ltac:(lra)) as (k & Hk). rewrite (cell_bspline _ _ _ _ _ _ _ F (Z.to_nat d) y k j Hk). pose proof (cell_closed _ _ _ _ _ _ _ F y k Hk) as Hc. destruct Hk as [Hk _].
  destruct (Z.lt_ge_cases k j) as [C|C]; [apply (piece_outside _ _ _ _ _ _ _ F); lia|].
  destruct (Z.eq_dec k r) as [E|E].
  - assert (j = k) by lia. subst j. assert (Ey : y = t k) by (rewrite E in *; lra). rewrite Ey. exact (deriv_begin t k d 0 k ltac:(lia) ltac:(lia) ltac:(lia)).
  - pose proof (knots_strict r k ltac:(lia) ltac:(lia) ltac:(lia)). lra.
Qed.
Lemma right_zero r j y : r + d + 1 < d + ncells -> 0 <= j <= r -> (t (r + d + 1)%Z <= y <= b)%R -> bspline t b (Z.to_nat d) j y = 0%R.
Proof.
  intros Hr Hj Hy. pose proof (f_d _ _ _ _ _ _ _ F) as Hd. pose proof (f_mono _ _ _ _ _ _ _ F d (r + d + 1) ltac:(lia)) as Ma. rewrite (f_first _ _ _ _ _ _ _ F) in Ma.
  destruct (exists_cell _ _ _ _ _ _ _ F y ltac:(lra)) as (k & Hk). rewrite (cell_bspline _ _ _ _ _ _ _ F (Z.to_nat d) y k j Hk). destruct Hk as [Hk [C|[_ C]]].
  - destruct (Z.le_gt_cases k (j + d)) as [C'|C']; [|apply (piece_outside _ _ _ _ _ _ _ F); lia]. pose proof (f_mono _ _ _ _ _ _ _ F (k + 1) (r + d + 1) ltac:(lia)). lra.
  - apply (piece_outside _ _ _ _ _ _ _ F). lia.
Qed.
Lemma counts : n = last - first /\ 0 <= first /\ 0 <= equations upper d /\ first <= last /\ N = ncells + d.
Proof. destruct (count s d false ncells t a b F lower upper n x Hclos Hn) as (C1 & C2 & C3 & C4 & _). repeat split; assumption. Qed.
Theorem unique_nested : at_most_one false t a b d ncells lower upper n x -> nested t d ncells first n x.
Proof.
  intros U. destruct counts as (Cn & C1 & C2 & C3 & C4). pose proof (f_d _ _ _ _ _ _ _ F) as Hd. pose proof (f_n _ _ _ _ _ _ _ F) as Hn1.
  assert (INC : forall i j, 0 <= i <= j -> j < n -> (x i <= x j)%R). { intros i j Hij Hj. destruct (Z.eq_dec i j) as [E|E]; [rewrite E; lra|]. left. apply Hinc; lia. }
  intros i Hi. set (r := i + first). split; intros Hr; apply Rnot_le_lt; intros Hx.
  - destruct (kernel (Z.to_nat (N - r - 1)) (N - r) (fun i' j => M (r + 1 + i') (r + j)) ltac:(lia)) as (w & (j0 & Hj0 & Hne) & Hw).
    apply (kernel_not_unique s d false ncells t a b F lower upper n x Hclos Hn (fun j => if j <? r then 0%R else w (j - r))); [|exists (r + j0); split; [unfold unknowns; lia | replace (r + j0 <? r) with false by lia; replace (r + j0 - r) with j0 by lia; exact Hne]| exact U].
    fold N M. intros i' Hi'. rewrite rsum_zsum. replace N with (r + (N - r)) at 1 by lia. rewrite zsum_split by lia.
    rewrite zsum_zero; [|intros j Hj; replace (j <? r) with true by lia; ring]. rewrite Rplus_0_l.
    destruct (Z.le_gt_cases i' r) as [C|C].
    + apply zsum_zero. intros j Hj. assert (Z0 : M i' (r + j) = 0%R); [|rewrite Z0; ring].
      unfold M, collocation. fold N. fold first last. destruct (Z.ltb_spec i' first) as [D|D].
      * unfold scaled_derivative. rewrite Derive_n_zero; [ring | intros; apply (piece_outside _ _ _ _ _ _ _ F); lia].
      * replace (i' <? last) with true by lia. apply (left_zero r); [lia | lia |]. pose proof (Hin (i' - first) ltac:(lia)). pose proof (INC (i' - first) i ltac:(lia) ltac:(lia)). lra.
    + specialize (Hw (i' - r - 1) ltac:(lia)). rewrite <- Hw. apply zsum_ext. intros j Hj. replace (r + j <? r) with false by lia. replace (r + j - r) with j by lia. replace (r + 1 + (i' - r - 1)) with i' by lia. reflexivity.
  - destruct (kernel (Z.to_nat r) (r + 1) (fun i' j => M i' j) ltac:(lia)) as (w & (j0 & Hj0 & Hne) & Hw).
    apply (kernel_not_unique s d false ncells t a b F lower upper n x Hclos Hn (fun j => if j <? r + 1 then w j else 0%R)); [|exists j0; split; [unfold unknowns; lia | replace (j0 <? r + 1) with true by lia; exact Hne]| exact U].
    fold N M. intros i' Hi'. rewrite rsum_zsum. replace N with ((r + 1) + (N - r - 1)) at 1 by lia. rewrite zsum_split by lia.
    rewrite (zsum_zero (N - r - 1)); [|intros j Hj; replace (r + 1 + j <? r + 1) with false by lia; ring]. rewrite Rplus_0_r.
    destruct (Z.le_gt_cases r i') as [C|C].
    + apply zsum_zero. intros j Hj. assert (Z0 : M i' j = 0%R); [|rewrite Z0; ring].
      unfold M, collocation. fold N. fold first last. replace (i' <? first) with false by lia. destruct (Z.ltb_spec i' last) as [D|D].
      * apply (right_zero r); [lia | lia |]. pose proof (Hin (i' - first) ltac:(lia)). pose proof (INC i (i' - first) ltac:(lia) ltac:(lia)). lra.
      * unfold scaled_derivative. rewrite Derive_n_zero; [ring | intros; apply (piece_outside _ _ _ _ _ _ _ F); lia].
    + specialize (Hw i' ltac:(lia)). rewrite <- Hw. apply zsum_ext. intros j Hj. replace (j <? r + 1) with true by lia. reflexivity.
Qed.
Theorem exists_anchored : (forall v wl wu, exists c, solution false t a b d ncells lower upper n x v wl wu c) -> anchored d lower upper a b n x.
Proof.
  intros E Ho. destruct counts as (Cn & C1 & C2 & C3 & C4). pose proof (f_d _ _ _ _ _ _ _ F) as Hd. pose proof (f_n _ _ _ _ _ _ _ F) as Hn1.
  pose proof (Z.div_mod d 2 ltac:(lia)) as DM. pose proof (Zmod_odd d) as MO. rewrite Ho in MO. assert (Or : BuilderSpec.order d 0 = 0%nat) by (unfold BuilderSpec.order; lia).
  assert (Hpos : 1 <= n). { pose proof (eqs_range _ _ _ _ _ _ _ F lower). pose proof (eqs_range _ _ _ _ _ _ _ F upper). unfold points_expected, unknowns in Hn. lia. }
  split; intros He.
  - pose proof (Hin 0 ltac:(lia)) as B. destruct (Req_dec (x 0) a) as [Ea|Na]; [exfalso | lra].
    destruct (E (fun _ => 1%R) (fun _ => 0%R) (fun _ => 0%R)) as (c & V & W & _). specialize (V 0 ltac:(lia)). cbv beta in V. destruct (W 0 ltac:(lia)) as (g & G1 & G2). rewrite Or in G1. cbn [nth_derivative] in G1. rewrite <- G1 in G2.
    rewrite Ea, (piece_closed _ _ _ _ _ _ _ F d c a ltac:(lia)) in V; [lra|]. rewrite (f_first _ _ _ _ _ _ _ F). pose proof (f_cell _ _ _ _ _ _ _ F d ltac:(lia)) as K. rewrite (f_first _ _ _ _ _ _ _ F) in K. lra.
  - pose proof (Hin (n - 1) ltac:(lia)) as B. destruct (Req_dec (x (n - 1)) b) as [Ea|Na]; [exfalso | lra].
    destruct (E (fun _ => 1%R) (fun _ => 0%R) (fun _ => 0%R)) as (c & V & _ & W & _). specialize (V (n - 1) ltac:(lia)). cbv beta in V. destruct (W 0 ltac:(lia)) as (g & G1 & G2). rewrite Or in G1. cbn [nth_derivative] in G1. rewrite <- G1 in G2.
    rewrite Ea, (piece_closed _ _ _ _ _ _ _ F (d + ncells - 1) c b ltac:(lia)) in V; [lra|]. replace (d + ncells - 1 + 1) with (d + ncells) by lia. rewrite (f_last _ _ _ _ _ _ _ F).
    pose proof (f_cell _ _ _ _ _ _ _ F (d + ncells - 1) ltac:(lia)) as K. replace (d + ncells - 1 + 1) with (d + ncells) in K by lia. rewrite (f_last _ _ _ _ _ _ _ F) in K. lra.
Qed.
Theorem schoenberg_whitney : well_posed false t a b d ncells lower upper n x <-> nested t d ncells first n x /\ anchored d lower upper a b n x.
Proof.
  split.
  - intros [U E]. split; [exact (unique_nested U) | exact (exists_anchored E)].
  - intros [H1 H2]. apply (unique_well_posed s d false ncells t a b F lower upper n x Hclos Hn). exact (nested_unique H1 H2).
Qed.
End Open.
