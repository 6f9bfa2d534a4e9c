(** The shape of evaluated splines. *)
From Coq Require Import Bool Reals ZArith Lia Lra ZifyBool.
From Verif Require Import BSplineSpec BSplineMath BSplineDeriv SplineZeros SplineTower SplineUnique SplineUniquePeriodic SplineComplete.
From Verif Require Import EvaluatorSpec EvaluatorSpace EvaluatorProofs EvaluatorLemmas BuilderTheorems WellPosedProofs ShapeSpec ShapeTower.
Local Open Scope Z_scope.

(** ** sums of products with weights of sum 1 *)
Lemma zsum_between n (c w : Z -> R) lo hi : 0 <= n -> (forall r, 0 <= r < n -> (lo <= c r <= hi)%R /\ (0 <= w r)%R) ->
  (lo * zsum n w <= zsum n (fun r => c r * w r) <= hi * zsum n w)%R.
Proof.
  intros Hn H. unfold zsum. set (m := Z.to_nat n). assert (H' : forall r, 0 <= r < Z.of_nat m -> (lo <= c r <= hi)%R /\ (0 <= w r)%R) by (intros; apply H; lia). clearbody m. clear H Hn n.
  induction m as [|m IH]; [cbn [nsum]; lra|]. cbn [nsum]. specialize (IH ltac:(intros; apply H'; lia)). destruct (H' (Z.of_nat m) ltac:(lia)) as [[A1 A2] B].
  pose proof (Rmult_le_compat_r _ _ _ B A1). pose proof (Rmult_le_compat_r _ _ _ B A2). lra.
Qed.

(** ** coefficients of the pieces *)
Lemma dcoef_ext t d c c' l i : (forall j, i - Z.of_nat l <= j <= i -> c j = c' j) -> dcoef t d c l i = dcoef t d c' l i.
Proof.
  revert i. induction l as [|l IH]; intros i H; [apply H; lia|]. cbn [dcoef]. rewrite (IH i) by (intros; apply H; lia). rewrite (IH (i - 1)) by (intros; apply H; lia). reflexivity.
Qed.
Lemma pieces_ext t d c c' l k x : Z.of_nat l <= d -> (forall j, k - d <= j <= k -> c j = c' j) -> pieces t d c l k x = pieces t d c' l k x.
Proof. intros Hl H. unfold pieces. apply zsum_ext. intros r Hr. f_equal. apply dcoef_ext. intros j Hj. apply H. lia. Qed.
Lemma dcoef_1 t d c i : dcoef t d c 1 i = slope t d c i.
Proof. unfold slope. cbn [dcoef]. change (Z.of_nat 0) with 0. rewrite Z.sub_0_r. unfold Rdiv. ring. Qed.

Section Shape.
Context (s : bspline_space RA) (d : Z) (periodic : bool) (ncells : Z) (t : Z -> R) (a b : R).
Hypothesis F : facts s d periodic ncells t a b.
Notation at_ := (at_ t d (d + ncells)).
Lemma s_d : 1 <= d. Proof. exact (f_d _ _ _ _ _ _ _ F). Qed.
Lemma s_n : 1 <= ncells. Proof. exact (f_n _ _ _ _ _ _ _ F). Qed.
Lemma cell_at x k : in_cell t d ncells b x k -> at_ k x.
Proof. intros H. split; [exact (proj1 H) | exact (cell_closed _ _ _ _ _ _ _ F x k H)]. Qed.
Lemma at_inside x k : at_ k x -> (a <= x <= b)%R.
Proof. intros H. pose proof (at_range _ _ _ _ _ (space_tower _ _ _ _ _ _ _ F (fun _ => 0%R)) k x H) as K. rewrite (f_first _ _ _ _ _ _ _ F), (f_last _ _ _ _ _ _ _ F) in K. exact K. Qed.

(** The value and the derivatives are those of a piece. *)
Lemma eval_piece m coef x o : has_coefficients coef (ncells + d) -> (a <= x <= b)%R -> order_allowed d o ->
  exists k, in_cell t d ncells b x k /\ eval_no_bc RA s m (requested o) x coef = Ok (pieces t d (coefficient coef) (Z.to_nat o) k x : num RA).
Proof.
  intros Hc Hx [Ho Hf]. unfold requested. destruct (Z.eqb_spec o 0) as [->|Hne].
  - destruct (exists_cell _ _ _ _ _ _ _ F x Hx) as (k & Hk). exists k. split; [exact Hk|]. rewrite (eval_no_bc_ok _ _ _ _ _ _ _ F m coef x Hc Hx). change (Z.to_nat 0) with 0%nat.
    assert (E : spline t b d ncells (coefficient coef) x = pieces t d (coefficient coef) 0 k x).
    { rewrite (spline_is_piece _ _ _ _ _ _ _ F k _ x Hk). symmetry. apply (pieces_0 _ _ _ _ _ _ _ F). exact (proj1 Hk). }
    rewrite E. reflexivity.
  - destruct (eval_deriv_ok _ _ _ _ _ _ _ F m coef x o Hc Hx ltac:(lia) Hf) as (k & Hk & E). exists k. split; [exact Hk|]. rewrite E.
    assert (E' : pieces t d (coefficient coef) (Z.to_nat o) k x = deriv_sum d t k o (coefficient coef) x).
    { apply (pieces_derivative _ _ _ _ _ _ _ F); [exact (proj1 Hk) | lia|]. apply (deriv_sum_nd _ _ _ _ _ _ _ F); [exact (proj1 Hk) | lia]. }
    rewrite E'. reflexivity.
Qed.
Lemma eval_closed m coef x o k : has_coefficients coef (ncells + d) -> order_allowed d o -> o < d -> at_ k x ->
  eval_no_bc RA s m (requested o) x coef = Ok (pieces t d (coefficient coef) (Z.to_nat o) k x : num RA).
Proof.
  intros Hc Ho Hlt Hk. destruct (eval_piece m coef x o Hc (at_inside x k Hk) Ho) as (k' & Hk' & E). rewrite E.
  assert (E' : pieces t d (coefficient coef) (Z.to_nat o) k' x = pieces t d (coefficient coef) (Z.to_nat o) k x).
  { apply (at_same _ _ _ _ _ (space_tower _ _ _ _ _ _ _ F (coefficient coef))); [destruct Ho; lia | apply cell_at; exact Hk' | exact Hk]. }
  rewrite E'. reflexivity.
Qed.

(** A piece is between the bounds of its coefficients. *)
Lemma pieces_between c l k x lo hi : Z.of_nat l <= d -> at_ k x -> (forall i, k - d + Z.of_nat l <= i <= k -> (lo <= dcoef t d c l i <= hi)%R) ->
  (lo <= pieces t d c l k x <= hi)%R.
Proof.
  intros Hl [Hk Hx] H. pose proof (space_tower _ _ _ _ _ _ _ F c) as T.
  pose proof (one_sum t d _ d (d + ncells) (f_mono _ _ _ _ _ _ _ F) T (d - Z.of_nat l) k x ltac:(lia) Hk) as S1.
  pose proof (zsum_between (d - Z.of_nat l + 1) (fun r => dcoef t d c l (k - (d - Z.of_nat l) + r)) (fun r => V t k (d - Z.of_nat l) r x) lo hi ltac:(lia)) as B.
  cbv beta in B. rewrite S1 in B. unfold pieces. rewrite !Rmult_1_r in B. apply B. intros r Hr. split; [apply H; lia|].
  apply (V_nonneg t k d); [intros; apply (f_mono _ _ _ _ _ _ _ F); lia | apply (f_cell _ _ _ _ _ _ _ F); exact Hk | lia | lia | exact Hx].
Qed.

Lemma eval_cell_between m coef x k lo hi : has_coefficients coef (ncells + d) -> at_ k x -> (forall i, k - d <= i <= k -> (lo <= coefficient coef i <= hi)%R) ->
  exists v : R, eval_no_bc RA s m None x coef = Ok (v : num RA) /\ (lo <= v <= hi)%R.
Proof.
  intros Hc Hk H. pose proof s_d. exists (pieces t d (coefficient coef) 0 k x). split.
  - apply (eval_closed m coef x 0 k Hc); [split; [lia | reflexivity] | lia | exact Hk].
  - apply pieces_between; [lia | exact Hk|]. intros i Hi. cbn [dcoef]. apply H. lia.
Qed.

(** Only the coefficients of the cell matter. *)
Lemma eval_local m m' c c' x k o : has_coefficients c (ncells + d) -> has_coefficients c' (ncells + d) -> in_cell t d ncells b x k -> order_allowed d o ->
  (forall i, k - d <= i <= k -> coefficient c i = coefficient c' i) -> eval_no_bc RA s m (requested o) x c = eval_no_bc RA s m' (requested o) x c'.
Proof.
  intros Hc Hc' Hk Ho H. pose proof (at_inside x k (cell_at x k Hk)) as Hx.
  destruct (eval_piece m c x o Hc Hx Ho) as (k1 & H1 & ->). destruct (eval_piece m' c' x o Hc' Hx Ho) as (k2 & H2 & ->).
  assert (U : forall j j', in_cell t d ncells b x j -> in_cell t d ncells b x j' -> j <= j').
  { intros j j' [J1 J2] [J3 J4]. destruct (Z.le_gt_cases j j') as [L|L]; [exact L|]. exfalso.
    pose proof (f_mono _ _ _ _ _ _ _ F (j' + 1) j ltac:(lia)) as M. pose proof (f_cell _ _ _ _ _ _ _ F j J1) as M1.
    destruct J2 as [J2|[J2 Ej]]; destruct J4 as [J4|[J4 Ej']]; try lra; try lia.
    pose proof (f_mono _ _ _ _ _ _ _ F (j' + 1) (d + ncells) ltac:(lia)) as M2. rewrite (f_last _ _ _ _ _ _ _ F) in M2. lra. }
  assert (k1 = k) as -> by (apply Z.le_antisymm; apply U; assumption). assert (k2 = k) as -> by (apply Z.le_antisymm; apply U; assumption).
  assert (E : pieces t d (coefficient c) (Z.to_nat o) k x = pieces t d (coefficient c') (Z.to_nat o) k x) by (apply pieces_ext; [destruct Ho; lia | exact H]). rewrite E. reflexivity.
Qed.

(** Derivatives of evaluated functions. *)
Lemma on_cells m coef o (f : R -> R) : has_coefficients coef (ncells + d) -> order_allowed d o -> o < d ->
  (forall y, (a <= y <= b)%R -> eval_no_bc RA s m (requested o) y coef = Ok (f y : num RA)) ->
  forall k y, at_ k y -> f y = pieces t d (coefficient coef) (Z.to_nat o) k y.
Proof.
  intros Hc Ho Hlt Hf k y Hk. pose proof (Hf y (at_inside y k Hk)) as E. rewrite (eval_closed m coef y o k Hc Ho Hlt Hk) in E.
  assert (Hinj : forall u v : R, @Ok (num RA) u = Ok v -> u = v) by congruence. apply Hinj in E. symmetry. exact E.
Qed.
Lemma eval_continuous m coef o f x : has_coefficients coef (ncells + d) -> order_allowed d o -> o < d ->
  (forall y, (a <= y <= b)%R -> eval_no_bc RA s m (requested o) y coef = Ok (f y : num RA)) -> (a < x < b)%R -> continuity_pt f x.
Proof.
  intros Hc Ho Hlt Hf Hx. pose proof s_n. apply (tower_continuous _ _ _ _ _ (space_tower _ _ _ _ _ _ _ F (coefficient coef)) (Z.to_nat o)); [destruct Ho; lia | | | lia].
  - exact (on_cells m coef o f Hc Ho Hlt Hf).
  - rewrite (f_first _ _ _ _ _ _ _ F), (f_last _ _ _ _ _ _ _ F). exact Hx.
Qed.
Lemma eval_derivable m coef o f x : has_coefficients coef (ncells + d) -> order_allowed d (o + 1) -> 0 <= o ->
  (forall y, (a <= y <= b)%R -> eval_no_bc RA s m (requested o) y coef = Ok (f y : num RA)) -> (a < x < b)%R -> o + 1 < d \/ ~ is_knot t x ->
  exists v : R, eval_no_bc RA s m (requested (o + 1)) x coef = Ok (v : num RA) /\ derivable_pt_lim f x v.
Proof.
  intros Hc Ho Hp Hf Hx Hk. assert (Ho' : order_allowed d o).
  { destruct Ho as [H1 H2]. split; [lia|]. pose proof (falling_mono d (Z.to_nat o) (Z.to_nat (o + 1)) ltac:(lia) ltac:(lia) ltac:(lia)). lia. }
  destruct (eval_piece m coef x (o + 1) Hc ltac:(lra) Ho) as (k & Hck & E). exists (pieces t d (coefficient coef) (Z.to_nat (o + 1)) k x). split; [exact E|].
  replace (Z.to_nat (o + 1)) with (S (Z.to_nat o)) by lia.
  apply (tower_derivable _ _ _ _ _ (space_tower _ _ _ _ _ _ _ F (coefficient coef))); [destruct Ho; lia | | | apply cell_at; exact Hck | ].
  - apply (on_cells m coef o f Hc Ho'); [destruct Ho; lia | exact Hf].
  - rewrite (f_first _ _ _ _ _ _ _ F), (f_last _ _ _ _ _ _ _ F). exact Hx.
  - destruct Hk as [Hk|Hk]; [left; lia | right; intros j Hj; apply Hk; exists j; exact Hj].
Qed.

(** Rates of growth and slopes. *)
Lemma knots_apart i : 1 <= i < ncells + d -> (t i < t (i + d)%Z)%R.
Proof.
  intros Hi. pose proof s_d. pose proof s_n. set (k := Z.max i d). pose proof (f_cell _ _ _ _ _ _ _ F k ltac:(lia)).
  pose proof (f_mono _ _ _ _ _ _ _ F i k ltac:(lia)). pose proof (f_mono _ _ _ _ _ _ _ F (k + 1) (i + d) ltac:(lia)). lra.
Qed.
Lemma slope_between c k x lo hi : at_ k x -> (forall i, k - d + 1 <= i <= k -> (lo <= slope t d c i <= hi)%R) -> (lo <= pieces t d c 1 k x <= hi)%R.
Proof. intros Hk H. pose proof s_d. apply pieces_between; [lia | exact Hk|]. intros i Hi. rewrite dcoef_1. apply H. lia. Qed.
Lemma eval_rate m coef x y vx vy lo hi : has_coefficients coef (ncells + d) -> (a <= x <= y)%R -> (y <= b)%R ->
  (forall i, 1 <= i < ncells + d -> (lo <= slope t d (coefficient coef) i <= hi)%R) ->
  eval_no_bc RA s m None x coef = Ok (vx : num RA) -> eval_no_bc RA s m None y coef = Ok (vy : num RA) -> (lo * (y - x) <= vy - vx <= hi * (y - x))%R.
Proof.
  intros Hc Hx Hy H Ex Ey. pose proof s_d. assert (O : order_allowed d 0) by (split; [lia | reflexivity]).
  destruct (exists_cell _ _ _ _ _ _ _ F x ltac:(lra)) as (k & Hk). destruct (exists_cell _ _ _ _ _ _ _ F y ltac:(lra)) as (k' & Hk').
  apply cell_at in Hk. apply cell_at in Hk'. change None with (requested 0) in Ex, Ey.
  rewrite (eval_closed m coef x 0 k Hc O ltac:(lia) Hk) in Ex. rewrite (eval_closed m coef y 0 k' Hc O ltac:(lia) Hk') in Ey.
  assert (Hinj : forall u v : R, @Ok (num RA) u = Ok v -> u = v) by congruence. apply Hinj in Ex. apply Hinj in Ey. change (Z.to_nat 0) with 0%nat in *. subst vx vy.
  apply (rate_all _ _ _ _ _ (space_tower _ _ _ _ _ _ _ F (coefficient coef)) 0 lo hi k x k' y); [lia | exact Hk | exact Hk' | lra|].
  intros j z Hj _. apply slope_between; [exact Hj|]. intros i Hi. apply H. destruct Hj as [Hj _]. lia.
Qed.
Lemma eval_deriv_between m coef x lo hi : has_coefficients coef (ncells + d) -> (a <= x <= b)%R ->
  (forall i, 1 <= i < ncells + d -> (lo <= slope t d (coefficient coef) i <= hi)%R) -> d < 2 ^ 31 ->
  exists v : R, eval_no_bc RA s m (Some 1) x coef = Ok (v : num RA) /\ (lo <= v <= hi)%R.
Proof.
  intros Hc Hx H Hd. pose proof s_d. assert (O : order_allowed d 1). { split; [lia|]. change (falling_z d (Z.to_nat 1)) with (1 * (d - 0)). lia. }
  destruct (eval_piece m coef x 1 Hc Hx O) as (k & Hk & E). exists (pieces t d (coefficient coef) 1 k x). split; [exact E|].
  apply slope_between; [apply cell_at; exact Hk|]. intros i Hi. apply H. destruct Hk as [Hk _]. lia.
Qed.

(** Convexity. *)
Lemma slope_order c k z k' z' : (forall i, 1 <= i < ncells + d - 1 -> (slope t d c i <= slope t d c (i + 1))%R) -> at_ k z -> at_ k' z' -> k <= k' -> (z <= z')%R ->
  (pieces t d c 1 k z <= pieces t d c 1 k' z')%R.
Proof.
  intros H Hk Hk' Hkk Hz. pose proof s_d as Hd. destruct (Z.eq_dec d 1) as [E|E].
  - assert (M : forall n i, 1 <= i -> i + Z.of_nat n < ncells + d -> (slope t d c i <= slope t d c (i + Z.of_nat n))%R).
    { induction n as [|n IH]; intros i H1 H2; [rewrite Z.add_0_r; lra|]. specialize (IH i H1 ltac:(lia)). pose proof (H (i + Z.of_nat n) ltac:(lia)).
      replace (i + Z.of_nat (S n)) with (i + Z.of_nat n + 1) by lia. lra. }
    assert (S1 : forall j w, at_ j w -> pieces t d c 1 j w = slope t d c j).
    { intros j w Hj. pose proof (slope_between c j w (slope t d c j) (slope t d c j) Hj) as B. assert (Z0 : forall i, j - d + 1 <= i <= j -> (slope t d c j <= slope t d c i <= slope t d c j)%R).
      { intros i Hi. replace i with j by lia. lra. } specialize (B Z0). lra. }
    rewrite (S1 k z Hk), (S1 k' z' Hk'). pose proof (M (Z.to_nat (k' - k)) k) as M1. replace (k + Z.of_nat (Z.to_nat (k' - k))) with k' in M1 by lia.
    apply M1; destruct Hk as [Hk _], Hk' as [Hk' _]; lia.
  - pose proof (space_tower _ _ _ _ _ _ _ F c) as T.
    assert (N : forall j w, at_ j w -> (0 <= pieces t d c 2 j w)%R).
    { intros j w Hj. set (B := fun i => dcoef t d c 2 i).
      assert (P : forall i, j - d + 2 <= i <= j -> (0 <= B i)%R).
      { intros i Hi. unfold B. change (dcoef t d c 2 i) with (IZR (d - 1) * ((dcoef t d c 1 i - dcoef t d c 1 (i - 1)) / (t (i + (d - 1))%Z - t i)))%R. rewrite !dcoef_1.
        destruct Hj as [Hj _]. pose proof (H (i - 1) ltac:(lia)) as Hs. replace (i - 1 + 1) with i in Hs by lia.
        assert (K : (t i < t (i + (d - 1)))%R). { pose proof (f_cell _ _ _ _ _ _ _ F j Hj). pose proof (f_mono _ _ _ _ _ _ _ F i j ltac:(lia)). pose proof (f_mono _ _ _ _ _ _ _ F (j + 1) (i + (d - 1)) ltac:(lia)). lra. }
        apply Rmult_le_pos; [apply IZR_le; lia|]. apply Rmult_le_pos; [lra | left; apply Rinv_0_lt_compat; lra]. }
      assert (B2 : exists M, forall i, j - d + 2 <= i <= j -> (B i <= M)%R).
      { clear -B. assert (K : forall n lo0, exists M, forall i, lo0 <= i < lo0 + Z.of_nat n -> (B i <= M)%R).
        { induction n as [|n IH]; intros lo0; [exists 0%R; intros; lia|]. destruct (IH lo0) as (M & HM). exists (Rmax M (B (lo0 + Z.of_nat n))). intros i Hi.
          destruct (Z.eq_dec i (lo0 + Z.of_nat n)) as [->|Hne]; [apply Rmax_r | eapply Rle_trans; [apply HM; lia | apply Rmax_l]]. }
        destruct (K (Z.to_nat (d - 1)) (j - d + 2)) as (M & HM). exists M. intros i Hi. apply HM. lia. }
      destruct B2 as (M & HM). apply (pieces_between c 2 j w 0 M); [lia | exact Hj|]. intros i Hi. split; [apply P; lia | apply HM; lia]. }
    destruct (Req_dec z z') as [e|e].
    + subst z'. rewrite (at_same _ _ _ _ _ T 1 k z k' ltac:(lia) Hk Hk'). lra.
    + assert (R1 : (0 * (z' - z) <= pieces t d c 1 k' z' - pieces t d c 1 k z)%R); [|lra].
      apply Rnot_lt_le. intros C. destruct (mean_value _ _ _ _ _ T 1 (-1) k z k' z' ltac:(lia) Hk Hk' ltac:(lra) ltac:(lra)) as (j & w & Hj & _ & Hw). pose proof (N j w Hj). lra.
Qed.
Lemma eval_convex m coef x y u vx vy vz : has_coefficients coef (ncells + d) -> (a <= x <= b)%R -> (a <= y <= b)%R -> (0 <= u <= 1)%R ->
  (forall i, 1 <= i < ncells + d - 1 -> (slope t d (coefficient coef) i <= slope t d (coefficient coef) (i + 1))%R) ->
  eval_no_bc RA s m None x coef = Ok (vx : num RA) -> eval_no_bc RA s m None y coef = Ok (vy : num RA) ->
  eval_no_bc RA s m None (u * x + (1 - u) * y)%R coef = Ok (vz : num RA) -> (vz <= u * vx + (1 - u) * vy)%R.
Proof.
  intros Hc. set (c := coefficient coef). pose proof s_d as Hd. assert (O : order_allowed d 0) by (split; [lia | reflexivity]).
  assert (Hinj : forall u v : R, @Ok (num RA) u = Ok v -> u = v) by congruence. pose proof (space_tower _ _ _ _ _ _ _ F c) as T.
  assert (W : forall x y u vx vy vz, (a <= x <= b)%R -> (a <= y <= b)%R -> (x < y)%R -> (0 < u < 1)%R ->
    (forall i, 1 <= i < ncells + d - 1 -> (slope t d c i <= slope t d c (i + 1))%R) ->
    eval_no_bc RA s m None x coef = Ok (vx : num RA) -> eval_no_bc RA s m None y coef = Ok (vy : num RA) ->
    eval_no_bc RA s m None (u * x + (1 - u) * y)%R coef = Ok (vz : num RA) -> (vz <= u * vx + (1 - u) * vy)%R).
  { clear x y u vx vy vz. intros x y u vx vy vz Hx Hy Hxy Hu H Ex Ey Ez. set (z := (u * x + (1 - u) * y)%R) in *.
    assert (Z1 : (z - x = (1 - u) * (y - x))%R) by (unfold z; ring). assert (Z2 : (y - z = u * (y - x))%R) by (unfold z; ring).
    pose proof (Rmult_lt_0_compat (1 - u) (y - x) ltac:(lra) ltac:(lra)). pose proof (Rmult_lt_0_compat u (y - x) ltac:(lra) ltac:(lra)).
    destruct (exists_cell _ _ _ _ _ _ _ F x Hx) as (k1 & K1). destruct (exists_cell _ _ _ _ _ _ _ F y Hy) as (k2 & K2). destruct (exists_cell _ _ _ _ _ _ _ F z ltac:(lra)) as (k & K).
    apply cell_at in K1. apply cell_at in K2. apply cell_at in K. change None with (requested 0) in *.
    rewrite (eval_closed m coef x 0 k1 Hc O ltac:(lia) K1) in Ex. rewrite (eval_closed m coef y 0 k2 Hc O ltac:(lia) K2) in Ey. rewrite (eval_closed m coef z 0 k Hc O ltac:(lia) K) in Ez.
    apply Hinj in Ex. apply Hinj in Ey. apply Hinj in Ez. change (Z.to_nat 0) with 0%nat in *. fold c in Ex, Ey, Ez.
    set (g := pieces t d c 1 k z). pose proof (at_before _ _ _ _ _ T k1 x k z K1 K ltac:(lra)) as L1. pose proof (at_before _ _ _ _ _ T k z k2 y K K2 ltac:(lra)) as L2.
    assert (X1 : exists m1, forall j w, k1 <= j <= k -> at_ j w -> (x <= w <= z)%R -> (m1 <= pieces t d c 1 j w <= g)%R).
    { exists (pieces t d c 1 k1 x). intros j w Hj Hw Hxw. split; apply slope_order; try assumption; lia || lra. }
    assert (X2 : exists m2, forall j w, k <= j <= k2 -> at_ j w -> (z <= w <= y)%R -> (g <= pieces t d c 1 j w <= m2)%R).
    { exists (pieces t d c 1 k2 y). intros j w Hj Hw Hxw. split; apply slope_order; try assumption; lia || lra. }
    destruct X1 as (m1 & X1). destruct X2 as (m2 & X2).
    pose proof (rate _ _ _ _ _ T 0 m1 g (Z.to_nat (k - k1)) ltac:(lia) k1 x k z K1 K ltac:(lra) ltac:(lia) X1) as [_ R1].
    pose proof (rate _ _ _ _ _ T 0 g m2 (Z.to_nat (k2 - k)) ltac:(lia) k z k2 y K K2 ltac:(lra) ltac:(lia) X2) as [R2 _].
    rewrite Ex, Ez, Z1 in R1. rewrite Ey, Ez, Z2 in R2.
    assert (u * (vz - vx) <= (1 - u) * (vy - vz))%R; [|lra].
    apply Rle_trans with (u * (g * ((1 - u) * (y - x))))%R; [apply Rmult_le_compat_l; lra|].
    apply Rle_trans with ((1 - u) * (g * (u * (y - x))))%R; [right; ring | apply Rmult_le_compat_l; lra]. }
  intros Hx Hy Hu H Ex Ey Ez.
  destruct (Req_dec u 0) as [->|U0]. { replace (0 * x + (1 - 0) * y)%R with y in Ez by ring. rewrite Ey in Ez. apply Hinj in Ez. lra. }
  destruct (Req_dec u 1) as [->|U1]. { replace (1 * x + (1 - 1) * y)%R with x in Ez by ring. rewrite Ex in Ez. apply Hinj in Ez. lra. }
  destruct (Rtotal_order x y) as [L|[L|L]].
  - apply (W x y u vx vy vz); try assumption; lra.
  - subst y. replace (u * x + (1 - u) * x)%R with x in Ez by ring. rewrite Ex in Ez, Ey. apply Hinj in Ez. apply Hinj in Ey. subst. lra.
  - assert (E' : (u * x + (1 - u) * y = (1 - u) * y + (1 - (1 - u)) * x)%R) by ring. rewrite E' in Ez. pose proof (W y x (1 - u)%R vy vx vz Hy Hx ltac:(lra) ltac:(lra) H Ey Ex Ez). lra.
Qed.
End Shape.
