(** Statements about the shape of evaluated splines, in the form of PropertiesShape. *)
From Coq Require Import Bool Reals ZArith List Lia Lra ZifyBool.
From Verif Require Import BSplineSpec BSplineMath BSplineDeriv SplineZeros SplineTower SplineUnique SplineComplete.
From Verif Require Import EvaluatorSpec EvaluatorSpace EvaluatorProofs EvaluatorLemmas BuilderSpec Spline2DSpec Spline2DBuild SplineNDSpec SplineNDEval SplineNDEval2 SplineNDTheorems WellPosedSpec WellPosedBuild.
From Verif Require Import ShapeSpec ShapeTower ShapeProofs ShapeProofs2.
Import ListNotations.
Local Open Scope Z_scope.

Lemma order_0 d : 0 <= d -> order_allowed d 0. Proof. intros H. split; [lia | reflexivity]. Qed.
Lemma inside_same s d periodic ncells t a b : spline_space s d periodic ncells t a b -> forall m lower upper coef x, has_coefficients coef (ncells + d) -> (a <= x <= b)%R ->
  eval RA s m lower upper x coef = eval_no_bc RA s m None x coef.
Proof.
  intros S m lower upper coef x Hc Hx. pose proof (space_facts _ _ _ _ _ _ _ S) as F.
  rewrite (eval_inside_ok _ _ _ _ _ _ _ F m lower upper coef x Hc Hx), (eval_no_bc_ok _ _ _ _ _ _ _ F m coef x Hc Hx). reflexivity.
Qed.

Theorem cell_between : forall s d periodic ncells t a b, spline_space s d periodic ncells t a b ->
  forall m lower upper (coef : chunk_1d RA) k x lo hi, has_coefficients coef (ncells + d) -> d <= k < d + ncells -> (t k <= x <= t (k + 1)%Z)%R ->
  (forall i, k - d <= i <= k -> (lo <= coefficient coef i <= hi)%R) -> exists v : R, eval RA s m lower upper x coef = Ok v /\ (lo <= v <= hi)%R.
Proof.
  intros s d periodic ncells t a b S m lower upper coef k x lo hi Hc Hk Hx H. pose proof (space_facts _ _ _ _ _ _ _ S) as F. assert (A : at_ t d (d + ncells) k x) by (split; assumption).
  rewrite (inside_same _ _ _ _ _ _ _ S m lower upper coef x Hc (at_inside _ _ _ _ _ _ _ F x k A)). exact (eval_cell_between _ _ _ _ _ _ _ F m coef x k lo hi Hc A H).
Qed.
Lemma spline_between s d periodic ncells t a b : facts s d periodic ncells t a b -> forall c x lo hi, (a <= x <= b)%R -> (forall i, 0 <= i < ncells + d -> (lo <= c i <= hi)%R) ->
  (lo <= spline t b d ncells c x <= hi)%R.
Proof.
  intros F c x lo hi Hx H. destruct (exists_cell _ _ _ _ _ _ _ F x Hx) as (k & Hk). rewrite (spline_is_piece _ _ _ _ _ _ _ F k c x Hk). rewrite <- (pieces_0 _ _ _ _ _ _ _ F c k x (proj1 Hk)).
  pose proof (f_d _ _ _ _ _ _ _ F). apply (pieces_between _ _ _ _ _ _ _ F c 0 k x lo hi); [lia | apply (cell_at _ _ _ _ _ _ _ F); exact Hk|]. intros i Hi. cbn [dcoef]. apply H. destruct Hk as [Hk _]. lia.
Qed.
Theorem between : forall s d periodic ncells t a b, spline_space s d periodic ncells t a b ->
  forall m lower upper (coef : chunk_1d RA) x lo hi, has_coefficients coef (ncells + d) -> (forall i, 0 <= i < ncells + d -> (lo <= coefficient coef i <= hi)%R) ->
  (if periodic then periodic_coefficients (coefficient coef) d ncells else (a <= x <= b)%R) -> exists v : R, eval RA s m lower upper x coef = Ok v /\ (lo <= v <= hi)%R.
Proof.
  intros s d periodic ncells t a b S m lower upper coef x lo hi Hc H Hx. pose proof (space_facts _ _ _ _ _ _ _ S) as F. destruct periodic.
  - destruct (wrap _ _ _ _ _ _ F x) as (y & q & Hy & E). exists (spline t b d ncells (coefficient coef) y). split.
    + apply (eval_periodic_ok _ _ _ _ _ _ _ F m lower upper coef x y q eq_refl Hc Hx); [lra | exact E].
    + apply (spline_between _ _ _ _ _ _ _ F); [lra | exact H].
  - exists (spline t b d ncells (coefficient coef) x). split; [apply (eval_inside_ok _ _ _ _ _ _ _ F); assumption | apply (spline_between _ _ _ _ _ _ _ F); assumption].
Qed.
Theorem stable : forall s d periodic ncells t a b, spline_space s d periodic ncells t a b ->
  forall m lower upper (c1 c2 : chunk_1d RA) k x eps, has_coefficients c1 (ncells + d) -> has_coefficients c2 (ncells + d) -> d <= k < d + ncells -> (t k <= x <= t (k + 1)%Z)%R ->
  (forall i, k - d <= i <= k -> (Rabs (coefficient c1 i - coefficient c2 i) <= eps)%R) ->
  exists v1 v2 : R, eval RA s m lower upper x c1 = Ok v1 /\ eval RA s m lower upper x c2 = Ok v2 /\ (Rabs (v1 - v2) <= eps)%R.
Proof.
  intros s d periodic ncells t a b S m lower upper c1 c2 k x eps H1 H2 Hk Hx H. pose proof (space_facts _ _ _ _ _ _ _ S) as F. pose proof (f_d _ _ _ _ _ _ _ F) as Hd.
  assert (A : at_ t d (d + ncells) k x) by (split; assumption). pose proof (at_inside _ _ _ _ _ _ _ F x k A) as Hi.
  exists (pieces t d (coefficient c1) 0 k x), (pieces t d (coefficient c2) 0 k x). rewrite !(inside_same _ _ _ _ _ _ _ S m lower upper _ x) by assumption.
  split; [exact (eval_closed _ _ _ _ _ _ _ F m c1 x 0 k H1 (order_0 d ltac:(lia)) ltac:(lia) A)|]. split; [exact (eval_closed _ _ _ _ _ _ _ F m c2 x 0 k H2 (order_0 d ltac:(lia)) ltac:(lia) A)|].
  rewrite <- pieces_minus. apply Rabs_le. apply (pieces_between _ _ _ _ _ _ _ F _ 0 k x (- eps) eps); [lia | exact A|]. intros i Hi'. cbn [dcoef].
  assert (B : (Rabs (coefficient c1 i - coefficient c2 i) <= eps)%R) by (apply H; lia). split_Rabs; lra.
Qed.
Theorem local : forall s d periodic ncells t a b, spline_space s d periodic ncells t a b ->
  forall m m' (c1 c2 : chunk_1d RA) k x o, has_coefficients c1 (ncells + d) -> has_coefficients c2 (ncells + d) -> d <= k < d + ncells ->
  (t k <= x < t (k + 1)%Z)%R \/ (x = b /\ k = d + ncells - 1) -> order_allowed d o ->
  (forall i, k - d <= i <= k -> coefficient c1 i = coefficient c2 i) -> eval_no_bc RA s m (requested o) x c1 = eval_no_bc RA s m' (requested o) x c2.
Proof.
  intros s d periodic ncells t a b S m m' c1 c2 k x o H1 H2 Hk Hx Ho H. apply (eval_local _ _ _ _ _ _ _ (space_facts _ _ _ _ _ _ _ S) m m' c1 c2 x k o H1 H2); [split; assumption | exact Ho | exact H].
Qed.
Theorem support : forall s d periodic ncells t a b, spline_space s d periodic ncells t a b ->
  forall m m' (c1 c2 : chunk_1d RA) j x o, has_coefficients c1 (ncells + d) -> has_coefficients c2 (ncells + d) -> (a <= x <= b)%R -> order_allowed d o ->
  (forall i, 0 <= i < ncells + d -> i <> j -> coefficient c1 i = coefficient c2 i) -> (x < t j \/ t (j + d + 1)%Z < x)%R ->
  eval_no_bc RA s m (requested o) x c1 = eval_no_bc RA s m' (requested o) x c2.
Proof.
  intros s d periodic ncells t a b S m m' c1 c2 j x o H1 H2 Hx Ho H Hout. pose proof (space_facts _ _ _ _ _ _ _ S) as F. destruct (exists_cell _ _ _ _ _ _ _ F x Hx) as (k & Hk).
  apply (eval_local _ _ _ _ _ _ _ F m m' c1 c2 x k o H1 H2 Hk Ho). intros i Hi. pose proof (cell_closed _ _ _ _ _ _ _ F x k Hk) as C. destruct Hk as [Hk _]. apply H; [lia|]. intros ->.
  pose proof (f_mono _ _ _ _ _ _ _ F j k ltac:(lia)). pose proof (f_mono _ _ _ _ _ _ _ F (k + 1) (j + d + 1) ltac:(lia)). lra.
Qed.
Theorem growth : forall s d periodic ncells t a b, spline_space s d periodic ncells t a b ->
  forall m lower upper (coef : chunk_1d RA) x y lo hi, has_coefficients coef (ncells + d) -> (a <= x <= y)%R -> (y <= b)%R ->
  (forall i, 1 <= i < ncells + d -> (lo <= slope t d (coefficient coef) i <= hi)%R) ->
  exists vx vy : R, eval RA s m lower upper x coef = Ok vx /\ eval RA s m lower upper y coef = Ok vy /\ (lo * (y - x) <= vy - vx <= hi * (y - x))%R.
Proof.
  intros s d periodic ncells t a b S m lower upper coef x y lo hi Hc Hx Hy H. pose proof (space_facts _ _ _ _ _ _ _ S) as F. rewrite !(inside_same _ _ _ _ _ _ _ S m lower upper coef) by (assumption || lra).
  pose proof (eval_no_bc_ok _ _ _ _ _ _ _ F m coef x Hc ltac:(lra)) as Ex. pose proof (eval_no_bc_ok _ _ _ _ _ _ _ F m coef y Hc ltac:(lra)) as Ey.
  eexists. eexists. split; [exact Ex|]. split; [exact Ey|]. exact (eval_rate _ _ _ _ _ _ _ F m coef x y _ _ lo hi Hc Hx Hy H Ex Ey).
Qed.
Lemma some_bound (f : Z -> R) n : exists M, forall i, 0 <= i < n -> (f i <= M)%R.
Proof.
  assert (K : forall n, exists M, forall i, 0 <= i < Z.of_nat n -> (f i <= M)%R).
  { induction n0 as [|m IH]; [exists 0%R; intros; lia|]. destruct IH as (M & HM). exists (Rmax M (f (Z.of_nat m))). intros i Hi.
    destruct (Z.eq_dec i (Z.of_nat m)) as [->|Hne]; [apply Rmax_r | eapply Rle_trans; [apply HM; lia | apply Rmax_l]]. }
  destruct (K (Z.to_nat n)) as (M & HM). exists M. intros i Hi. apply HM. lia.
Qed.
Theorem nondecreasing : forall s d periodic ncells t a b, spline_space s d periodic ncells t a b ->
  forall m lower upper (coef : chunk_1d RA) x y, has_coefficients coef (ncells + d) -> (a <= x <= y)%R -> (y <= b)%R ->
  (forall i, 1 <= i < ncells + d -> (coefficient coef (i - 1) <= coefficient coef i)%R) ->
  exists vx vy : R, eval RA s m lower upper x coef = Ok vx /\ eval RA s m lower upper y coef = Ok vy /\ (vx <= vy)%R.
Proof.
  intros s d periodic ncells t a b S m lower upper coef x y Hc Hx Hy H. pose proof (space_facts _ _ _ _ _ _ _ S) as F. destruct (some_bound (slope t d (coefficient coef)) (ncells + d)) as (M & HM).
  destruct (growth _ _ _ _ _ _ _ S m lower upper coef x y 0 M Hc Hx Hy) as (vx & vy & E1 & E2 & E3).
  - intros i Hi. split; [|apply HM; lia]. unfold slope. pose proof (knots_apart _ _ _ _ _ _ _ F i Hi). pose proof (f_d _ _ _ _ _ _ _ F). pose proof (H i Hi).
    apply Rmult_le_pos; [apply Rmult_le_pos; [apply IZR_le; lia | lra] | left; apply Rinv_0_lt_compat; lra].
  - exists vx, vy. split; [exact E1|]. split; [exact E2 | lra].
Qed.
Theorem derivative_between : forall s d periodic ncells t a b, spline_space s d periodic ncells t a b ->
  forall m (coef : chunk_1d RA) x lo hi, has_coefficients coef (ncells + d) -> (a <= x <= b)%R ->
  (forall i, 1 <= i < ncells + d -> (lo <= slope t d (coefficient coef) i <= hi)%R) -> exists v : R, eval_no_bc RA s m (Some 1) x coef = Ok v /\ (lo <= v <= hi)%R.
Proof.
  intros s d periodic ncells t a b S m coef x lo hi Hc Hx H. pose proof (space_facts _ _ _ _ _ _ _ S) as F. apply (eval_deriv_between _ _ _ _ _ _ _ F m coef x lo hi Hc Hx H).
  pose proof (f_big _ _ _ _ _ _ _ F). pose proof (f_d _ _ _ _ _ _ _ F). pose proof (f_n _ _ _ _ _ _ _ F). lia.
Qed.
Theorem convex : forall s d periodic ncells t a b, spline_space s d periodic ncells t a b ->
  forall m lower upper (coef : chunk_1d RA) x y u, has_coefficients coef (ncells + d) -> (a <= x <= b)%R -> (a <= y <= b)%R -> (0 <= u <= 1)%R ->
  (forall i, 1 <= i < ncells + d - 1 -> (slope t d (coefficient coef) i <= slope t d (coefficient coef) (i + 1))%R) ->
  exists vx vy vz : R, eval RA s m lower upper x coef = Ok vx /\ eval RA s m lower upper y coef = Ok vy /\ eval RA s m lower upper (u * x + (1 - u) * y)%R coef = Ok vz /\
    (vz <= u * vx + (1 - u) * vy)%R.
Proof.
  intros s d periodic ncells t a b S m lower upper coef x y u Hc Hx Hy Hu H. pose proof (space_facts _ _ _ _ _ _ _ S) as F.
  assert (Hz : (a <= u * x + (1 - u) * y <= b)%R).
  { destruct Hx as [X1 X2], Hy as [Y1 Y2]. pose proof (Rmult_le_compat_l u _ _ ltac:(lra) X1). pose proof (Rmult_le_compat_l u _ _ ltac:(lra) X2).
    pose proof (Rmult_le_compat_l (1 - u) _ _ ltac:(lra) Y1). pose proof (Rmult_le_compat_l (1 - u) _ _ ltac:(lra) Y2). lra. }
  rewrite !(inside_same _ _ _ _ _ _ _ S m lower upper coef) by assumption.
  pose proof (eval_no_bc_ok _ _ _ _ _ _ _ F m coef x Hc Hx) as Ex. pose proof (eval_no_bc_ok _ _ _ _ _ _ _ F m coef y Hc Hy) as Ey. pose proof (eval_no_bc_ok _ _ _ _ _ _ _ F m coef _ Hc Hz) as Ez.
  eexists. eexists. eexists. split; [exact Ex|]. split; [exact Ey|]. split; [exact Ez|]. exact (eval_convex _ _ _ _ _ _ _ F m coef x y u _ _ _ Hc Hx Hy Hu H Ex Ey Ez).
Qed.
Theorem smooth_inside : forall s d periodic ncells t a b, spline_space s d periodic ncells t a b ->
  forall m (coef : chunk_1d RA) o (f : R -> R), has_coefficients coef (ncells + d) -> 0 <= o < d -> order_allowed d o ->
  (forall y, (a <= y <= b)%R -> eval_no_bc RA s m (requested o) y coef = Ok (f y : num RA)) -> forall x, (a < x < b)%R ->
  continuity_pt f x /\
  (order_allowed d (o + 1) -> o + 1 < d \/ ~ is_knot t x -> exists v : R, eval_no_bc RA s m (requested (o + 1)) x coef = Ok v /\ derivable_pt_lim f x v).
Proof.
  intros s d periodic ncells t a b S m coef o f Hc Ho Ha Hf x Hx. pose proof (space_facts _ _ _ _ _ _ _ S) as F. split; [apply (eval_continuous _ _ _ _ _ _ _ F m coef o f x Hc Ha); [lia | exact Hf | exact Hx]|].
  intros Ha' Hk. apply (eval_derivable _ _ _ _ _ _ _ F m coef o f x Hc Ha'); [lia | exact Hf | exact Hx | exact Hk].
Qed.

(** ** periodic splines *)
Definition order_function (s : bspline_space RA) (m : scratch RA) (coef : chunk_1d RA) (a b : R) (o : Z) (x : R) : R :=
  match eval_no_bc RA s m (requested o) (x - IZR (up ((x - a) / (b - a)) - 1) * (b - a))%R coef with Ok v => v | _ => 0%R end.
Lemma up_wrap a b y q : (a <= y < b)%R -> up ((y + IZR q * (b - a) - a) / (b - a)) - 1 = q.
Proof.
  intros Hy. assert (E : ((y + IZR q * (b - a) - a) / (b - a) = (y - a) / (b - a) + IZR q)%R) by (field; lra). rewrite E.
  assert (W : (0 <= (y - a) / (b - a) < 1)%R). { split; [apply Rmult_le_pos; [lra | left; apply Rinv_0_lt_compat; lra]|]. apply (Rmult_lt_reg_r (b - a)); [lra|]. unfold Rdiv. rewrite Rmult_assoc, Rinv_l by lra. lra. }
  rewrite <- (tech_up ((y - a) / (b - a) + IZR q) (q + 1)); [lia | rewrite plus_IZR; lra | rewrite plus_IZR; lra].
Qed.
Theorem periodic_smooth : forall s d ncells t a b, spline_space s d true ncells t a b ->
  forall m lower upper (coef : chunk_1d RA), has_coefficients coef (ncells + d) -> periodic_coefficients (coefficient coef) d ncells ->
  exists f : Z -> R -> R,
    (forall x, eval RA s m lower upper x coef = Ok (f 0 x : num RA)) /\
    (forall o y q, order_allowed d o -> (a <= y < b)%R \/ (o < d /\ y = b) -> eval_no_bc RA s m (requested o) y coef = Ok (f o (y + IZR q * (b - a))%R : num RA)) /\
    (forall o, order_allowed d o -> o < d -> continuity (f o)) /\
    (forall o x, 0 <= o -> order_allowed d (o + 1) -> o + 1 < d \/ ~ is_knot t x -> derivable_pt_lim (f o) x (f (o + 1) x)).
Proof.
  intros s d ncells t a b S m lower upper coef Hc Hp. pose proof (space_facts _ _ _ _ _ _ _ S) as F. pose proof (f_ab _ _ _ _ _ _ _ F) as Hab. pose proof (f_d _ _ _ _ _ _ _ F) as Hd.
  set (f := order_function s m coef a b). exists f.
  assert (V : forall o y q, order_allowed d o -> (a <= y < b)%R -> eval_no_bc RA s m (requested o) y coef = Ok (f o (y + IZR q * (b - a))%R : num RA)).
  { intros o y q Ho Hy. unfold f, order_function. rewrite (up_wrap a b y q Hy). replace (y + IZR q * (b - a) - IZR q * (b - a))%R with y by ring.
    destruct (eval_piece _ _ _ _ _ _ _ F m coef y o Hc ltac:(lra) Ho) as (k & _ & E). rewrite E. reflexivity. }
  assert (V' : forall o y q, order_allowed d o -> (a <= y < b)%R \/ (o < d /\ y = b) -> eval_no_bc RA s m (requested o) y coef = Ok (f o (y + IZR q * (b - a))%R : num RA)).
  { intros o y q Ho [Hy|[Hlt ->]]; [apply V; assumption|]. rewrite (ends_agree _ _ _ _ _ _ F coef Hc Hp m o b q a (q + 1) Ho Hlt) by (rewrite ?plus_IZR; lra).
    rewrite (V o a (q + 1) Ho ltac:(lra)). replace (a + IZR (q + 1) * (b - a))%R with (b + IZR q * (b - a))%R by (rewrite plus_IZR; ring). reflexivity. }
  assert (V2 : forall o y q, order_allowed d o -> o < d -> (a <= y <= b)%R -> eval_no_bc RA s m (requested o) y coef = Ok (f o (y + IZR q * (b - a))%R : num RA)).
  { intros o y q Ho Hlt Hy. apply V'; [exact Ho|]. destruct (Req_dec y b) as [E|E]; [right; split; assumption | left; lra]. }
  split; [|split; [exact V' | split]].
  - intros x. destruct (wrap _ _ _ _ _ _ F x) as (y & q & Hy & ->). rewrite (eval_periodic_ok _ _ _ _ _ _ _ F m lower upper coef (y + IZR q * (b - a))%R y q eq_refl Hc Hp ltac:(lra) eq_refl).
    rewrite <- (eval_no_bc_ok _ _ _ _ _ _ _ F m coef y Hc ltac:(lra)). exact (V 0 y q (order_0 d ltac:(lia)) Hy).
  - intros o Ho Hlt. apply (periodic_continuous _ _ _ _ _ _ F coef Hc Hp m o (f o) Ho Hlt). intros y q Hy. apply V2; assumption.
  - intros o x H0 Ho Hs. apply (periodic_derivable _ _ _ _ _ _ F coef Hc Hp m o (f o) (f (o + 1)) x Ho H0 Hs).
    + intros y q Hy. apply V2; [|destruct Ho; lia | exact Hy]. destruct Ho as [O1 O2]. split; [lia|].
      pose proof (BuilderTheorems.falling_mono d (Z.to_nat o) (Z.to_nat (o + 1)) ltac:(lia) ltac:(lia) ltac:(lia)). lia.
    + intros y q Hy. apply V; [exact Ho | exact Hy].
Qed.

(** ** extrapolation *)
Theorem constant_continuous : forall s d ncells t a b, spline_space s d false ncells t a b ->
  forall m (coef : chunk_1d RA) (f : R -> R), has_coefficients coef (ncells + d) ->
  (forall x, eval RA s m (constant_rule RA s m a) (constant_rule RA s m b) x coef = Ok (f x : num RA)) -> continuity f.
Proof.
  intros s d ncells t a b S m coef f Hc Hf. pose proof (space_facts _ _ _ _ _ _ _ S) as F. pose proof (f_ab _ _ _ _ _ _ _ F) as Hab.
  pose proof (Hf a) as Ea. pose proof (Hf b) as Eb. rewrite (eval_inside_ok _ _ _ _ _ _ _ F) in Ea by (assumption || lra). rewrite (eval_inside_ok _ _ _ _ _ _ _ F) in Eb by (assumption || lra).
  apply ok_inj in Ea. apply ok_inj in Eb.
  apply (open_continuous _ _ _ _ _ _ F coef m (constant_rule RA s m a) (constant_rule RA s m b) (f a) (f b) f Hc); [| | exact Hf | reflexivity | reflexivity].
  - intros x. rewrite <- Ea. apply (constant_rule_ok _ _ _ _ _ _ _ F m coef a x Hc). lra.
  - intros x. rewrite <- Eb. apply (constant_rule_ok _ _ _ _ _ _ _ F m coef b x Hc). lra.
Qed.
Theorem null_continuous : forall s d ncells t a b, spline_space s d false ncells t a b ->
  forall m (coef : chunk_1d RA) (f : R -> R), has_coefficients coef (ncells + d) -> (forall x, eval RA s m (null_rule RA) (null_rule RA) x coef = Ok (f x : num RA)) ->
  continuity f <-> f a = 0%R /\ f b = 0%R.
Proof.
  intros s d ncells t a b S m coef f Hc Hf. pose proof (space_facts _ _ _ _ _ _ _ S) as F.
  apply (open_continuous_iff _ _ _ _ _ _ F coef m (null_rule RA) (null_rule RA) 0%R 0%R f Hc); [reflexivity | reflexivity | exact Hf].
Qed.

(** ** builders *)
Theorem builder_linear : forall A, posed A -> forall solver s bd X, builder_for solver s A bd -> exact_solvers X ->
  forall (u w : R) v1 v2 v3 dl1 dl2 dl3 du1 du2 du3,
  (forall i, 0 <= i < ax_points A -> a_at v3 i = (u * a_at v1 i + w * a_at v2 i)%R) ->
  (forall i, asked (ax_lower A) dl3 i = (u * asked (ax_lower A) dl1 i + w * asked (ax_lower A) dl2 i)%R) ->
  (forall i, asked (ax_upper A) du3 i = (u * asked (ax_upper A) du1 i + w * asked (ax_upper A) du2 i)%R) ->
  forall junk1 junk2 junk3 sp1 sp2 sp3 c1 c2 c3, has_coefficients sp1 (ax_size A) -> has_coefficients sp2 (ax_size A) -> has_coefficients sp3 (ax_size A) ->
  build RA s (ax_lower A) (ax_upper A) X bd junk1 sp1 v1 dl1 du1 = Ok c1 -> build RA s (ax_lower A) (ax_upper A) X bd junk2 sp2 v2 dl2 du2 = Ok c2 ->
  build RA s (ax_lower A) (ax_upper A) X bd junk3 sp3 v3 dl3 du3 = Ok c3 ->
  forall i, 0 <= i < ax_size A -> coefficient c3 i = (u * coefficient c1 i + w * coefficient c2 i)%R.
Proof.
  intros A P solver s bd X B HX u w v1 v2 v3 dl1 dl2 dl3 du1 du2 du3 Hv Hl Hu junk1 junk2 junk3 sp1 sp2 sp3 c1 c2 c3 S1 S2 S3 R1 R2 R3.
  destruct (builder_exact _ _ _ _ _ B HX _ _ _ _ _ _ S1 R1) as [_ (V1 & D1 & P1)]. destruct (builder_exact _ _ _ _ _ B HX _ _ _ _ _ _ S2 R2) as [_ (V2 & D2 & P2)].
  destruct (builder_exact _ _ _ _ _ B HX _ _ _ _ _ _ S3 R3) as [_ I3].
  apply (posed_determined A P _ _ _ (fun i => u * coefficient c1 i + w * coefficient c2 i)%R I3).
  assert (L : forall n (g : Z -> R), sum_first n (fun i => (u * coefficient c1 i + w * coefficient c2 i) * g i)%R =
    (u * sum_first n (fun i => coefficient c1 i * g i) + w * sum_first n (fun i => coefficient c2 i * g i))%R).
  { intros n g. induction n as [|n IH]; cbn [sum_first]; [ring | rewrite IH; ring]. }
  split; [|split].
  - intros i Hi. etransitivity; [|symmetry; exact (Hv i Hi)]. pose proof (V1 i Hi) as W1. pose proof (V2 i Hi) as W2. unfold spline_1d, spline in *. rewrite L. rewrite W1, W2. reflexivity.
  - intros e i Hi. destruct (D1 e i Hi) as (g1 & N1 & G1). destruct (D2 e i Hi) as (g2 & N2 & G2). exists (fun x => u * g1 x + w * g2 x)%R. split.
    + eapply nth_derivative_ext; [| |apply nd_plus; apply nd_scal; [exact N1 | exact N2]].
      * intros x. unfold spline_piece. rewrite L. reflexivity.
      * intros x. reflexivity.
    + rewrite G1, G2. destruct e; [symmetry; apply Hl | symmetry; apply Hu].
  - intros Hp i Hi. rewrite (P1 Hp i Hi), (P2 Hp i Hi). reflexivity.
Qed.

(** ** any number of dimensions *)
Theorem between_nd : forall dims As, spaces_of dims As -> forall rules xs (c : chunk_nd RA) lo hi, length rules = length dims -> has_coefficients_nd c (map ax_size As) -> Forall2 SplineNDSpec.inside As xs ->
  (forall is, Forall2 (fun A i => 0 <= i < ax_size A) As is -> (lo <= coefficient_nd c is <= hi)%R) ->
  exists v : R, eval_nd RA dims rules xs c = Ok v /\ (lo <= v <= hi)%R.
Proof.
  intros dims As HS rules xs c lo hi Hr Hc Hx H. exists (spline_nd As (coefficient_nd c) xs). split; [apply eval_nd_inside; assumption|].
  clear Hr Hc rules. generalize dependent (coefficient_nd c). clear c. revert xs Hx. induction HS as [|dm A dims As HA HS IH]; intros xs Hx c H.
  - inversion Hx; subst. unfold spline_nd. cbn. apply H. constructor.
  - inversion Hx as [|? x ? xs' Hin Hrest]; subst. unfold spline_nd. cbn [combine map tensor_nd].
    apply (spline_between _ _ _ _ _ _ _ (space_facts _ _ _ _ _ _ _ HA) (fun i => tensor_nd (map (fun '(A0, x0) => (ax_size A0, fun i => basis A0 i x0)) (combine As xs')) (fun is => c (i :: is))) x lo hi Hin).
    intros i Hi. apply (IH xs' Hrest (fun is => c (i :: is))). intros is His. apply H. constructor; assumption.
Qed.
