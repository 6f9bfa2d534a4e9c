(** Evaluated splines on the whole real line: periodic splines and extrapolation. *)
From Coq Require Import Bool Reals ZArith Lia Lra ZifyBool.
From Verif Require Import BSplineSpec BSplineMath BSplineDeriv SplineZeros SplineTower SplineUnique SplineUniquePeriodic SplineComplete.
From Verif Require Import EvaluatorSpec EvaluatorSpace EvaluatorProofs EvaluatorLemmas BuilderTheorems WellPosedProofs ShapeSpec ShapeTower ShapeProofs.
Local Open Scope Z_scope.

Lemma ok_inj (u v : R) : @Ok (num RA) u = Ok v -> u = v. Proof. congruence. Qed.

Section Periodic.
Context (s : bspline_space RA) (d ncells : Z) (t : Z -> R) (a b : R).
Hypothesis F : facts s d true ncells t a b.
Context (coef : chunk_1d RA).
Hypothesis Hc : has_coefficients coef (ncells + d).
Hypothesis Hp : periodic_coefficients (coefficient coef) d ncells.
Let cm (i : Z) : R := coefficient coef (i mod ncells).
Lemma cm_period q i : cm (i + q * ncells) = cm i.
Proof. unfold cm. destruct (per_mod _ _ _ _ _ _ F i q) as [-> _]. reflexivity. Qed.
Lemma cm_pieces l k x : d <= k < d + ncells -> Z.of_nat l <= d -> pieces t d (coefficient coef) l k x = pieces t d cm l k x.
Proof. intros Hk Hl. apply pieces_ext; [exact Hl|]. intros j Hj. unfold cm. symmetry. apply (coefficient_mod _ _ _ _ _ _ F _ Hp). lia. Qed.
Lemma cm_tower lo hi : tower (Z.to_nat d) t (pieces t d cm) lo hi.
Proof. apply spline_tower; [exact (f_d _ _ _ _ _ _ _ F) | exact (f_mono _ _ _ _ _ _ _ F) | intros; apply (per_cells _ _ _ _ _ _ F)]. Qed.
Lemma wrap x : exists y q, (a <= y < b)%R /\ (x = y + IZR q * (b - a))%R.
Proof.
  pose proof (f_ab _ _ _ _ _ _ _ F) as Hab. pose proof (archimed ((x - a) / (b - a))) as [A1 A2]. set (q := up ((x - a) / (b - a)) - 1). exists (x - IZR q * (b - a))%R, q.
  assert (Q : (IZR q = IZR (up ((x - a) / (b - a))) - 1)%R) by (unfold q; rewrite minus_IZR; reflexivity).
  assert (E : ((x - a) = (x - a) / (b - a) * (b - a))%R) by (field; lra). set (w := ((x - a) / (b - a))%R) in *.
  pose proof (Rmult_le_compat_r (b - a) (IZR q) w ltac:(lra) ltac:(lra)). pose proof (Rmult_lt_compat_r (b - a) w (IZR q + 1) ltac:(lra) ltac:(lra)). split; [lra | ring].
Qed.
(** A periodic function made of the evaluations of order o is the piece of any cell, in any period. *)
Lemma all_cells m o (f : R -> R) : order_allowed d o -> o < d ->
  (forall y q, (a <= y <= b)%R -> eval_no_bc RA s m (requested o) y coef = Ok (f (y + IZR q * (b - a))%R : num RA)) ->
  forall k x, (t k <= x <= t (k + 1))%R -> f x = pieces t d cm (Z.to_nat o) k x.
Proof.
  intros Ho Hlt Hf k x Hx. destruct (wrap x) as (y & q & Hy & ->). destruct (eval_piece _ _ _ _ _ _ _ F m coef y o Hc ltac:(lra) Ho) as (k' & Hk' & E).
  rewrite (Hf y q ltac:(lra)) in E. apply ok_inj in E. rewrite E. pose proof (cell_closed _ _ _ _ _ _ _ F y k' Hk') as Hcl. destruct Hk' as [Hk' _].
  rewrite cm_pieces by (destruct Ho; lia). rewrite <- (p_pieces t d cm (Z.to_nat o) (IZR q * (b - a)) (q * ncells) (per_knots _ _ _ _ _ _ F q) (cm_period q) k' y).
  set (lo := Z.min k (k' + q * ncells)). set (hi := Z.max k (k' + q * ncells) + 1).
  apply (at_same _ _ _ _ _ (cm_tower lo hi)); [destruct Ho; lia | | split; [lia | exact Hx]].
  split; [lia|]. replace (k' + q * ncells + 1) with (k' + 1 + q * ncells) by lia. rewrite !(per_knots _ _ _ _ _ _ F). lra.
Qed.
Lemma cell_of x : exists k, (t k <= x < t (k + 1))%R.
Proof.
  destruct (wrap x) as (y & q & Hy & ->). destruct (exists_cell _ _ _ _ _ _ _ F y ltac:(lra)) as (k & Hk). exists (k + q * ncells).
  replace (k + q * ncells + 1) with (k + 1 + q * ncells) by lia. rewrite !(per_knots _ _ _ _ _ _ F). destruct Hk as [_ [Hk|[Hk _]]]; lra.
Qed.
Lemma periodic_continuous m o (f : R -> R) : order_allowed d o -> o < d ->
  (forall y q, (a <= y <= b)%R -> eval_no_bc RA s m (requested o) y coef = Ok (f (y + IZR q * (b - a))%R : num RA)) -> continuity f.
Proof.
  intros Ho Hlt Hf x. destruct (cell_of x) as (k & Hk). pose proof (per_cells _ _ _ _ _ _ F (k - 1)) as K1. replace (k - 1 + 1) with k in K1 by lia.
  apply (tower_continuous _ _ _ _ _ (cm_tower (k - 1) (k + 1)) (Z.to_nat o)); [destruct Ho; lia | | lra | lia].
  intros j y [_ Hy]. apply (all_cells m o f Ho Hlt Hf). exact Hy.
Qed.
Lemma periodic_derivable m o (f g : R -> R) x : order_allowed d (o + 1) -> 0 <= o -> o + 1 < d \/ ~ is_knot t x ->
  (forall y q, (a <= y <= b)%R -> eval_no_bc RA s m (requested o) y coef = Ok (f (y + IZR q * (b - a))%R : num RA)) ->
  (forall y q, (a <= y < b)%R -> eval_no_bc RA s m (requested (o + 1)) y coef = Ok (g (y + IZR q * (b - a))%R : num RA)) ->
  derivable_pt_lim f x (g x).
Proof.
  intros Ho H0 Hs Hf Hg. assert (Ho' : order_allowed d o).
  { destruct Ho as [H1 H2]. split; [lia|]. pose proof (falling_mono d (Z.to_nat o) (Z.to_nat (o + 1)) ltac:(lia) ltac:(lia) ltac:(lia)). lia. }
  destruct (wrap x) as (y & q & Hy & Ex). destruct (eval_piece _ _ _ _ _ _ _ F m coef y (o + 1) Hc ltac:(lra) Ho) as (k' & Hk' & E).
  rewrite (Hg y q ltac:(lra)) in E. apply ok_inj in E. rewrite <- Ex in E. rewrite E. pose proof (cell_closed _ _ _ _ _ _ _ F y k' Hk') as Hcl. destruct Hk' as [Hk' Hin].
  rewrite cm_pieces by (destruct Ho; lia). rewrite <- (p_pieces t d cm (Z.to_nat (o + 1)) (IZR q * (b - a)) (q * ncells) (per_knots _ _ _ _ _ _ F q) (cm_period q) k' y). rewrite <- Ex.
  set (k := k' + q * ncells). assert (Hk : (t k <= x < t (k + 1))%R).
  { unfold k. replace (k' + q * ncells + 1) with (k' + 1 + q * ncells) by lia. rewrite !(per_knots _ _ _ _ _ _ F). destruct Hin as [Hin|[Hin _]]; lra. }
  pose proof (per_cells _ _ _ _ _ _ F (k - 1)) as K1. replace (k - 1 + 1) with k in K1 by lia. replace (Z.to_nat (o + 1)) with (S (Z.to_nat o)) by lia.
  apply (tower_derivable _ _ _ _ _ (cm_tower (k - 1) (k + 1)) (Z.to_nat o)); [destruct Ho; lia | | lra | split; [lia | lra] |].
  - intros j z [_ Hz]. apply (all_cells m o f Ho' ltac:(destruct Ho; lia) Hf). exact Hz.
  - destruct Hs as [Hs|Hs]; [left; destruct Ho; lia | right; intros j Hj; apply Hs; exists j; exact Hj].
Qed.
(** The evaluated function is the periodic function of order 0. *)
Lemma eval_all m lower upper (f : R -> R) : (forall x, eval RA s m lower upper x coef = Ok (f x : num RA)) ->
  forall y q, (a <= y <= b)%R -> eval_no_bc RA s m (requested 0) y coef = Ok (f (y + IZR q * (b - a))%R : num RA).
Proof.
  intros Hf y q Hy. rewrite <- Hf. rewrite (eval_periodic_ok _ _ _ _ _ _ _ F m lower upper coef (y + IZR q * (b - a))%R y q eq_refl Hc Hp Hy eq_refl).
  exact (eval_no_bc_ok _ _ _ _ _ _ _ F m coef y Hc Hy).
Qed.
(** Evaluations of the end points agree, for derivatives that are continuous. *)
Lemma ends_agree m o y q y' q' : order_allowed d o -> o < d -> (a <= y <= b)%R -> (a <= y' <= b)%R -> (y + IZR q * (b - a) = y' + IZR q' * (b - a))%R ->
  eval_no_bc RA s m (requested o) y coef = eval_no_bc RA s m (requested o) y' coef.
Proof.
  intros Ho Hlt Hy Hy' E. destruct (eval_piece _ _ _ _ _ _ _ F m coef y o Hc Hy Ho) as (k & Hk & ->). destruct (eval_piece _ _ _ _ _ _ _ F m coef y' o Hc Hy' Ho) as (k' & Hk' & ->).
  assert (V : pieces t d (coefficient coef) (Z.to_nat o) k y = pieces t d (coefficient coef) (Z.to_nat o) k' y'); [|rewrite V; reflexivity].
  pose proof (cell_closed _ _ _ _ _ _ _ F y k Hk) as C1. pose proof (cell_closed _ _ _ _ _ _ _ F y' k' Hk') as C2. destruct Hk as [Hk _], Hk' as [Hk' _].
  rewrite !cm_pieces by (destruct Ho; lia).
  rewrite <- (p_pieces t d cm (Z.to_nat o) (IZR q * (b - a)) (q * ncells) (per_knots _ _ _ _ _ _ F q) (cm_period q) k y).
  rewrite <- (p_pieces t d cm (Z.to_nat o) (IZR q' * (b - a)) (q' * ncells) (per_knots _ _ _ _ _ _ F q') (cm_period q') k' y'). rewrite <- E.
  set (lo := Z.min (k + q * ncells) (k' + q' * ncells)). set (hi := Z.max (k + q * ncells) (k' + q' * ncells) + 1).
  apply (at_same _ _ _ _ _ (cm_tower lo hi)); [destruct Ho; lia | |]; (split; [lia|]).
  - replace (k + q * ncells + 1) with (k + 1 + q * ncells) by lia. rewrite !(per_knots _ _ _ _ _ _ F). lra.
  - replace (k' + q' * ncells + 1) with (k' + 1 + q' * ncells) by lia. rewrite !(per_knots _ _ _ _ _ _ F). lra.
Qed.
End Periodic.

(** ** extrapolation *)
Section Open.
Context (s : bspline_space RA) (d ncells : Z) (t : Z -> R) (a b : R).
Hypothesis F : facts s d false ncells t a b.
Context (coef : chunk_1d RA) (m : scratch RA) (lower upper : R -> chunk_1d RA -> res (num RA)) (vl vu : R) (f : R -> R).
Hypothesis Hc : has_coefficients coef (ncells + d).
Hypothesis Hlow : forall x, lower x coef = Ok (vl : num RA).
Hypothesis Hupp : forall x, upper x coef = Ok (vu : num RA).
Hypothesis Hf : forall x, eval RA s m lower upper x coef = Ok (f x : num RA).
Let P := pieces t d (coefficient coef) 0.
Lemma f_below x : (x < a)%R -> f x = vl.
Proof. intros H. pose proof (Hf x) as E. rewrite (proj1 (eval_outside_ok _ _ _ _ _ _ _ F m lower upper coef x eq_refl) H), Hlow in E. apply ok_inj in E. symmetry. exact E. Qed.
Lemma f_above x : (b < x)%R -> f x = vu.
Proof. intros H. pose proof (Hf x) as E. rewrite (proj2 (eval_outside_ok _ _ _ _ _ _ _ F m lower upper coef x eq_refl) H), Hupp in E. apply ok_inj in E. symmetry. exact E. Qed.
Lemma f_inside k x : at_ t d (d + ncells) k x -> f x = P k x.
Proof.
  intros Hk. pose proof (at_inside _ _ _ _ _ _ _ F x k Hk) as Hx. pose proof (Hf x) as E. rewrite (eval_inside_ok _ _ _ _ _ _ _ F m lower upper coef x Hc Hx) in E. apply ok_inj in E. rewrite <- E.
  destruct Hk as [Hk Hkx]. rewrite (piece_closed _ _ _ _ _ _ _ F k _ x Hk Hkx). symmetry. apply (pieces_0 _ _ _ _ _ _ _ F). exact Hk.
Qed.
Lemma open_inside_continuous x : (a < x < b)%R -> continuity_pt f x.
Proof.
  intros Hx. pose proof (f_n _ _ _ _ _ _ _ F). pose proof (f_d _ _ _ _ _ _ _ F). apply (tower_continuous _ _ _ _ _ (space_tower _ _ _ _ _ _ _ F (coefficient coef)) 0); [lia | exact f_inside | | lia].
  rewrite (f_first _ _ _ _ _ _ _ F), (f_last _ _ _ _ _ _ _ F). exact Hx.
Qed.
Lemma const_continuous (v x : R) : continuity_pt (fun _ => v) x. Proof. apply continuity_pt_const. intros y z. reflexivity. Qed.
Lemma first_at : at_ t d (d + ncells) d a.
Proof. pose proof (f_n _ _ _ _ _ _ _ F). pose proof (f_cell _ _ _ _ _ _ _ F d ltac:(lia)) as K. split; [lia|]. rewrite (f_first _ _ _ _ _ _ _ F) in *. lra. Qed.
Lemma last_at : at_ t d (d + ncells) (d + ncells - 1) b.
Proof.
  pose proof (f_n _ _ _ _ _ _ _ F). pose proof (f_cell _ _ _ _ _ _ _ F (d + ncells - 1) ltac:(lia)) as K. split; [lia|]. replace (d + ncells - 1 + 1) with (d + ncells) in * by lia.
  rewrite (f_last _ _ _ _ _ _ _ F) in *. lra.
Qed.
Lemma P_continuous k x : d <= k < d + ncells -> continuity_pt (P k) x.
Proof.
  intros Hk. pose proof (f_d _ _ _ _ _ _ _ F). apply (cont_of_dpl _ _ (pieces t d (coefficient coef) 1 k x)). apply (tw_deriv _ _ _ _ _ (space_tower _ _ _ _ _ _ _ F (coefficient coef))); [lia | exact Hk].
Qed.
Lemma open_first : f a = vl -> continuity_pt f a.
Proof.
  intros E. pose proof first_at as A. pose proof (f_n _ _ _ _ _ _ _ F). pose proof (f_cell _ _ _ _ _ _ _ F d ltac:(lia)) as K. rewrite (f_first _ _ _ _ _ _ _ F) in K.
  apply (cont_glue f (fun _ => vl) (P d) a (a - 1) (t (d + 1))); [lra | | | apply const_continuous | apply P_continuous; lia].
  - intros y Hy. destruct (Req_dec y a) as [->|Hne]; [exact E | apply f_below; lra].
  - intros y Hy. apply f_inside. split; [lia|]. rewrite (f_first _ _ _ _ _ _ _ F). lra.
Qed.
Lemma open_last : f b = vu -> continuity_pt f b.
Proof.
  intros E. pose proof last_at as A. pose proof (f_n _ _ _ _ _ _ _ F). pose proof (f_cell _ _ _ _ _ _ _ F (d + ncells - 1) ltac:(lia)) as K.
  assert (Eb : t (d + ncells - 1 + 1) = b) by (replace (d + ncells - 1 + 1) with (d + ncells) by lia; apply (f_last _ _ _ _ _ _ _ F)). rewrite Eb in K.
  apply (cont_glue f (P (d + ncells - 1)) (fun _ => vu) b (t (d + ncells - 1)) (b + 1)); [lra | | | apply P_continuous; lia | apply const_continuous].
  - intros y Hy. apply f_inside. split; [lia|]. rewrite Eb. lra.
  - intros y Hy. destruct (Req_dec y b) as [->|Hne]; [exact E | apply f_above; lra].
Qed.
Lemma open_continuous : f a = vl -> f b = vu -> continuity f.
Proof.
  intros E1 E2 x. pose proof (f_ab _ _ _ _ _ _ _ F). destruct (Rtotal_order x a) as [L|[->|L]]; [| apply open_first; exact E1 |].
  - apply (cont_glue f (fun _ => vl) (fun _ => vl) x (x - 1) a); [lra | intros; apply f_below; lra | | apply const_continuous | apply const_continuous].
    intros y Hy. destruct (Req_dec y a) as [->|Hne]; [exact E1 | apply f_below; lra].
  - destruct (Rtotal_order x b) as [L'|[->|L']]; [apply open_inside_continuous; lra | apply open_last; exact E2 |].
    apply (cont_glue f (fun _ => vu) (fun _ => vu) x b (x + 1)); [lra | | intros; apply f_above; lra | apply const_continuous | apply const_continuous].
    intros y Hy. destruct (Req_dec y b) as [->|Hne]; [exact E2 | apply f_above; lra].
Qed.
(** Conversely, a rule that does not continue the value makes a jump. *)
Lemma jump (g : R -> R) x v lo hi : (lo < x < hi)%R -> continuity_pt g x -> (forall y, (lo < y < x)%R -> g y = v) \/ (forall y, (x < y < hi)%R -> g y = v) -> g x = v.
Proof.
  intros Hx Hg H. destruct (Req_dec (g x) v) as [E|E]; [exact E|]. exfalso. destruct (Hg (Rabs (g x - v))) as (del & Hdel & K); [apply Rabs_pos_lt; lra|].
  set (h := (Rmin del (Rmin (x - lo) (hi - x)) / 2)%R). pose proof (Rmin_l del (Rmin (x - lo) (hi - x))). pose proof (Rmin_r del (Rmin (x - lo) (hi - x))).
  pose proof (Rmin_l (x - lo) (hi - x)). pose proof (Rmin_r (x - lo) (hi - x)). assert (Hh : (0 < Rmin del (Rmin (x - lo) (hi - x)))%R) by (repeat apply Rmin_glb_lt; lra).
  assert (C : forall y, y <> x -> (Rabs (y - x) < del)%R -> g y = v -> False).
  { intros y N1 N2 N3. specialize (K y). cbn [dist R_met Base] in K. unfold R_dist in K. rewrite N3 in K. rewrite (Rabs_minus_sym v (g x)) in K.
    assert (D : (Rabs (g x - v) < Rabs (g x - v))%R); [|lra]. apply K. split; [split; [exact I | congruence] | exact N2]. }
  destruct H as [H|H].
  - apply (C (x - h)%R); [unfold h; lra | | apply H; unfold h; lra]. replace (x - h - x)%R with (- h)%R by ring. rewrite Rabs_Ropp, Rabs_pos_eq; unfold h; lra.
  - apply (C (x + h)%R); [unfold h; lra | | apply H; unfold h; lra]. replace (x + h - x)%R with h by ring. rewrite Rabs_pos_eq; unfold h; lra.
Qed.
Lemma open_continuous_iff : continuity f <-> f a = vl /\ f b = vu.
Proof.
  split; [|intros [E1 E2]; apply open_continuous; assumption]. intros C. split.
  - apply (jump f a vl (a - 1) (a + 1)); [lra | apply C|]. left. intros y Hy. apply f_below. lra.
  - apply (jump f b vu (b - 1) (b + 1)); [lra | apply C|]. right. intros y Hy. apply f_above. lra.
Qed.
End Open.
