(** Evaluation outside of the domain, batches and integrals in two dimensions. *)
From Coq Require Import Bool ZArith Lia Reals Lra ZifyBool.
From Coquelicot Require Import Coquelicot.
From Verif Require Import Spline2DSpec LoopProofs SamplingProofs BSplineDeriv BSplineMath IntegralMath IntegralMath2 IntegralProofs EvaluatorSpace EvaluatorProofs EvaluatorProofs2 Spline2DProofs Spline2DMath Spline2DEval.
Local Open Scope bool_scope. Local Open Scope Z_scope.

Section One.
Context (A : axis) (s : bspline_space RA).
Hypothesis (Sp : space_of s A).
Let F := space_facts _ _ _ _ _ _ _ Sp.
Lemma wrap_inside x : (ax_min A <= x <= ax_max A)%R -> wrap RA s x = Ok (x : num RA).
Proof.
  intros Hx. unfold wrap, bs_length. rewrite (f_rmin _ _ _ _ _ _ _ F), (f_rmax _ _ _ _ _ _ _ F). cbn [rbind]. destruct (bs_periodic RA s); [|reflexivity].
  cbn [RA nltb nsub nmul ndiv num]. unfold R_ltb. destruct (Rlt_dec x (ax_min A)) as [L|L]; [lra|]. destruct (Rlt_dec (ax_max A) x) as [L'|L']; [lra|]. reflexivity.
Qed.
Lemma wrap_ok x : exists x' : R, wrap RA s x = Ok (x' : num RA) /\ if ax_periodic A then lands A x x' else x' = x.
Proof.
  pose proof (f_ab _ _ _ _ _ _ _ F) as Hab. unfold wrap, bs_length. rewrite (f_rmin _ _ _ _ _ _ _ F), (f_rmax _ _ _ _ _ _ _ F), (f_per _ _ _ _ _ _ _ F). cbn [rbind].
  unfold lands. clearbody F; destruct (ax_periodic A); [|exists x; split; reflexivity].
  set (a := ax_min A) in *. set (b := ax_max A) in *. cbn [RA nltb nsub nmul ndiv num]. unfold R_ltb.
  assert (Hred : let z := (x - nfloor RA ((x - a) / (b - a)) * (b - a))%R in (a <= z <= b)%R /\ exists k, (x = z + IZR k * (b - a))%R).
  { destruct (nfloor_R ((x - a) / (b - a))%R) as (f & -> & Hf). cbn zeta. split; [|exists f; lra].
    assert ((x - a) = (x - a) / (b - a) * (b - a))%R by (field; lra).
    pose proof (Rmult_le_compat_r (b - a) _ _ ltac:(lra) (proj1 Hf)). pose proof (Rmult_lt_compat_r (b - a) _ _ ltac:(lra) (proj2 Hf)). lra. }
  cbn zeta in Hred. destruct (Rlt_dec x a) as [L|L]; [|destruct (Rlt_dec b x) as [L'|L']]; cbn [orb]; eexists; (split; [reflexivity|]).
  - exact Hred.
  - exact Hred.
  - split; [lra|]. exists 0. lra.
Qed.
Lemma wrap_congruent x x' : lands A x x' -> exists x'' k, wrap RA s x = Ok (x'' : num RA) /\ (ax_min A <= x'' <= ax_max A)%R /\ (x'' = x' + IZR k * (ax_max A - ax_min A))%R /\ (ax_periodic A = false -> x'' = x').
Proof.
  intros [Hx' Hl]. destruct (wrap_ok x) as (x'' & E & H). unfold lands in H. clearbody F; destruct (ax_periodic A).
  - destruct H as [H (k & Ek)]. destruct Hl as (k' & Ek'). exists x'', (k' - k). split; [exact E|]. split; [exact H|]. split; [rewrite minus_IZR; lra | discriminate].
  - exists x'', 0. subst. split; [exact E|]. split; [exact Hx'|]. split; [lra | reflexivity].
Qed.
Lemma outside_none (lower upper : rule_2d RA) x : (ax_min A <= x <= ax_max A)%R -> outside RA s x lower upper = Ok None.
Proof.
  intros Hx. unfold outside. rewrite (f_rmin _ _ _ _ _ _ _ F), (f_rmax _ _ _ _ _ _ _ F). cbn [rbind]. destruct (bs_periodic RA s); [reflexivity|].
  cbn [RA nltb num]. unfold R_ltb. destruct (Rlt_dec x (ax_min A)) as [L|L]; [lra|]. destruct (Rlt_dec (ax_max A) x) as [L'|L']; [lra|]. reflexivity.
Qed.
Lemma outside_some (lower upper : rule_2d RA) x : ax_periodic A = false ->
  ((x < ax_min A)%R -> outside RA s x lower upper = Ok (Some lower)) /\ ((ax_max A < x)%R -> outside RA s x lower upper = Ok (Some upper)).
Proof.
  intros Hp. pose proof (f_ab _ _ _ _ _ _ _ F) as Hab. unfold outside. rewrite (f_rmin _ _ _ _ _ _ _ F), (f_rmax _ _ _ _ _ _ _ F), (f_per _ _ _ _ _ _ _ F), Hp. cbn [rbind].
  cbn [RA nltb num]. unfold R_ltb. split; intros H.
  - destruct (Rlt_dec x (ax_min A)); [reflexivity | lra].
  - destruct (Rlt_dec x (ax_min A)); [lra|]. destruct (Rlt_dec (ax_max A) x); [reflexivity | lra].
Qed.
Lemma nearest_in x : (ax_min A <= nearest (ax_min A) (ax_max A) x <= ax_max A)%R.
Proof. pose proof (f_ab _ _ _ _ _ _ _ F) as Hab. unfold nearest, Rmax, Rmin. destruct (Rle_dec (ax_max A) x); destruct (Rle_dec (ax_min A) _); lra. Qed.
Lemma clamp_nearest x : clamp RA x (ax_min A) (ax_max A) = nearest (ax_min A) (ax_max A) x.
Proof.
  pose proof (f_ab _ _ _ _ _ _ _ F) as Hab. unfold clamp, nearest, Rmax, Rmin. cbn [RA nltb num]. unfold R_ltb.
  destruct (Rlt_dec x (ax_min A)), (Rlt_dec (ax_max A) x), (Rle_dec (ax_max A) x); destruct (Rle_dec (ax_min A) _); lra.
Qed.
Lemma nearest_self x : (ax_min A <= x <= ax_max A)%R -> nearest (ax_min A) (ax_max A) x = x.
Proof. intros H. unfold nearest, Rmax, Rmin. destruct (Rle_dec (ax_max A) x); destruct (Rle_dec (ax_min A) _); lra. Qed.
End One.

Section Two.
Context (A1 A2 : axis) (s1 s2 : bspline_space RA).
Hypothesis (Sp1 : space_of s1 A1) (Sp2 : space_of s2 A2).
Let F1 := space_facts _ _ _ _ _ _ _ Sp1.
Let F2 := space_facts _ _ _ _ _ _ _ Sp2.
Context (m1 m2 : scratch RA).
Notation eval2 := (eval_2d RA s1 s2 m1 m2).
Notation spline2 c := (spline_2d A1 A2 (coefficient_2d c)).
Theorem eval_2d_lands (l1 u1 l2 u2 : rule_2d RA) x y x' y' (c : chunk_2d RA) : has_coefficients_2d c (ax_size A1) (ax_size A2) ->
  periodic_2d A1 A2 (coefficient_2d c) -> lands A1 x x' -> lands A2 y y' ->
  eval2 l1 u1 l2 u2 x y c = Ok (spline2 c x' y' : num RA).
Proof.
  intros Hc [P1 P2] Hx Hy. unfold eval_2d.
  destruct (wrap_congruent A1 s1 Sp1 x x' Hx) as (x2 & k1 & -> & Hx2 & Ex & Nx). cbn [rbind].
  destruct (wrap_congruent A2 s2 Sp2 y y' Hy) as (y2 & k2 & -> & Hy2 & Ey & Ny). cbn [rbind].
  rewrite (outside_none A1 s1 Sp1) by assumption. cbn [rbind]. rewrite (outside_none A2 s2 Sp2) by assumption. cbn [rbind].
  rewrite (no_bc_value A1 A2 s1 s2 Sp1 Sp2) by assumption. f_equal.
  transitivity (spline2 c x2 y').
  - rewrite !spline_2d_rows. apply spline_1d_ext. intros i Hi. destruct (bool_dec (ax_periodic A2) true) as [E|E%not_true_is_false]; [|now rewrite Ny].
    exact (same_point _ _ _ _ _ _ _ F2 _ _ _ k2 E (P2 E i Hi) (proj1 Hy) Hy2 Ey).
  - rewrite !(spline_2d_columns A1 A2 s1 s2 Sp1 Sp2). apply spline_1d_ext. intros j Hj. destruct (bool_dec (ax_periodic A1) true) as [E|E%not_true_is_false]; [|now rewrite Nx].
    exact (same_point _ _ _ _ _ _ _ F1 _ _ _ k1 E (P1 E j Hj) (proj1 Hx) Hx2 Ex).
Qed.
Theorem eval_2d_inside (l1 u1 l2 u2 : rule_2d RA) x y (c : chunk_2d RA) : has_coefficients_2d c (ax_size A1) (ax_size A2) ->
  (ax_min A1 <= x <= ax_max A1)%R -> (ax_min A2 <= y <= ax_max A2)%R -> eval2 l1 u1 l2 u2 x y c = Ok (spline2 c x y : num RA).
Proof.
  intros Hc Hx Hy. unfold eval_2d. rewrite (wrap_inside A1 s1 Sp1) by assumption. cbn [rbind]. rewrite (wrap_inside A2 s2 Sp2) by assumption. cbn [rbind].
  rewrite (outside_none A1 s1 Sp1) by assumption. cbn [rbind]. rewrite (outside_none A2 s2 Sp2) by assumption. cbn [rbind].
  now apply (no_bc_value A1 A2 s1 s2 Sp1 Sp2).
Qed.
Theorem eval_2d_outside1 (l1 u1 l2 u2 : rule_2d RA) x y (c : chunk_2d RA) : ax_periodic A1 = false ->
  exists y' : R, (if ax_periodic A2 then lands A2 y y' else y' = y) /\
  ((x < ax_min A1)%R -> eval2 l1 u1 l2 u2 x y c = l1 x y' c) /\ ((ax_max A1 < x)%R -> eval2 l1 u1 l2 u2 x y c = u1 x y' c).
Proof.
  intros Hp. destruct (wrap_ok A2 s2 Sp2 y) as (y' & E & Hy'). exists y'. split; [exact Hy'|]. unfold eval_2d.
  destruct (wrap_ok A1 s1 Sp1 x) as (x' & Ex & Hx'). rewrite Hp in Hx'. subst x'. rewrite Ex, E. cbn [rbind].
  split; intros H; [rewrite (proj1 (outside_some A1 s1 Sp1 l1 u1 x Hp) H) | rewrite (proj2 (outside_some A1 s1 Sp1 l1 u1 x Hp) H)]; reflexivity.
Qed.
Theorem eval_2d_outside2 (l1 u1 l2 u2 : rule_2d RA) x y (c : chunk_2d RA) : ax_periodic A2 = false -> ax_periodic A1 = true \/ (ax_min A1 <= x <= ax_max A1)%R ->
  exists x' : R, (if ax_periodic A1 then lands A1 x x' else x' = x) /\
  ((y < ax_min A2)%R -> eval2 l1 u1 l2 u2 x y c = l2 x' y c) /\ ((ax_max A2 < y)%R -> eval2 l1 u1 l2 u2 x y c = u2 x' y c).
Proof.
  intros Hp Hx. destruct (wrap_ok A1 s1 Sp1 x) as (x' & E & Hx'). exists x'. split; [exact Hx'|]. unfold eval_2d.
  destruct (wrap_ok A2 s2 Sp2 y) as (y' & Ey & Hy'). rewrite Hp in Hy'. subst y'. rewrite E, Ey. cbn [rbind].
  assert (Hin : (ax_min A1 <= x' <= ax_max A1)%R).
  { unfold lands in Hx'. destruct (bool_dec (ax_periodic A1) true) as [E1|E1%not_true_is_false]; rewrite E1 in Hx'; [exact (proj1 Hx')|]. subst x'. destruct Hx as [K|K]; [congruence | exact K]. }
  rewrite (outside_none A1 s1 Sp1) by exact Hin. cbn [rbind].
  split; intros H; [rewrite (proj1 (outside_some A2 s2 Sp2 l2 u2 y Hp) H) | rewrite (proj2 (outside_some A2 s2 Sp2 l2 u2 y Hp) H)]; reflexivity.
Qed.
(** The rules. *)
Lemma constant_at_ok x y (c : chunk_2d RA) : has_coefficients_2d c (ax_size A1) (ax_size A2) -> (ax_min A1 <= x <= ax_max A1)%R -> (ax_min A2 <= y <= ax_max A2)%R ->
  constant_at RA s1 s2 m1 m2 x y c = Ok (spline2 c x y : num RA).
Proof. exact (no_bc_value A1 A2 s1 s2 Sp1 Sp2 m1 m2 x y c). Qed.
Lemma constant_1_ok pos x y (c : chunk_2d RA) : has_coefficients_2d c (ax_size A1) (ax_size A2) -> (ax_min A1 <= pos <= ax_max A1)%R -> (ax_periodic A2 = true -> (ax_min A2 <= y <= ax_max A2)%R) ->
  constant_rule_2d_1 RA s1 s2 m1 m2 pos (ax_min A2) (ax_max A2) x y c = Ok (spline2 c pos (nearest (ax_min A2) (ax_max A2) y) : num RA).
Proof.
  intros Hc Hp Hy. unfold constant_rule_2d_1. rewrite (f_per _ _ _ _ _ _ _ F2). clearbody F2; destruct (ax_periodic A2).
  - rewrite (nearest_self A2) by auto. apply constant_at_ok; auto.
  - rewrite (clamp_nearest A2 s2 Sp2). apply constant_at_ok; try assumption. apply (nearest_in A2 s2 Sp2).
Qed.
Lemma constant_2_ok pos x y (c : chunk_2d RA) : has_coefficients_2d c (ax_size A1) (ax_size A2) -> (ax_min A2 <= pos <= ax_max A2)%R -> (ax_periodic A1 = true -> (ax_min A1 <= x <= ax_max A1)%R) ->
  constant_rule_2d_2 RA s1 s2 m1 m2 pos (ax_min A1) (ax_max A1) x y c = Ok (spline2 c (nearest (ax_min A1) (ax_max A1) x) pos : num RA).
Proof.
  intros Hc Hp Hx. unfold constant_rule_2d_2. rewrite (f_per _ _ _ _ _ _ _ F1). clearbody F1; destruct (ax_periodic A1).
  - rewrite (nearest_self A1) by auto. apply constant_at_ok; auto.
  - rewrite (clamp_nearest A1 s1 Sp1). apply constant_at_ok; try assumption. apply (nearest_in A1 s1 Sp1).
Qed.
Notation const1 pos := (constant_rule_2d_1 RA s1 s2 m1 m2 pos (ax_min A2) (ax_max A2)).
Notation const2 pos := (constant_rule_2d_2 RA s1 s2 m1 m2 pos (ax_min A1) (ax_max A1)).
Theorem eval_2d_constant x y (c : chunk_2d RA) : has_coefficients_2d c (ax_size A1) (ax_size A2) -> ax_periodic A1 = false -> ax_periodic A2 = false ->
  eval2 (const1 (ax_min A1)) (const1 (ax_max A1)) (const2 (ax_min A2)) (const2 (ax_max A2)) x y c
  = Ok (spline2 c (nearest (ax_min A1) (ax_max A1) x) (nearest (ax_min A2) (ax_max A2) y) : num RA).
Proof.
  intros Hc P1 P2. pose proof (f_ab _ _ _ _ _ _ _ F1) as H1. pose proof (f_ab _ _ _ _ _ _ _ F2) as H2.
  destruct (Rlt_dec x (ax_min A1)) as [Lx|Lx]; [|destruct (Rlt_dec (ax_max A1) x) as [Lx'|Lx']].
  - destruct (eval_2d_outside1 (const1 (ax_min A1)) (const1 (ax_max A1)) (const2 (ax_min A2)) (const2 (ax_max A2)) x y c P1) as (y' & Hy' & K & _). rewrite P2 in Hy'. subst y'. rewrite (K Lx).
    rewrite constant_1_ok by (try assumption; try lra; rewrite P2; discriminate). do 2 f_equal. unfold nearest, Rmax, Rmin. destruct (Rle_dec (ax_max A1) x); destruct (Rle_dec (ax_min A1) _); lra.
  - destruct (eval_2d_outside1 (const1 (ax_min A1)) (const1 (ax_max A1)) (const2 (ax_min A2)) (const2 (ax_max A2)) x y c P1) as (y' & Hy' & _ & K). rewrite P2 in Hy'. subst y'. rewrite (K Lx').
    rewrite constant_1_ok by (try assumption; try lra; rewrite P2; discriminate). do 2 f_equal. unfold nearest, Rmax, Rmin. destruct (Rle_dec (ax_max A1) x); destruct (Rle_dec (ax_min A1) _); lra.
  - assert (Hx : (ax_min A1 <= x <= ax_max A1)%R) by lra. rewrite (nearest_self A1 x Hx).
    destruct (eval_2d_outside2 (const1 (ax_min A1)) (const1 (ax_max A1)) (const2 (ax_min A2)) (const2 (ax_max A2)) x y c P2 (or_intror Hx)) as (x' & Hx' & K & K'). rewrite P1 in Hx'. subst x'.
    destruct (Rlt_dec y (ax_min A2)) as [Ly|Ly]; [|destruct (Rlt_dec (ax_max A2) y) as [Ly'|Ly']].
    + rewrite (K Ly). rewrite constant_2_ok by (try assumption; try lra; rewrite P1; discriminate). rewrite (nearest_self A1 x Hx). do 2 f_equal. unfold nearest, Rmax, Rmin. destruct (Rle_dec (ax_max A2) y); destruct (Rle_dec (ax_min A2) _); lra.
    + rewrite (K' Ly'). rewrite constant_2_ok by (try assumption; try lra; rewrite P1; discriminate). rewrite (nearest_self A1 x Hx). do 2 f_equal. unfold nearest, Rmax, Rmin. destruct (Rle_dec (ax_max A2) y); destruct (Rle_dec (ax_min A2) _); lra.
    + rewrite (nearest_self A2 y) by lra. apply eval_2d_inside; [exact Hc | lra | lra].
Qed.
(** A constant rule in one dimension, the other being periodic. *)
Theorem eval_2d_constant_periodic x y y' (l2 u2 : rule_2d RA) (c : chunk_2d RA) : has_coefficients_2d c (ax_size A1) (ax_size A2) -> periodic_2d A1 A2 (coefficient_2d c) ->
  ax_periodic A1 = false -> ax_periodic A2 = true -> lands A2 y y' ->
  eval2 (const1 (ax_min A1)) (const1 (ax_max A1)) l2 u2 x y c = Ok (spline2 c (nearest (ax_min A1) (ax_max A1) x) y' : num RA).
Proof.
  intros Hc Hper P1 P2 Hy. pose proof (f_ab _ _ _ _ _ _ _ F1) as H1.
  assert (Same : forall y2 z, lands A2 y y2 -> spline2 c z y2 = spline2 c z y').
  { intros y2 z [Hin2 Hy2]. destruct Hy as [Hin Hy]. rewrite P2 in Hy, Hy2. destruct Hy as (k & Ek). destruct Hy2 as (k2 & Ek2). rewrite !spline_2d_rows. apply spline_1d_ext. intros i Hi.
    refine (same_point _ _ _ _ _ _ _ F2 _ _ _ (k - k2) P2 (proj2 Hper P2 i Hi) Hin Hin2 _). rewrite minus_IZR. lra. }
  destruct (Rlt_dec x (ax_min A1)) as [Lx|Lx]; [|destruct (Rlt_dec (ax_max A1) x) as [Lx'|Lx']].
  - destruct (eval_2d_outside1 (const1 (ax_min A1)) (const1 (ax_max A1)) l2 u2 x y c P1) as (y2 & Hy2 & K & _). rewrite P2 in Hy2. rewrite (K Lx).
    rewrite constant_1_ok by (try assumption; try lra; intros _; exact (proj1 Hy2)). rewrite (nearest_self A2) by exact (proj1 Hy2). rewrite (Same y2 _ Hy2). do 2 f_equal. unfold nearest, Rmax, Rmin. destruct (Rle_dec (ax_max A1) x); destruct (Rle_dec (ax_min A1) _); lra.
  - destruct (eval_2d_outside1 (const1 (ax_min A1)) (const1 (ax_max A1)) l2 u2 x y c P1) as (y2 & Hy2 & _ & K). rewrite P2 in Hy2. rewrite (K Lx').
    rewrite constant_1_ok by (try assumption; try lra; intros _; exact (proj1 Hy2)). rewrite (nearest_self A2) by exact (proj1 Hy2). rewrite (Same y2 _ Hy2). do 2 f_equal. unfold nearest, Rmax, Rmin. destruct (Rle_dec (ax_max A1) x); destruct (Rle_dec (ax_min A1) _); lra.
  - assert (Hx : (ax_min A1 <= x <= ax_max A1)%R) by lra. rewrite (nearest_self A1 x Hx). apply eval_2d_lands; try assumption. split; [exact Hx|]. rewrite P1. reflexivity.
Qed.

(** Batches. *)
Lemma eval_batched_2d_ok (f : R -> R -> chunk_2d RA -> res R) (w : Z -> Z -> Z -> R) nbatch n1 n2 (coords : Z -> Z -> Z -> R * R) (coef : Z -> chunk_2d RA) (out : Z -> arr2 R) :
  0 <= nbatch -> 0 <= n1 -> 0 <= n2 -> (forall j, 0 <= j < nbatch -> a2_n (out j) = n1 /\ a2_m (out j) = n2) ->
  (forall j i1 i2, 0 <= j < nbatch -> 0 <= i1 < n1 -> 0 <= i2 < n2 -> f (fst (coords j i1 i2)) (snd (coords j i1 i2)) (coef j) = Ok (w j i1 i2)) ->
  exists out', eval_batched_2d RA f nbatch n1 n2 coords coef out = Ok out' /\
    (forall j, 0 <= j < nbatch -> a2_n (out' j) = n1 /\ a2_m (out' j) = n2 /\ forall i1 i2, 0 <= i1 < n1 -> 0 <= i2 < n2 -> a2_at (out' j) i1 i2 = w j i1 i2).
Proof.
  intros Hb Hn1 Hn2 Hout Hf. unfold eval_batched_2d. change (num RA) with R.
  set (shape := fun (o : Z -> arr2 R) => forall j, 0 <= j < nbatch -> a2_n (o j) = n1 /\ a2_m (o j) = n2).
  set (body2 := fun j i1 i2 (out : Z -> arr2 R) => let '(x, y) := coords j i1 i2 in v <- f x y (coef j) ;; o <- aset2 (out j) i1 i2 v ;; Ok (upd out j o)).
  destruct (for_range_inv (fun j (o : Z -> arr2 R) => shape o /\ forall j' i1 i2, 0 <= j' < j -> 0 <= i1 < n1 -> 0 <= i2 < n2 -> a2_at (o j') i1 i2 = w j' i1 i2)
    (fun j (out : Z -> arr2 R) => for_range 0 n1 (fun i1 out => for_range 0 n2 (body2 j i1) out) out) 0 nbatch out) as (o & E & O1 & O2).
  - lia.
  - split; [exact Hout | lia].
  - intros j o Hj (O1 & O2).
    destruct (for_range_inv (fun i1 (o' : Z -> arr2 R) => shape o' /\ (forall j', j' <> j -> o' j' = o j') /\ forall i1' i2, 0 <= i1' < i1 -> 0 <= i2 < n2 -> a2_at (o' j) i1' i2 = w j i1' i2)
      (fun i1 out => for_range 0 n2 (body2 j i1) out) 0 n1 o) as (o' & E' & P1 & P2 & P3).
    + lia.
    + split; [exact O1|]. split; [reflexivity | lia].
    + intros i1 o' Hi1 (P1 & P2 & P3).
      destruct (for_range_inv (fun i2 (o2 : Z -> arr2 R) => shape o2 /\ (forall j', j' <> j -> o2 j' = o j') /\ (forall i1' i2', 0 <= i1' < i1 -> 0 <= i2' < n2 -> a2_at (o2 j) i1' i2' = w j i1' i2') /\
          forall i2', 0 <= i2' < i2 -> a2_at (o2 j) i1 i2' = w j i1 i2') (body2 j i1) 0 n2 o') as (o2 & E2 & Q1 & Q2 & Q3 & Q4).
      * lia.
      * split; [exact P1|]. split; [exact P2|]. split; [exact P3 | lia].
      * intros i2 o2 Hi2 (Q1 & Q2 & Q3 & Q4). unfold body2. pose proof (Hf j i1 i2 Hj Hi1 Hi2) as Ef. destruct (coords j i1 i2) as [x y]. cbn [fst snd] in Ef. rewrite Ef. cbn [rbind].
        destruct (Q1 j Hj) as [S1 S2]. rewrite aset2_ok by lia. cbn [rbind]. eexists. split; [reflexivity|]. split; [|split; [|split]].
        -- intros j' Hj'. destruct (Z.eq_dec j' j) as [->|N]; [rewrite upd_eq; split; assumption | rewrite upd_neq by lia; now apply Q1].
        -- intros j' N. rewrite upd_neq by exact N. now apply Q2.
        -- intros i1' i2' H1 H2. rewrite upd_eq. cbn [a2_at]. rewrite upd2_neq by lia. now apply Q3.
        -- intros i2' H2. rewrite upd_eq. cbn [a2_at]. destruct (Z.eq_dec i2' i2) as [->|N]; [now rewrite upd2_eq | rewrite upd2_neq by lia; apply Q4; lia].
      * exists o2. split; [exact E2|]. split; [exact Q1|]. split; [exact Q2|]. intros i1' i2 H1 H2. destruct (Z.eq_dec i1' i1) as [->|N]; [now apply Q4 | apply Q3; lia].
    + exists o'. split; [exact E'|]. split; [exact P1|]. intros j' i1 i2 Hj' H1 H2. destruct (Z.eq_dec j' j) as [->|N]; [now apply P3 | rewrite P2 by exact N; apply O2; lia].
  - exists o. split; [exact E|]. intros j Hj. destruct (O1 j Hj) as [S1 S2]. split; [exact S1|]. split; [exact S2|]. intros i1 i2 H1 H2. now apply O2.
Qed.
Theorem evaluate_2d_lands (l1 u1 l2 u2 : rule_2d RA) nbatch n1 n2 (coords where_ : Z -> Z -> Z -> R * R) (coef : Z -> chunk_2d RA) (out : Z -> arr2 R) :
  0 <= nbatch -> 0 <= n1 -> 0 <= n2 -> (forall j, 0 <= j < nbatch -> a2_n (out j) = n1 /\ a2_m (out j) = n2) ->
  (forall j i1 i2, 0 <= j < nbatch -> 0 <= i1 < n1 -> 0 <= i2 < n2 -> has_coefficients_2d (coef j) (ax_size A1) (ax_size A2) /\ periodic_2d A1 A2 (coefficient_2d (coef j)) /\
     lands A1 (fst (coords j i1 i2)) (fst (where_ j i1 i2)) /\ lands A2 (snd (coords j i1 i2)) (snd (where_ j i1 i2))) ->
  exists out', evaluate_2d RA s1 s2 m1 m2 l1 u1 l2 u2 nbatch n1 n2 coords coef out = Ok out' /\
    (forall j, 0 <= j < nbatch -> a2_n (out' j) = n1 /\ a2_m (out' j) = n2 /\ forall i1 i2, 0 <= i1 < n1 -> 0 <= i2 < n2 -> a2_at (out' j) i1 i2 = spline2 (coef j) (fst (where_ j i1 i2)) (snd (where_ j i1 i2))).
Proof.
  intros Hb H1 H2 Hout Hc. apply (eval_batched_2d_ok (eval2 l1 u1 l2 u2) (fun j i1 i2 => spline2 (coef j) (fst (where_ j i1 i2)) (snd (where_ j i1 i2)))); try assumption.
  intros j i1 i2 Hj Hi1 Hi2. destruct (Hc j i1 i2 Hj Hi1 Hi2) as (K1 & K2 & K3 & K4). now apply eval_2d_lands.
Qed.
Theorem deriv_2d_batched o1 o2 nbatch n1 n2 (coords : Z -> Z -> Z -> R * R) (coef : Z -> chunk_2d RA) (out : Z -> arr2 R) :
  0 <= nbatch -> 0 <= n1 -> 0 <= n2 -> (forall j, 0 <= j < nbatch -> a2_n (out j) = n1 /\ a2_m (out j) = n2) -> order_valid A1 o1 -> order_valid A2 o2 ->
  (forall j i1 i2, 0 <= j < nbatch -> 0 <= i1 < n1 -> 0 <= i2 < n2 -> has_coefficients_2d (coef j) (ax_size A1) (ax_size A2) /\
     (ax_min A1 <= fst (coords j i1 i2) <= ax_max A1)%R /\ (ax_min A2 <= snd (coords j i1 i2) <= ax_max A2)%R) ->
  exists out', deriv_2d RA s1 s2 m1 m2 o1 o2 nbatch n1 n2 coords coef out = Ok out' /\
    (forall j, 0 <= j < nbatch -> a2_n (out' j) = n1 /\ a2_m (out' j) = n2 /\ forall i1 i2, 0 <= i1 < n1 -> 0 <= i2 < n2 ->
       eval_no_bc_2d RA s1 s2 m1 m2 o1 o2 (fst (coords j i1 i2)) (snd (coords j i1 i2)) (coef j) = Ok (a2_at (out' j) i1 i2 : num RA)).
Proof.
  intros Hb H1 H2 Hout V1 V2 Hc.
  set (val := fun j i1 i2 => match eval_no_bc_2d RA s1 s2 m1 m2 o1 o2 (fst (coords j i1 i2)) (snd (coords j i1 i2)) (coef j) with Ok v => v | _ => 0%R end).
  assert (Hv : forall j i1 i2, 0 <= j < nbatch -> 0 <= i1 < n1 -> 0 <= i2 < n2 -> eval_no_bc_2d RA s1 s2 m1 m2 o1 o2 (fst (coords j i1 i2)) (snd (coords j i1 i2)) (coef j) = Ok (val j i1 i2 : num RA)).
  { intros j i1 i2 Hj Hi1 Hi2. destruct (Hc j i1 i2 Hj Hi1 Hi2) as (K1 & K2 & K3). destruct (eval_no_bc_2d_ok A1 A2 s1 s2 Sp1 Sp2 m1 m2 o1 o2 _ _ (coef j) K1 K2 K3 V1 V2) as (v1 & j1 & g1 & v2 & j2 & g2 & _ & _ & _ & _ & E).
    unfold val. rewrite E. reflexivity. }
  destruct (eval_batched_2d_ok (eval_no_bc_2d RA s1 s2 m1 m2 o1 o2) val nbatch n1 n2 coords coef out Hb H1 H2 Hout Hv) as (out' & E & Ho). exists out'. split; [exact E|].
  intros j Hj. destruct (Ho j Hj) as (S1 & S2 & S3). split; [exact S1|]. split; [exact S2|]. intros i1 i2 Hi1 Hi2. rewrite S3 by assumption. now apply Hv.
Qed.
End Two.
