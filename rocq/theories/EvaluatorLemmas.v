(** The statements of PropertiesEvaluator, from the lemmas on all spaces of splines. *)
From Coq Require Import Bool Reals Lia Lra ZifyBool List.
From Verif Require Import EvaluatorSpec EvaluatorSpace EvaluatorProofs EvaluatorProofs2 LoopProofs BSplineMath BSplineDeriv IntegralMath IntegralMath2 IntegralProofs SamplingProofs LinearProofs2 UniformProofs SplineLemmas.
Import ListNotations.
Local Open Scope bool_scope. Local Open Scope Z_scope.

Section Deriv.
Context (s : bspline_space RA) (d : Z) (periodic : bool) (ncells : Z) (t : Z -> R) (a b : R).
Hypothesis F : facts s d periodic ncells t a b.
Let Hd : 1 <= d := f_d _ _ _ _ _ _ _ F.
Let Hn : 1 <= ncells := f_n _ _ _ _ _ _ _ F.
Let Hab : (a < b)%R := f_ab _ _ _ _ _ _ _ F.
Let Hmono := f_mono _ _ _ _ _ _ _ F.
Let Hcell := f_cell _ _ _ _ _ _ _ F.
Let Hfirst := f_first _ _ _ _ _ _ _ F.
Let Hlast := f_last _ _ _ _ _ _ _ F.

(** The derivative of a B-spline on the cell c, with B-splines of degree d - 1. *)
Definition quotient (c i : Z) (x : R) : R := (bspline_piece t c (Z.to_nat (d - 1)) i x / (t (i + d)%Z - t i))%R.
Lemma Aq_quotient c i x : (t c < t (c + 1)%Z)%R -> Aq t c (d - 1) (i - c + (d - 1)) x = quotient c i x.
Proof.
  intros Hc. unfold quotient. rewrite piece_V.
  destruct (Z_lt_dec (i - c + (d - 1)) 0); [rewrite Aq_out, V_out by lia; unfold Rdiv; ring|].
  destruct (Z_lt_dec (d - 1) (i - c + (d - 1))); [rewrite Aq_out, V_out by lia; unfold Rdiv; ring|].
  rewrite Aq_in by lia. unfold G. do 3 f_equal; lia.
Qed.
Lemma piece_derivative c i x : d <= c < d + ncells ->
  derivable_pt_lim (bspline_piece t c (Z.to_nat d) i) x (IZR d * (quotient c i x - quotient c (i + 1) x))%R.
Proof.
  intros Hc. pose proof (Hcell c Hc) as Hlt.
  eapply dpl_ext; [| |apply (V_deriv t c d (mono_at t Hmono c d) Hlt (d - 1) ltac:(lia) ltac:(lia) (i - c + d) x)].
  - intros y. replace (d - 1 + 1) with d by lia. symmetry. apply piece_V.
  - rewrite <- !Aq_quotient by exact Hlt. replace (d - 1 + 1) with d by lia. do 3 f_equal; lia.
Qed.
Definition deriv_all (c : Z) (v : Z -> R) (x : R) : R := zsum (ncells + d) (fun i => v i * (IZR d * (quotient c i x - quotient c (i + 1) x)))%R.
Lemma spline_piece_derivative c v x : d <= c < d + ncells -> derivable_pt_lim (spline_piece t c d ncells v) x (deriv_all c v x).
Proof.
  intros Hc. eapply dpl_ext; [| |apply (zsum_deriv (ncells + d) (fun i y => v i * bspline_piece t c (Z.to_nat d) i y)%R (fun i y => v i * (IZR d * (quotient c i y - quotient c (i + 1) y)))%R)].
  - intros y. unfold spline_piece. now rewrite sum_first_zsum.
  - reflexivity.
  - intros i _. apply dpl_scal. now apply piece_derivative.
Qed.
Lemma deriv_sum_all c v x : d <= c < d + ncells -> deriv_sum d t c 1 v x = deriv_all c v x.
Proof.
  intros Hc. destruct (deriv_sum_nd _ _ _ _ _ _ _ F c 1 v Hc ltac:(lia)) as (h & Hh & E). change (forall x, h x = deriv_sum d t c 1 v x) in E. rewrite <- E.
  apply (uniqueness_limite (spline_piece t c d ncells v) x); [apply Hh | now apply spline_piece_derivative].
Qed.
Lemma deriv_knot c v : 2 <= d -> d < c < d + ncells -> deriv_all (c - 1) v (t c) = deriv_all c v (t c).
Proof.
  intros H2 Hc. unfold deriv_all. apply zsum_ext. intros i _. unfold quotient.
  assert (E : forall j, bspline_piece t (c - 1) (Z.to_nat (d - 1)) j (t c) = bspline_piece t c (Z.to_nat (d - 1)) j (t c)).
  { intros j. replace (Z.to_nat (d - 1)) with (S (Z.to_nat (d - 2))) by lia. apply piece_simple; [|apply Hcell; lia].
    pose proof (Hcell (c - 1) ltac:(lia)) as H. now replace (c - 1 + 1) with c in H by lia. }
  now rewrite !E.
Qed.
(** The limit of quotients of differences only depends on the function near the point. *)
Lemma dpl_local f g x v lo hi : (lo < x < hi)%R -> (forall y, (lo < y < hi)%R -> f y = g y) -> derivable_pt_lim f x v -> derivable_pt_lim g x v.
Proof.
  intros Hx He Hf eps Heps. destruct (Hf eps Heps) as (del & Hdel).
  assert (Hpos : (0 < Rmin del (Rmin (x - lo) (hi - x)))%R) by (apply Rmin_glb_lt; [apply cond_pos | apply Rmin_glb_lt; lra]).
  exists (mkposreal _ Hpos). intros h Hh Hs. cbn [pos] in Hs.
  assert (Rabs h < del)%R by (eapply Rlt_le_trans; [exact Hs | apply Rmin_l]).
  assert (Rabs h < x - lo)%R by (eapply Rlt_le_trans; [exact Hs | eapply Rle_trans; [apply Rmin_r | apply Rmin_l]]).
  assert (Rabs h < hi - x)%R by (eapply Rlt_le_trans; [exact Hs | eapply Rle_trans; [apply Rmin_r | apply Rmin_r]]).
  rewrite <- !He; [now apply Hdel | lra |].
  apply Rabs_def2 in H0. apply Rabs_def2 in H1. lra.
Qed.
Lemma dpl_glue f l r x v lo hi : (lo < x < hi)%R -> (forall y, (lo <= y <= x)%R -> f y = l y) -> (forall y, (x <= y <= hi)%R -> f y = r y) ->
  derivable_pt_lim l x v -> derivable_pt_lim r x v -> derivable_pt_lim f x v.
Proof.
  intros Hx Hl Hr Dl Dr eps Heps. destruct (Dl eps Heps) as (dl & Hdl). destruct (Dr eps Heps) as (dr & Hdr).
  assert (Hpos : (0 < Rmin (Rmin dl dr) (Rmin (x - lo) (hi - x)))%R) by (apply Rmin_glb_lt; apply Rmin_glb_lt; try apply cond_pos; lra).
  exists (mkposreal _ Hpos). intros h Hh Hs. cbn [pos] in Hs.
  assert (Rabs h < dl)%R by (eapply Rlt_le_trans; [exact Hs | eapply Rle_trans; [apply Rmin_l | apply Rmin_l]]).
  assert (Rabs h < dr)%R by (eapply Rlt_le_trans; [exact Hs | eapply Rle_trans; [apply Rmin_l | apply Rmin_r]]).
  assert (Rabs h < x - lo)%R by (eapply Rlt_le_trans; [exact Hs | eapply Rle_trans; [apply Rmin_r | apply Rmin_l]]).
  assert (Rabs h < hi - x)%R by (eapply Rlt_le_trans; [exact Hs | eapply Rle_trans; [apply Rmin_r | apply Rmin_r]]).
  apply Rabs_def2 in H1. apply Rabs_def2 in H2.
  destruct (Rle_dec h 0).
  - rewrite !Hl by lra. now apply Hdl.
  - rewrite !Hr by lra. now apply Hdr.
Qed.
Lemma first_deriv_ok m (v : chunk_1d RA) x : has_coefficients v (ncells + d) -> (a < x < b)%R -> 2 <= d \/ (forall c, t c <> x) ->
  exists w : R, eval_no_bc RA s m (Some 1) x v = Ok w /\ derivable_pt_lim (spline t b d ncells (coefficient v)) x w.
Proof.
  intros Hv Hx Hsm. destruct (eval_deriv_ok _ _ _ _ _ _ _ F m v x 1 Hv ltac:(lra) ltac:(lia)) as (c & (Hc & Hxc) & E).
  { change (falling_z d (Z.to_nat 1)) with (1 * (d - 0)). pose proof (f_big _ _ _ _ _ _ _ F). lia. }
  eexists. split; [exact E|]. rewrite deriv_sum_all by exact Hc.
  destruct Hxc as [Hxc|[-> _]]; [|lra]. pose proof (Hcell c Hc) as Hlt.
  destruct (Rle_lt_or_eq_dec (t c) x (proj1 Hxc)) as [L|Eq].
  - apply (dpl_local (spline_piece t c d ncells (coefficient v)) _ x _ (t c) (t (c + 1)%Z)); [lra | | now apply spline_piece_derivative].
    intros y Hy. symmetry. apply (piece_closed _ _ _ _ _ _ _ F); [exact Hc | lra].
  - destruct Hsm as [H2|H2]; [|now destruct (H2 c)]. assert (d < c).
    { destruct (Z.eq_dec c d) as [->|]; [|lia]. rewrite Hfirst in Eq. lra. }
    pose proof (Hcell (c - 1) ltac:(lia)) as Hl. replace (c - 1 + 1) with c in Hl by lia. rewrite <- Eq.
    apply (dpl_glue _ (spline_piece t (c - 1) d ncells (coefficient v)) (spline_piece t c d ncells (coefficient v)) _ _ (t (c - 1)) (t (c + 1)%Z)); [lra | | | |].
    + intros y Hy. apply (piece_closed _ _ _ _ _ _ _ F); [lia | replace (c - 1 + 1) with c by lia; lra].
    + intros y Hy. apply (piece_closed _ _ _ _ _ _ _ F); [lia | lra].
    + rewrite <- deriv_knot by lia. apply spline_piece_derivative. lia.
    + apply spline_piece_derivative. lia.
Qed.
Lemma eval_linear_ok m (c1 c2 c3 : chunk_1d RA) u v x : has_coefficients c1 (ncells + d) -> has_coefficients c2 (ncells + d) -> has_coefficients c3 (ncells + d) ->
  (forall i, 0 <= i < ncells + d -> coefficient c3 i = (u * coefficient c1 i + v * coefficient c2 i)%R) -> (a <= x <= b)%R ->
  forall order, match order with None => True | Some k => 1 <= k <= d /\ falling_z d (Z.to_nat k) < 2 ^ 31 end ->
  exists y1 y2 y3 : R, eval_no_bc RA s m order x c1 = Ok y1 /\ eval_no_bc RA s m order x c2 = Ok y2 /\ eval_no_bc RA s m order x c3 = Ok y3 /\
    y3 = (u * y1 + v * y2)%R.
Proof.
  intros H1 H2 H3 Hc Hx order Ho. destruct order as [k|].
  - destruct Ho as (Hk & Hf). 
    destruct (f_derivs _ _ _ _ _ _ _ F m x k Hx ltac:(lia) Hf) as (w & c & E & (Hcc & Hxc) & L1 & L2 & Hw).
    assert (K : forall v0 : chunk_1d RA, has_coefficients v0 (ncells + d) -> exists c', in_cell t d ncells b x c' /\ eval_no_bc RA s m (Some k) x v0 = Ok (deriv_sum d t c' k (coefficient v0) x : num RA)).
    { intros v0 Hv0. now apply (eval_deriv_ok _ _ _ _ _ _ _ F). }
    assert (U : forall c1 c2, in_cell t d ncells b x c1 -> in_cell t d ncells b x c2 -> c1 = c2).
    { clear -Hcell Hlast Hmono. intros i j (Hi & Hxi) (Hj & Hxj).
      assert (HB : forall c, d <= c < d + ncells -> (t (c + 1)%Z <= b)%R) by (intros c0 Hc0; rewrite <- Hlast; apply Hmono; lia).
      destruct Hxi as [Hxi|[E1 ->]], Hxj as [Hxj|[E2 ->]]; [| | |reflexivity].
      - destruct (Z.lt_trichotomy i j) as [Hl|[->|Hl]]; [|reflexivity|].
        + pose proof (Hmono (i + 1) j ltac:(lia)). lra.
        + pose proof (Hmono (j + 1) i ltac:(lia)). lra.
      - pose proof (HB i Hi). lra.
      - pose proof (HB j Hj). lra. }
    destruct (K c1 H1) as (i1 & I1 & E1). destruct (K c2 H2) as (i2 & I2 & E2). destruct (K c3 H3) as (i3 & I3 & E3).
    rewrite (U _ _ I2 I1) in E2. rewrite (U _ _ I3 I1) in E3.
    do 3 eexists. split; [exact E1|]. split; [exact E2|]. split; [exact E3|]. unfold deriv_sum.
    rewrite <- !zsum_scal, <- zsum_plus. apply zsum_ext. intros r Hr. rewrite Hc by (destruct I1; lia). ring.
  - do 3 eexists. split; [now apply (eval_no_bc_ok _ _ _ _ _ _ _ F)|]. split; [now apply (eval_no_bc_ok _ _ _ _ _ _ _ F)|]. split; [now apply (eval_no_bc_ok _ _ _ _ _ _ _ F)|].
    unfold spline. rewrite !sum_first_zsum. rewrite <- !zsum_scal, <- zsum_plus. apply zsum_ext. intros r Hr. rewrite Hc by lia. ring.
Qed.
Lemma eval_constant_ok m (coef : chunk_1d RA) v x : has_coefficients coef (ncells + d) -> (forall i, 0 <= i < ncells + d -> coefficient coef i = v) -> (a <= x <= b)%R ->
  eval_no_bc RA s m None x coef = Ok (v : num RA) /\
  (forall k, 1 <= k <= d -> falling_z d (Z.to_nat k) < 2 ^ 31 -> eval_no_bc RA s m (Some k) x coef = Ok (0%R : num RA)).
Proof.
  intros Hc Hv Hx. split.
  - etransitivity; [now apply (eval_no_bc_ok _ _ _ _ _ _ _ F)|]. apply f_equal. destruct (exists_cell _ _ _ _ _ _ _ F x Hx) as (c & Hcc).
    rewrite (spline_is_piece _ _ _ _ _ _ _ F c) by exact Hcc. apply (constant_piece _ _ _ _ _ _ _ F); [exact (proj1 Hcc) | exact Hv].
  - intros k Hk Hf. destruct (eval_deriv_ok _ _ _ _ _ _ _ F m coef x k Hc Hx Hk Hf) as (c & (Hcc & _) & E). etransitivity; [exact E|]. apply f_equal.
    pose proof (deriv_sum_nd _ _ _ _ _ _ _ F c k (coefficient coef) Hcc ltac:(lia)) as Hd1.
    refine (nd_unique (Z.to_nat k) _ _ (fun _ => v) (fun _ => 0%R) _ Hd1 _ x).
    + intros y. now apply (constant_piece _ _ _ _ _ _ _ F).
    + replace (Z.to_nat k) with (S (Z.to_nat (k - 1))) by lia. exists (fun _ => 0%R). split; [intros y; apply dpl_const | apply nd_zero].
Qed.
End Deriv.

Section Space.
Context (s : bspline_space RA) (d : Z) (periodic : bool) (ncells : Z) (t : Z -> R) (a b : R).
Hypothesis S : spline_space s d periodic ncells t a b.
Let F := space_facts _ _ _ _ _ _ _ S.
Theorem eval_inside m lower upper (coef : chunk_1d RA) x : has_coefficients coef (ncells + d) -> (a <= x <= b)%R ->
  eval RA s m lower upper x coef = Ok (spline t b d ncells (coefficient coef) x : num RA).
Proof. apply (eval_inside_ok _ _ _ _ _ _ _ F). Qed.
Theorem evaluate_batched m lower upper nbatch n coords (coef : Z -> chunk_1d RA) (out : arr2 R) : 0 <= nbatch -> 0 <= n -> a2_n out = nbatch -> a2_m out = n ->
  (forall j i, 0 <= j < nbatch -> 0 <= i < n -> has_coefficients (coef j) (ncells + d) /\ (a <= coords j i <= b)%R) ->
  exists out', evaluate RA s m lower upper nbatch n coords coef out = Ok out' /\ a2_n out' = nbatch /\ a2_m out' = n /\
    (forall j i, 0 <= j < nbatch -> 0 <= i < n -> a2_at out' j i = spline t b d ncells (coefficient (coef j)) (coords j i)).
Proof.
  intros Hb Hn H1 H2 Hc. unfold evaluate.
  apply (eval_batched_ok (eval RA s m lower upper) (fun j i => spline t b d ncells (coefficient (coef j)) (coords j i))); try assumption.
  intros j i Hj Hi. destruct (Hc j i Hj Hi). now apply (eval_inside_ok _ _ _ _ _ _ _ F).
Qed.
Theorem deriv_value m (coef : chunk_1d RA) x k : has_coefficients coef (ncells + d) -> (a <= x <= b)%R -> 1 <= k <= d -> falling_z d (Z.to_nat k) < 2 ^ 31 ->
  exists c g, d <= c < d + ncells /\ (t c < t (c + 1)%Z)%R /\ (t c <= x <= t (c + 1)%Z)%R /\
    (forall y, (t c <= y <= t (c + 1)%Z)%R -> spline t b d ncells (coefficient coef) y = spline_piece t c d ncells (coefficient coef) y) /\
    nth_derivative (Z.to_nat k) (spline_piece t c d ncells (coefficient coef)) g /\
    eval_no_bc RA s m (Some k) x coef = Ok (g x : num RA).
Proof.
  intros Hc Hx Hk Hf. destruct (eval_deriv_ok _ _ _ _ _ _ _ F m coef x k Hc Hx Hk Hf) as (c & Hcc & E).
  exists c, (deriv_sum d t c k (coefficient coef)). split; [exact (proj1 Hcc)|]. split; [apply (f_cell _ _ _ _ _ _ _ F); exact (proj1 Hcc)|].
  split; [now apply (cell_closed _ _ _ _ _ _ _ F)|]. split; [intros y Hy; apply (piece_closed _ _ _ _ _ _ _ F); [exact (proj1 Hcc) | exact Hy]|].
  split; [apply (deriv_sum_nd _ _ _ _ _ _ _ F); [exact (proj1 Hcc) | lia] | exact E].
Qed.
Theorem first_deriv m (coef : chunk_1d RA) x : has_coefficients coef (ncells + d) -> (a < x < b)%R -> 2 <= d \/ (forall c, t c <> x) ->
  exists v : R, eval_no_bc RA s m (Some 1) x coef = Ok v /\ derivable_pt_lim (spline t b d ncells (coefficient coef)) x v.
Proof. apply (first_deriv_ok _ _ _ _ _ _ _ F). Qed.
Theorem deriv_batched m k nbatch n coords (coef : Z -> chunk_1d RA) (out : arr2 R) : 0 <= nbatch -> 0 <= n -> a2_n out = nbatch -> a2_m out = n -> 1 <= k <= d -> falling_z d (Z.to_nat k) < 2 ^ 31 ->
  (forall j i, 0 <= j < nbatch -> 0 <= i < n -> has_coefficients (coef j) (ncells + d) /\ (a <= coords j i <= b)%R) ->
  exists out', deriv RA s m k nbatch n coords coef out = Ok out' /\ a2_n out' = nbatch /\ a2_m out' = n /\
    (forall j i, 0 <= j < nbatch -> 0 <= i < n -> eval_no_bc RA s m (Some k) (coords j i) (coef j) = Ok (a2_at out' j i : num RA)).
Proof.
  intros Hb Hn H1 H2 Hk Hf Hc. unfold deriv.
  pose (w := fun j i => match eval_no_bc RA s m (Some k) (coords j i) (coef j) with Ok v => (v : R) | _ => 0%R end).
  assert (E : forall j i, 0 <= j < nbatch -> 0 <= i < n -> eval_no_bc RA s m (Some k) (coords j i) (coef j) = Ok (w j i : num RA)).
  { intros j i Hj Hi. destruct (Hc j i Hj Hi) as (C1 & C2). destruct (eval_deriv_ok _ _ _ _ _ _ _ F m (coef j) (coords j i) k C1 C2 Hk Hf) as (c & _ & E). unfold w. now rewrite E. }
  destruct (eval_batched_ok (eval_no_bc RA s m (Some k)) w nbatch n coords coef out) as (o & Eo & O1 & O2 & O3); try assumption.
  exists o. split; [exact Eo|]. split; [exact O1|]. split; [exact O2|]. intros j i Hj Hi. rewrite O3 by assumption. now apply E.
Qed.
Theorem eval_linear m (c1 c2 c3 : chunk_1d RA) u v x : has_coefficients c1 (ncells + d) -> has_coefficients c2 (ncells + d) -> has_coefficients c3 (ncells + d) ->
  (forall i, 0 <= i < ncells + d -> coefficient c3 i = (u * coefficient c1 i + v * coefficient c2 i)%R) -> (a <= x <= b)%R ->
  forall order, match order with None => True | Some k => 1 <= k <= d /\ falling_z d (Z.to_nat k) < 2 ^ 31 end ->
  exists y1 y2 y3 : R, eval_no_bc RA s m order x c1 = Ok y1 /\ eval_no_bc RA s m order x c2 = Ok y2 /\ eval_no_bc RA s m order x c3 = Ok y3 /\
    y3 = (u * y1 + v * y2)%R.
Proof. apply (eval_linear_ok _ _ _ _ _ _ _ F). Qed.
Theorem eval_constant m (coef : chunk_1d RA) v x : has_coefficients coef (ncells + d) -> (forall i, 0 <= i < ncells + d -> coefficient coef i = v) -> (a <= x <= b)%R ->
  eval_no_bc RA s m None x coef = Ok (v : num RA) /\
  (forall k, 1 <= k <= d -> falling_z d (Z.to_nat k) < 2 ^ 31 -> eval_no_bc RA s m (Some k) x coef = Ok (0%R : num RA)).
Proof. apply (eval_constant_ok _ _ _ _ _ _ _ F). Qed.
Theorem integrate_values m q junk nbatch (coef : Z -> chunk_1d RA) (out : arr R) : 0 <= nbatch -> a_len out = nbatch ->
  (bs_uniform RA s = true -> periodic = false -> d <= ncells) ->
  (forall j, 0 <= j < nbatch -> has_coefficients (coef j) (ncells + d) /\ (periodic = true -> periodic_coefficients (coefficient (coef j)) d ncells)) ->
  exists w out', integrate RA s m q junk 0 (ncells + d) nbatch coef out = Ok out' /\ a_len out' = nbatch /\
    (forall i, 0 <= i < (if periodic then ncells else ncells + d) ->
       integral (if periodic then periodic_bspline t b d ncells i else bspline t b (Z.to_nat d) i) a b (w i)) /\
    (forall j, 0 <= j < nbatch -> a_at out' j = sum_first (Z.to_nat (if periodic then ncells else ncells + d)) (fun i => coefficient (coef j) i * w i)%R /\
       integral (spline t b d ncells (coefficient (coef j))) a b (a_at out' j)).
Proof. apply (integrate_ok _ _ _ _ _ _ _ F). Qed.
Theorem deriv_outside m (coef : chunk_1d RA) x k : (x < a - (b - a) * tolerance RA \/ b + (b - a) * tolerance RA < x)%R -> eval_no_bc RA s m (Some k) x coef = Undef.
Proof. apply (eval_no_bc_far _ _ _ _ _ _ _ F). Qed.
End Space.
Theorem eval_periodic s d ncells t a b : spline_space s d true ncells t a b ->
  forall m lower upper (coef : chunk_1d RA) x y k, has_coefficients coef (ncells + d) -> periodic_coefficients (coefficient coef) d ncells ->
  (a <= y <= b)%R -> (x = y + IZR k * (b - a))%R ->
  eval RA s m lower upper x coef = Ok (spline t b d ncells (coefficient coef) y : num RA).
Proof. intros S m lower upper coef x y k. now apply (eval_periodic_ok _ _ _ _ _ _ _ (space_facts _ _ _ _ _ _ _ S)). Qed.
Theorem eval_period s d ncells t a b : spline_space s d true ncells t a b ->
  forall m lower upper (coef : chunk_1d RA) x k, has_coefficients coef (ncells + d) -> periodic_coefficients (coefficient coef) d ncells ->
  exists v : R, eval RA s m lower upper x coef = Ok v /\ eval RA s m lower upper (x + IZR k * (b - a))%R coef = Ok v.
Proof.
  intros S m lower upper coef x k H1 H2. change (num RA) with R in *. pose proof (f_ab _ _ _ _ _ _ _ (space_facts _ _ _ _ _ _ _ S)) as Hab.
  destruct (nfloor_R ((x - a) / (b - a))%R) as (z & _ & Hz).
  pose (y := (x - IZR z * (b - a))%R). assert (Hy : (a <= y <= b)%R).
  { assert (E : (x - a = (x - a) / (b - a) * (b - a))%R) by (field; lra). unfold y. 
    assert (IZR z * (b - a) <= (x - a) / (b - a) * (b - a))%R by (apply Rmult_le_compat_r; lra).
    assert ((x - a) / (b - a) * (b - a) <= (IZR z + 1) * (b - a))%R by (apply Rmult_le_compat_r; lra). lra. }
  exists (spline t b d ncells (coefficient coef) y). split.
  - apply (eval_periodic _ _ _ _ _ _ S) with (k := z); try assumption. unfold y. ring.
  - apply (eval_periodic _ _ _ _ _ _ S) with (k := z + k); try assumption. rewrite plus_IZR. unfold y. ring.
Qed.
Theorem eval_outside s d ncells t a b : spline_space s d false ncells t a b ->
  forall m lower upper (coef : chunk_1d RA) x,
  ((x < a)%R -> eval RA s m lower upper x coef = lower x coef) /\ ((b < x)%R -> eval RA s m lower upper x coef = upper x coef).
Proof. intros S m lower upper coef x. now apply (eval_outside_ok _ _ _ _ _ _ _ (space_facts _ _ _ _ _ _ _ S)). Qed.
Theorem rules_values s d ncells t a b : spline_space s d false ncells t a b ->
  forall m (coef : chunk_1d RA) x, has_coefficients coef (ncells + d) ->
  null_rule RA x coef = Ok (0%R : num RA) /\
  constant_rule RA s m a x coef = Ok (spline t b d ncells (coefficient coef) a : num RA) /\
  constant_rule RA s m b x coef = Ok (spline t b d ncells (coefficient coef) b : num RA).
Proof.
  intros S m coef x H. pose proof (space_facts _ _ _ _ _ _ _ S) as F. pose proof (f_ab _ _ _ _ _ _ _ F). split; [reflexivity|].
  split; apply (constant_rule_ok _ _ _ _ _ _ _ F); try assumption; lra.
Qed.
Theorem spaces_exist : (forall q d periodic a b ncells, 1 <= d -> 1 <= ncells -> (a < b)%R -> ncells + 1 + 2 * d < 2 ^ 31 ->
    exists s, spline_space (Uniform s) d periodic ncells (uniform_knots d a b ncells) a b /\ ub_construct RA q d periodic a b ncells = Ok s) /\
  (forall junk d (periodic : bool) l, 1 <= d -> (2 <= length l)%nat -> strictly_increasing l -> Z.of_nat (length l) + 2 * d < 2 ^ 31 ->
    exists s, spline_space (NonUniform s) d periodic (Z.of_nat (length l) - 1) (knots periodic d l) (first_point l) (last_point l) /\ nb_construct RA junk d periodic l = Ok (Some s)).
Proof.
  split.
  - intros q d periodic a b ncells Hd Hn Hab Hbig. destruct (ub_construct_ok q a b ncells d periodic Hd Hn Hbig Hab) as (s & E & _); try assumption. exists s. split; [|exact E]. now apply uniform_space with (q := q).
  - intros junk d periodic l Hd Hlen Hs Hbig. destruct (nu_space d periodic l Hd Hlen Hs Hbig junk) as (s & E & _). exists s. split; [|exact E]. now apply non_uniform_space with (junk := junk).
Qed.
