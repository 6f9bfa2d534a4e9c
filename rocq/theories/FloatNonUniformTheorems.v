(** The theorems on splines on non-uniform cells in binary64. *)
From Coq Require Import Bool Reals Lia Lra Psatz ZifyBool List Floats.SpecFloat.
From Flocq Require Import Core.
From Verif Require Import BSplineModel BSplineSpec LoopProofs BSplineMath BSplineDeriv BSplineProofs BSplineUniform SamplingSpec SamplingProofs CellProofs IntegralProofs EvaluatorSpec EvaluatorProofs FloatLink FloatCell FloatCell2 FloatCell3
  FloatBasis FloatStep FloatNonUniform FloatKnots FloatSpec FloatNonUniformSpec FloatEval FloatKnots2.
Local Open Scope bool_scope. Local Open Scope Z_scope.

Theorem cells_construct : forall junk d periodic l, float_cells d l -> periodic = false \/ wide_ends l -> exists s, nb_construct FA junk d periodic l = Ok (Some s).
Proof.
  intros junk d periodic l HF HE. destruct (nu_construct junk d periodic l HF) as (a & K & O & EC). pose proof (kn_is_sorted junk d periodic l HF a K O HE) as S. rewrite EC. change (num FA) with spec_float in *. rewrite S. eexists. reflexivity.
Qed.
Lemma near_outer y P e e' : (Rabs e <= U)%R -> (Rabs e' <= U)%R -> forall L, (0 <= L)%R -> P = (L * (1 + e'))%R ->
  (Rabs ((y + P) * (1 + e) - (y + L)) <= (L + 2 * Rabs ((y + P) * (1 + e))) * U)%R.
Proof.
  intros He He' L HL ->. pose proof U_tiny as UT. set (w := (y + L * (1 + e'))%R).
  replace (w * (1 + e) - (y + L))%R with (w * e + L * e')%R by (unfold w; ring). eapply Rle_trans; [apply Rabs_triang|]. rewrite !Rabs_mult, (Rabs_pos_eq L) by exact HL.
  pose proof (Rabs_pos w) as W. assert (H1 : (/ 2 <= Rabs (1 + e))%R) by (apply Rabs_le_inv in He; rewrite Rabs_pos_eq; lra).
  assert (A : (Rabs w * Rabs e <= Rabs w * U)%R) by (apply Rmult_le_compat_l; lra). assert (B : (L * Rabs e' <= L * U)%R) by (apply Rmult_le_compat_l; lra).
  assert (C : (Rabs w * U <= 2 * (Rabs w * Rabs (1 + e)) * U)%R). { apply Rmult_le_compat_r; [lra|]. assert (Rabs w * / 2 <= Rabs w * Rabs (1 + e))%R by (apply Rmult_le_compat_l; lra). lra. }
  lra.
Qed.
Theorem cells_knots : forall junk d periodic l s, float_cells d l -> nb_construct FA junk d periodic l = Ok (Some s) ->
  (forall k x, nth_error l k = Some x -> held_knot s (d + Z.of_nat k) = x) /\
  (forall i, 1 <= i <= d ->
    if periodic then
      (Rabs (held_knots s (d - i) - (held_knots s (d + cells l - i) - (last_break l - first_break l))) <= (last_break l - first_break l + 2 * Rabs (held_knots s (d - i))) / IZR (2 ^ 53))%R /\
      (Rabs (held_knots s (d + cells l + i) - (held_knots s (d + i) + (last_break l - first_break l))) <= (last_break l - first_break l + 2 * Rabs (held_knots s (d + cells l + i))) / IZR (2 ^ 53))%R
    else held_knots s (d - i) = first_break l /\ held_knots s (d + cells l + i) = last_break l).
Proof.
  intros junk d periodic l s HF Hs. pose proof (nu_d junk d l HF) as (Hd & Hn & Hbig). split.
  - intros k x Hk. assert (Lk : (k < length l)%nat) by (apply nth_error_Some; congruence). rewrite (sp_break junk d periodic l HF s Hs k Lk). rewrite (nu_nth l k Lk) in Hk. congruence.
  - intros i Hi. destruct (sp_held junk d periodic l HF s Hs) as (a & K & O & _ & H). unfold cells, held_knots. rewrite !H by lia.
    destruct (nu_ends junk d l HF) as (_ & _ & _ & _ & H01). fold (first_break l) (last_break l) in H01.
    destruct (Bool.bool_dec periodic true) as [Hp|Hp]; [|apply Bool.not_true_is_false in Hp].
    + destruct (kn_period junk d l HF) as (PO & _ & e & He & EP). fold (first_break l) (last_break l) in EP.
      destruct (kn_ok junk d periodic l HF a K O (d + (Z.of_nat (length l) - 1) - i) ltac:(lia)) as (A1 & _). destruct (kn_ok junk d periodic l HF a K O (d + i) ltac:(lia)) as (A2 & _).
      pose proof (kn_sub junk d periodic l HF a K O i Hp Hi) as E1. pose proof (kn_add junk d periodic l HF a K O i Hp Hi) as E2. rewrite Hp.
      set (P := SFsub 53 1024 (nth (length l - 1) l (S754_zero false)) (nth 0 l (S754_zero false))) in *. change (num FA) with spec_float in *. rewrite E1, E2.
      destruct (rnd_dif _ _ (F_fval _ A1) (F_fval _ PO)) as (e1 & He1 & ->). destruct (rnd_sum _ _ (F_fval _ A2) (F_fval _ PO)) as (e2 & He2 & ->).
      split.
      * set (y := fval (a_at a (d + (Z.of_nat (length l) - 1) - i))). pose proof (near_outer (- y) (fval P) e1 e He1 He (last_break l - first_break l)%R ltac:(lra) EP) as G.
        replace ((y - fval P) * (1 + e1))%R with (- ((- y + fval P) * (1 + e1)))%R by ring. rewrite Rabs_Ropp.
        match goal with |- (Rabs ?u <= _)%R => replace u with (- ((- y + fval P) * (1 + e1) - (- y + (last_break l - first_break l))))%R by ring end. rewrite Rabs_Ropp. exact G.
      * exact (near_outer _ (fval P) e2 e He2 He (last_break l - first_break l)%R ltac:(lra) EP).
    + destruct (kn_open junk d periodic l HF a K O i Hp Hi) as (E1 & E2). rewrite Hp. change (num FA) with spec_float in *. rewrite E1, E2. split; reflexivity.
Qed.
Theorem cells_cell : forall junk d periodic l s x, float_cells d l -> nb_construct FA junk d periodic l = Ok (Some s) -> fok x -> (first_break l <= fval x <= last_break l)%R ->
  exists k, nb_cell FA s x = Ok (d + k) /\ 0 <= k < cells l /\ ((held_knots s (d + k) <= fval x < held_knots s (d + k + 1))%R \/ (fval x = last_break l /\ k = cells l - 1)).
Proof.
  intros junk d periodic l s x HF Hs Hx Hin. destruct (sp_nb_cell junk d periodic l HF s Hs x Hx Hin) as (c & Ec & Hc & C). exists (c - d). unfold cells. replace (d + (c - d)) with c by ring. split; [exact Ec|]. split; [lia|].
  destruct C as [C|[C1 C2]]; [left; exact C | right; split; [exact C1 | lia]].
Qed.
Lemma neps_is d : neps d = cells_basis_error d.
Proof. unfold neps, cells_basis_error, U. rewrite mult_IZR. field. apply not_0_IZR. lia. Qed.
Theorem cells_basis : forall junk d periodic l s x left_ right_ (values : arr spec_float), float_cells d l -> nb_construct FA junk d periodic l = Ok (Some s) ->
  fok x -> (first_break l <= fval x <= last_break l)%R -> a_len values = d + 1 ->
  exists v k, nb_eval_basis FA s left_ right_ values x = Ok (v, k) /\ nb_cell FA s x = Ok (d + k) /\ 0 <= k < cells l /\ a_len v = d + 1 /\
    (forall r, 0 <= r <= d -> fok (a_at v r) /\ (0 <= fval (a_at v r))%R) /\
    (sum_first (Z.to_nat (d + 1)) (fun r => Rabs (fval (a_at v r) - bspline (held_knots s) (last_break l) (Z.to_nat d) (k + r) (fval x))) <= cells_basis_error d)%R /\
    (Rabs (sum_first (Z.to_nat (d + 1)) (fun r => fval (a_at v r)) - 1) <= cells_basis_error d)%R.
Proof.
  intros junk d periodic l s x left_ right_ values HF Hs Hx Hin Lv. destruct (sp_nb_cell junk d periodic l HF s Hs x Hx Hin) as (c & Ec & Hc & C). pose proof (nu_d junk d l HF) as (Hd & Hn & Hbig).
  destruct (pt_basis junk d periodic l HF s Hs x c Hx Hc C Ec left_ right_ values Lv) as (v & EV & L & V1 & V2 & V3). exists v, (c - d). split; [exact EV|]. replace (d + (c - d)) with c by ring. split; [exact Ec|].
  unfold cells. split; [lia|]. split; [exact L|]. split; [intros r Hr; apply V1; lia|]. rewrite <- neps_is, !sum_first_zsum. split.
  - eapply Rle_trans; [|exact V2]. right. apply zsum_ext. intros r Hr. rewrite (pt_V junk d periodic l HF s Hs x c Hc C r) by lia. reflexivity.
  - rewrite <- V3. replace (zsum (d + 1) (fun r => fval (a_at v r)) - zsum (d + 1) (fun r => V (held_knots s) c d r (fval x)))%R with (zsum (d + 1) (fun r => fval (a_at v r) - V (held_knots s) c d r (fval x))%R).
    + eapply Rle_trans; [apply zsum_abs | exact V2].
    + assert (zsum (d + 1) (fun r => fval (a_at v r)) = zsum (d + 1) (fun r => fval (a_at v r) - V (held_knots s) c d r (fval x))%R + zsum (d + 1) (fun r => V (held_knots s) c d r (fval x)))%R; [|lra].
      rewrite <- zsum_plus. apply zsum_ext. intros. ring.
Qed.
Theorem cells_spline : forall junk d periodic l s m lower upper (c : chunk_1d FA) M x, float_cells d l -> nb_construct FA junk d periodic l = Ok (Some s) ->
  float_coefficients c (cells l + d) M -> (M <= bpow radix2 1000)%R -> fok x -> (first_break l <= fval x <= last_break l)%R ->
  exists y, eval FA (NonUniform s) m lower upper x c = Ok y /\ eval_no_bc FA (NonUniform s) m None x c = Ok y /\ fok y /\
    (Rabs (fval y - spline (held_knots s) (last_break l) d (cells l) (float_coefficient c) (fval x)) <= M * cells_spline_error d + IZR (4 * (d + 1)) * half_smallest)%R.
Proof.
  intros junk d periodic l s m lower upper cf M x HF Hs Hcf HM Hx Hin. destruct (sp_nb_cell junk d periodic l HF s Hs x Hx Hin) as (c & Ec & Hc & C). pose proof (nu_d junk d l HF) as (Hd & Hn & Hbig).
  set (values := mk_arr (d + 1) (m_vals m) : arr spec_float). destruct (sp_fields junk d periodic l HF s Hs) as (D & _).
  destruct (pt_basis junk d periodic l HF s Hs x c Hx Hc C Ec (m_left m) (m_right m) values eq_refl) as (v & EV & L & V1 & V2 & V3).
  destruct (f_sum_exact (NonUniform s) d (cells l) (c - d) cf M (neps d) v (fun r => V (held_knots s) c d r (fval x)) ltac:(lia) D ltac:(unfold cells; lia) ltac:(unfold cells; lia) ltac:(unfold cells; lia) HM Hcf L V1 V3 V2 (proj2 (neps_small d ltac:(lia)))) as (y & EY & Y1 & Y2).
  assert (EN : eval_no_bc FA (NonUniform s) m None x cf = Ok y).
  { unfold eval_no_bc, bs_eval_basis. cbn [bs_degree]. change (num FA) with spec_float in *. rewrite D. fold values. rewrite EV. cbn [rbind]. exact EY. }
  exists y. split.
  { destruct (nu_ends junk d l HF) as (H0 & H1 & _). unfold eval, bs_length, bs_rmin, bs_rmax. pose proof (sp_rmin junk d periodic l HF s Hs) as R0. pose proof (sp_rmax junk d periodic l HF s Hs) as R1. change (num FA) with spec_float in *.
    rewrite R0, R1. cbn [rbind nltb FA]. rewrite !fltb_ok by assumption. fold (first_break l) (last_break l). rewrite !R_ltb_false by lra. cbn [orb]. destruct (bs_periodic FA (NonUniform s)); exact EN. }
  split; [exact EN|]. split; [exact Y1|].
  rewrite (pt_spline junk d periodic l HF s Hs x c Hc C (float_coefficient cf) : spline (held_knots s) (last_break l) d (cells l) (float_coefficient cf) (fval x) = _).
  eapply Rle_trans; [exact Y2|]. right. unfold neps, cells_spline_error, half_smallest, U. fold E. rewrite (mult_IZR 4).
  replace (11 * d + 6) with (9 * d + (2 * d + 6)) by ring. rewrite (plus_IZR (9 * d)), (mult_IZR 9). field. apply not_0_IZR. lia.
Qed.
Theorem cells_between : forall junk d periodic l s m lower upper (c : chunk_1d FA) M lo hi x, float_cells d l -> nb_construct FA junk d periodic l = Ok (Some s) ->
  float_coefficients c (cells l + d) M -> (M <= bpow radix2 1000)%R -> (forall i, 0 <= i < cells l + d -> (lo <= float_coefficient c i <= hi)%R) ->
  fok x -> (first_break l <= fval x <= last_break l)%R ->
  exists y, eval FA (NonUniform s) m lower upper x c = Ok y /\
    (lo - (M * cells_spline_error d + IZR (4 * (d + 1)) * half_smallest) <= fval y <= hi + (M * cells_spline_error d + IZR (4 * (d + 1)) * half_smallest))%R.
Proof.
  intros junk d periodic l s m lower upper cf M lo hi x HF Hs Hcf HM Hlh Hx Hin. destruct (cells_spline junk d periodic l s m lower upper cf M x HF Hs Hcf HM Hx Hin) as (y & EY & _ & _ & B). exists y. split; [exact EY|].
  destruct (sp_nb_cell junk d periodic l HF s Hs x Hx Hin) as (c & Ec & Hc & C). pose proof (nu_d junk d l HF) as (Hd & Hn & Hbig).
  destruct (pt_basis junk d periodic l HF s Hs x c Hx Hc C Ec (m_left m) (m_right m) (mk_arr (d + 1) (m_vals m)) eq_refl) as (? & _ & _ & _ & _ & V3).
  rewrite (pt_spline junk d periodic l HF s Hs x c Hc C (float_coefficient cf) : spline (held_knots s) (last_break l) d (cells l) (float_coefficient cf) (fval x) = _) in B.
  assert (V0 : forall r, (0 <= V (held_knots s) c d r (fval x))%R).
  { intros r. apply (V_nonneg (held_knots s) c d (pt_mono junk d periodic l HF s Hs c Hc) (sp_cell junk d periodic l HF s Hs c Hc) d); try lia. exact (pt_closed junk d periodic l HF s Hs x c Hc C). }
  assert (G1 : (lo <= zsum (d + 1) (fun r => float_coefficient cf (c - d + r)%Z * V (held_knots s) c d r (fval x)))%R).
  { replace lo with (lo * zsum (d + 1) (fun r => V (held_knots s) c d r (fval x)))%R by (rewrite V3; ring). rewrite <- zsum_scal. apply zsum_le. intros r Hr. apply Rmult_le_compat_r; [apply V0|]. apply Hlh. unfold cells. lia. }
  assert (G2 : (zsum (d + 1) (fun r => float_coefficient cf (c - d + r)%Z * V (held_knots s) c d r (fval x)) <= hi)%R).
  { replace hi with (hi * zsum (d + 1) (fun r => V (held_knots s) c d r (fval x)))%R by (rewrite V3; ring). rewrite <- zsum_scal. apply zsum_le. intros r Hr. apply Rmult_le_compat_r; [apply V0|]. apply Hlh. unfold cells. lia. }
  apply Rabs_le_inv in B. lra.
Qed.
