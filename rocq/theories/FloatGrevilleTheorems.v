(** The theorems on Greville points of non-uniform cells in binary64, and break points whose Greville points leave the interval. *)
From Coq Require Import Bool Reals Lia Lra ZifyBool List Floats.SpecFloat.
From Flocq Require Import Core IEEE754.BinarySingleNaN.
From Verif Require Import BSplineModel BSplineSpec PointsModel EvaluatorModel EvaluatorSpec PointsProofs FloatLink FloatCell2 FloatCell3 FloatSpec FloatNonUniformSpec FloatGrevilleSpec FloatKnots2 FloatIntegral FloatGreville FloatGreville2 FloatExamples FloatNonUniformTheorems FloatNonUniformExamples.
Import ListNotations.
Local Open Scope bool_scope. Local Open Scope Z_scope.

Theorem greville_points : forall junk d l s, float_cells d l -> nb_construct FA junk d false l = Ok (Some s) ->
  exists p, ng_points FA s = Ok (Some p) /\ Z.of_nat (length (ns_points FA p)) = cells l + d /\
    (forall i x, nth_error (ns_points FA p) i = Some x -> fok x /\ (Rabs (fval x - greville (held_knots s) d (Z.of_nat i)) <= greville_error d l)%R /\
      (first_break l - greville_error d l <= fval x <= last_break l + greville_error d l)%R) /\
    (forall i j x y, (i <= j)%nat -> nth_error (ns_points FA p) i = Some x -> nth_error (ns_points FA p) j = Some y -> (fval x <= fval y)%R).
Proof.
  intros junk d l s HF Hs. pose proof (in_d junk d l HF) as (Hd & Hn & Hbig). eexists. split; [exact (gr_points junk d l HF s Hs)|]. cbn [ns_points]. split; [|split].
  - unfold gpoints, cells. rewrite map_length, seq_length. lia.
  - intros i x Hx. destruct (gr_nth d l s i x Hx) as (Hi & ->). destruct (gr_error junk d l HF s Hs (Z.of_nat i) Hi) as (O & Er). split; [exact O|]. split; [exact Er|].
    assert (R1 : (first_break l <= greville (held_knots s) d (Z.of_nat i) <= last_break l)%R) by (apply greville_bounds; [lia|]; intros k Hk; apply (gr_range junk d l HF s Hs); lia).
    apply Rabs_le_inv in Er. lra.
  - intros i j x y Hij Hx Hy. destruct (gr_nth d l s i x Hx) as (Hi & ->). destruct (gr_nth d l s j y Hy) as (Hj & ->). apply (gr_mono junk d l HF s Hs); lia.
Qed.
Theorem greville_inside : forall junk d l s p, float_cells d l -> nb_construct FA junk d false l = Ok (Some s) -> ng_points FA s = Ok (Some p) ->
  repeats_exactly d (first_break l) -> repeats_exactly d (last_break l) ->
  (forall x, nth_error (ns_points FA p) 0 = Some x -> fval x = first_break l) /\
  (forall x, nth_error (ns_points FA p) (length (ns_points FA p) - 1) = Some x -> fval x = last_break l) /\
  (forall x, In x (ns_points FA p) -> (first_break l <= fval x <= last_break l)%R).
Proof.
  intros junk d l s p HF Hs Hp H1 H2. pose proof (in_d junk d l HF) as (Hd & Hn & Hbig). assert (p = mk_ns FA (gpoints d l s) 0) by (pose proof (gr_points junk d l HF s Hs); congruence). subst p. cbn [ns_points].
  assert (Ln : length (gpoints d l s) = Z.to_nat (Z.of_nat (length l) - 1 + d)) by (unfold gpoints; now rewrite map_length, seq_length).
  pose proof (gr_first junk d l HF s Hs H1) as G1. pose proof (gr_last junk d l HF s Hs H2) as G2. split; [|split].
  - intros x Hx. destruct (gr_nth d l s 0 x Hx) as (_ & ->). exact G1.
  - intros x Hx. destruct (gr_nth d l s _ x Hx) as (Hi & ->). rewrite <- G2. f_equal. f_equal. change (num FA) with spec_float in *. rewrite Ln. lia.
  - intros x Hx. apply In_nth_error in Hx. destruct Hx as (i & Hx). destruct (gr_nth d l s i x Hx) as (Hi & ->). rewrite <- G1, <- G2. split; apply (gr_mono junk d l HF s Hs); lia.
Qed.

(** *** break points 0, 0.05 and 0.1 *)
Definition tenth : spec_float := S754_finite false 7205759403792794 (-56).
Definition tenth_breaks : list spec_float := [nofz FA 0; S754_finite false 7205759403792794 (-57); tenth].
Definition above_tenth : spec_float := S754_finite false 7205759403792795 (-56).
Definition ones_ex : chunk_1d FA := mk_chunk_1d FA 0 (mk_arr 5 (fun _ => nofz FA 1 : num FA)).
Lemma tenth_val m e : 0 <= e -> fval (S754_finite false m (- e)) = (IZR (Zpos m) / IZR (2 ^ e))%R.
Proof. intros He. unfold fval, SF2R, F2R. cbn [Fnum Fexp cond_Zopp]. rewrite (bpowN e He). reflexivity. Qed.
Lemma tenth_vals : fval (nofz FA 0) = 0%R /\ fval (S754_finite false 7205759403792794 (-57)) = (7205759403792794 / IZR (2 ^ 57))%R /\ fval tenth = (7205759403792794 / IZR (2 ^ 56))%R /\ fval above_tenth = (7205759403792795 / IZR (2 ^ 56))%R.
Proof. split; [exact (proj2 (fofz_exact 0 ltac:(lia)))|]. split; [exact (tenth_val 7205759403792794 57 ltac:(lia))|]. split; [exact (tenth_val 7205759403792794 56 ltac:(lia)) | exact (tenth_val 7205759403792795 56 ltac:(lia))]. Qed.
Lemma tenth_cells : float_cells 3 tenth_breaks.
Proof.
  destruct tenth_vals as (V0 & V1 & V2 & _). change (IZR (2 ^ 57)) with (IZR (2 * 2 ^ 56)) in V1. rewrite mult_IZR in V1.
  set (w := IZR (2 ^ 56)) in *. assert (W : (w = 72057594037927936)%R) by reflexivity. pose proof bpow_64 as B. pose proof tiny_gap as T.
  assert (X2 : (/ 11 <= fval tenth <= / 9)%R) by (rewrite V2, W; lra). assert (X1 : (fval (S754_finite false 7205759403792794 (-57)) = fval tenth / 2)%R) by (rewrite V1, V2, W; lra).
  assert (T2 : (bpow radix2 (-900) <= / 64)%R). { replace (/ 64)%R with (bpow radix2 (-6)) by (change (-6) with (- (6)); rewrite (bpowN 6) by lia; reflexivity). apply bpow_le. lia. }
  split; [lia|]. split; [cbn; lia|]. split; [cbn; lia|]. split.
  - intros x [<-|[<-|[<-|[]]]].
    + split; [exact (proj1 (fofz_exact 0 ltac:(lia)))|]. rewrite V0, Rabs_R0. lra.
    + split; [split; reflexivity|]. rewrite Rabs_pos_eq; lra.
    + split; [split; reflexivity|]. rewrite Rabs_pos_eq; lra.
  - intros k x y Hx Hy. assert (Es : forall u v : spec_float, Some u = Some v -> u = v) by congruence. destruct k as [|[|[|k]]]; cbn [nth_error tenth_breaks] in Hx, Hy; try discriminate; apply Es in Hx, Hy; rewrite <- Hx, <- Hy; try lra.
Qed.
(** The last point, and the value there of the spline whose coefficients are all 1 *)
Definition tenth_run : option (spec_float * res spec_float) :=
  match nb_construct FA (fun _ => S754_nan) 3 false tenth_breaks with
  | Ok (Some s) => match ng_points FA s with
                   | Ok (Some p) => let x := last (ns_points FA p) (S754_zero false : num FA) in Some (x, eval FA (NonUniform s) memory_ex (null_rule FA) (null_rule FA) x ones_ex)
                   | _ => None end
  | _ => None end.
Lemma tenth_ran : tenth_run = Some (above_tenth, Ok (S754_zero false)).
Proof. vm_compute. reflexivity. Qed.
Lemma tenth_last : (last_break tenth_breaks < fval above_tenth)%R.
Proof. destruct tenth_vals as (_ & _ & V2 & V3). unfold last_break. cbn [tenth_breaks length nth Nat.sub]. rewrite V2, V3. assert (W : (IZR (2 ^ 56) = 72057594037927936)%R) by reflexivity. rewrite W. lra. Qed.
Lemma last_In {T} (l : list T) z : l <> [] -> In (last l z) l.
Proof. intros H. destruct (exists_last H) as (l' & x & ->). rewrite last_last. apply in_or_app. right. now left. Qed.
Lemma tenth_facts : exists s p, nb_construct FA (fun _ => S754_nan) 3 false tenth_breaks = Ok (Some s) /\ ng_points FA s = Ok (Some p) /\ In above_tenth (ns_points FA p) /\
  eval FA (NonUniform s) memory_ex (null_rule FA) (null_rule FA) above_tenth ones_ex = Ok (S754_zero false : num FA).
Proof.
  pose proof tenth_ran as T. unfold tenth_run in T. destruct (cells_construct (fun _ => S754_nan) 3 false tenth_breaks tenth_cells (or_introl eq_refl)) as (s & Es).
  destruct (greville_points _ _ _ s tenth_cells Es) as (p & Ep & Lp & _). change (num FA) with spec_float in *. rewrite Es, Ep in T. exists s, p. split; [exact Es|]. split; [exact Ep|].
  cbv zeta in T.
  assert (Es2 : forall u v : spec_float * res spec_float, Some u = Some v -> fst u = fst v /\ snd u = snd v) by (intros u v Huv; assert (u = v) by congruence; subst; auto).
  apply Es2 in T. cbn [fst snd] in T. destruct T as (X & T). rewrite X in T. split; [|exact T].
  rewrite <- X. apply (last_In (ns_points FA p)). intros E0. rewrite E0 in Lp. discriminate Lp.
Qed.
Theorem greville_inside_refuted : ~ (forall junk d l s p x, float_cells d l -> nb_construct FA junk d false l = Ok (Some s) -> ng_points FA s = Ok (Some p) -> In x (ns_points FA p) ->
  (first_break l <= fval x <= last_break l)%R).
Proof.
  intros H. destruct tenth_facts as (s & p & Es & Ep & Hi & _). pose proof (H _ _ _ _ _ _ tenth_cells Es Ep Hi). pose proof tenth_last. lra.
Qed.
Theorem greville_value_refuted : exists junk d l s p m x (c : chunk_1d FA) y, float_cells d l /\ nb_construct FA junk d false l = Ok (Some s) /\ ng_points FA s = Ok (Some p) /\ In x (ns_points FA p) /\
  float_coefficients c (cells l + d) 1 /\ (forall i, 0 <= i < cells l + d -> float_coefficient c i = 1%R) /\
  eval FA (NonUniform s) m (null_rule FA) (null_rule FA) x c = Ok y /\ fval y = 0%R.
Proof.
  destruct tenth_facts as (s & p & Es & Ep & Hi & Ev). exists (fun _ => S754_nan), 3, tenth_breaks, s, p, memory_ex, above_tenth, ones_ex, (S754_zero false).
  destruct (fofz_exact 1 ltac:(lia)) as (O1 & O2). split; [exact tenth_cells|]. split; [exact Es|]. split; [exact Ep|]. split; [exact Hi|]. split; [|split; [|split; [exact Ev | reflexivity]]].
  - split; [reflexivity|]. split; [reflexivity|]. intros i _. cbn [ones_ex c1_vals a_at]. split; [exact O1|]. rewrite O2, Rabs_R1. lra.
  - intros i _. exact O2.
Qed.
Definition greville_ex (z : Z) : option (list Z) :=
  match nb_construct FA (fun _ => S754_nan) 3 false breaks_ex with
  | Ok (Some s) => match ng_points FA s with Ok (Some p) => Some (map (fun x => ntrunc FA (nmul FA x (nofz FA z))) (ns_points FA p)) | _ => None end
  | _ => None end.
