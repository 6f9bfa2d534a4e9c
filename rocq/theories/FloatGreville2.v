(** Greville points of non-uniform cells in binary64, with open knots. *)
From Coq Require Import Bool Reals Lia Lra Psatz ZifyBool List Floats.SpecFloat.
From Flocq Require Import Core.
From Verif Require Import BSplineModel BSplineSpec PointsModel PointsSpec LoopProofs BSplineMath BSplineDeriv BSplineProofs BSplineUniform SamplingSpec SamplingProofs CellProofs KnotProofs SplineLemmas PointsProofs EvaluatorSpec
  FloatLink FloatCell FloatCell2 FloatCell3 FloatBasis FloatStep FloatNonUniform FloatKnots FloatSpec FloatNonUniformSpec FloatKnots2 FloatIntegral FloatIntegral2 FloatGreville FloatGrevilleSpec.
Import ListNotations.
Local Open Scope bool_scope. Local Open Scope Z_scope.

Lemma fval_double x : fok x -> (Rabs (fval x) <= bpow radix2 919)%R -> rnd (fval x + fval x) = (fval x + fval x)%R.
Proof.
  intros Hx Hb. apply rnd_id. pose proof (F_fval x Hx) as Fx. unfold F in *. replace (fval x + fval x)%R with (fval x * bpow radix2 1)%R by (change (bpow radix2 1) with 2%R; ring).
  rewrite fexp_flt in *. apply generic_format_FLT. apply FLT_format_generic in Fx; [|unfold Prec_gt_0; lia]. destruct Fx as [g G1 G2 G3].
  exists (Float radix2 (Fnum g) (Fexp g + 1)); cbn [Fnum Fexp]; [|exact G2|lia]. rewrite G1. unfold F2R. cbn [Fnum Fexp]. rewrite bpow_plus. ring.
Qed.
Lemma favg_const f d x : 1 <= d <= 1000 -> (forall k, 0 <= k < d -> fok (f k) /\ fval (f k) = x) -> (Rabs x <= bpow radix2 900)%R -> repeats_exactly d x -> fval (favg f d) = x.
Proof.
  intros Hd Hf Hx Hr. assert (B9 : (bpow radix2 900 <= bpow radix2 919)%R) by (apply bpow_le; lia). assert (HB : (0 <= Rabs x <= bpow radix2 919)%R) by (split; [apply Rabs_pos | lra]).
  assert (Hf' : forall k, 0 <= k < d -> fok (f k) /\ (Rabs (fval (f k)) <= Rabs x)%R) by (intros k Hk; destruct (Hf k Hk) as (F1 & ->); split; [exact F1 | lra]).
  destruct (favg_ok f d (Rabs x) Hd HB Hf') as (_ & -> & _). assert (D0 : (IZR d <> 0)%R) by (apply not_0_IZR; lia).
  assert (Fx : rnd x = x) by (destruct (Hf 0 ltac:(lia)) as (F1 & <-); apply rnd_fval; exact F1).
  assert (St : forall k, Z.of_nat k < d -> fval (fsum f (S k)) = rnd (fval (fsum f k) + x)).
  { intros k Hk. destruct (fsum_ok f d (Rabs x) Hd HB Hf' k ltac:(lia)) as (O & Er). rewrite (proj2 (fsum_add f d (Rabs x) Hd HB Hf' k O ltac:(lia) Er)). now rewrite (proj2 (Hf (Z.of_nat k) ltac:(lia))). }
  assert (S0 : fval (fsum f 0) = 0%R) by exact (proj2 (fofz_exact 0 ltac:(lia))).
  assert (G : fval (fsum f (Z.to_nat d)) = (IZR d * x)%R); [|rewrite G; replace (IZR d * x / IZR d)%R with x by (field; exact D0); exact Fx].
  destruct Hr as [Hr|(z & -> & Hz)].
  - assert (E1 : fval (fsum f 1) = x) by (rewrite St, S0, Rplus_0_l by (change (Z.of_nat 0) with 0; lia); exact Fx). destruct (Z.eq_dec d 1) as [->|]; [change (Z.to_nat 1) with 1%nat; rewrite E1; ring|].
    assert (d = 2) by lia. subst d. change (Z.to_nat 2) with 2%nat. rewrite St, E1 by (change (Z.of_nat 1) with 1; lia). destruct (Hf 0 ltac:(lia)) as (F1 & F2). rewrite <- F2. rewrite fval_double; [ring | exact F1 | rewrite F2; lra].
  - assert (G : forall k, Z.of_nat k <= d -> fval (fsum f k) = IZR (Z.of_nat k * z)).
    { induction k as [|k IH]; intros Hk; [exact S0|]. rewrite St, IH by lia. rewrite <- plus_IZR. replace (Z.of_nat k * z + z) with (Z.of_nat (S k) * z) by lia. apply rnd_int. rewrite Z.abs_mul. nia. }
    rewrite G, Z2Nat.id, mult_IZR by lia. reflexivity.
Qed.
Section Float.
Variables (junk : Z -> spec_float) (d : Z) (l : list spec_float).
Hypothesis HF : float_cells d l.
Variable s : n_bsplines FA.
Hypothesis Hs : nb_construct FA junk d false l = Ok (Some s).
Notation t := (held_knots s).
Let n := Z.of_nat (length l).
Let N := n - 1 + d.
Let B := size_of_breaks l.
Definition gp (i : Z) : spec_float := favg (fun k => held_knot s (i + 1 + k)) d.
Lemma gr_range k : 0 <= k < n + 2 * d -> (first_break l <= t k <= last_break l)%R.
Proof.
  intros Hk. pose proof (in_d junk d l HF) as (Hd & Hn & Hbig). fold n in Hn, Hbig.
  pose proof (sp_mono junk d false l HF s Hs 0 k ltac:(lia) ltac:(fold n; lia)) as M1. pose proof (sp_mono junk d false l HF s Hs k (n + 2 * d - 1) ltac:(lia) ltac:(fold n; lia)) as M2.
  assert (E1 : t 0 = first_break l). { rewrite (op_knots junk d l HF s Hs 0) by (fold n; lia). rewrite (knots_open_left (map fval l) d) by (rewrite ?map_length; unfold n in *; lia). apply op_first. }
  assert (E2 : t (n + 2 * d - 1) = last_break l). { rewrite (op_knots junk d l HF s Hs (n + 2 * d - 1)) by (fold n; lia). rewrite (knots_open_right (map fval l) d) by (rewrite ?map_length; unfold n in *; lia). apply op_last. }
  lra.
Qed.
Lemma gr_B : (0 <= B <= bpow radix2 919)%R /\ (Rabs (first_break l) <= bpow radix2 900)%R /\ (Rabs (last_break l) <= bpow radix2 900)%R.
Proof.
  destruct (nu_ends junk d l HF) as (_ & _ & B0 & B1 & _). assert (bpow radix2 900 <= bpow radix2 919)%R by (apply bpow_le; lia). unfold B, size_of_breaks, first_break, last_break in *.
  split; [|split; assumption]. split; [eapply Rle_trans; [apply Rabs_pos | apply Rmax_l]|]. apply Rmax_lub; eapply Rle_trans; try eassumption.
Qed.
Lemma gr_in i k : 0 <= i < N -> 0 <= k < d -> fok (held_knot s (i + 1 + k)) /\ (Rabs (fval (held_knot s (i + 1 + k))) <= B)%R.
Proof.
  intros Hi Hk. unfold N in Hi. split; [apply (sp_ok junk d false l HF s Hs); fold n; lia|]. pose proof (gr_range (i + 1 + k) ltac:(lia)) as R1. unfold held_knots in R1. unfold B, size_of_breaks.
  pose proof (Rmax_l (Rabs (first_break l)) (Rabs (last_break l))). pose proof (Rmax_r (Rabs (first_break l)) (Rabs (last_break l))).
  pose proof (Rle_abs (last_break l)). pose proof (Rle_abs (- first_break l)) as A. rewrite Rabs_Ropp in A. apply Rabs_le. lra.
Qed.
Lemma gr_deg : 1 <= d <= 1000.
Proof. pose proof (in_d junk d l HF). lia. Qed.
Lemma gr_error i : 0 <= i < N -> fok (gp i) /\ (Rabs (fval (gp i) - greville t d i) <= greville_error d l)%R.
Proof.
  intros Hi. destruct (favg_ok (fun k => held_knot s (i + 1 + k)) d B gr_deg (proj1 gr_B) (fun k Hk => gr_in i k Hi Hk)) as (O & _ & Er). split; [exact O|]. pose proof gr_deg.
  rewrite greville_zsum by lia. unfold greville_error. fold B. unfold gp. eapply Rle_trans; [exact Er|]. right. unfold U, E, half_smallest. field. apply not_0_IZR. lia.
Qed.
Lemma gr_mono i j : 0 <= i <= j -> j < N -> (fval (gp i) <= fval (gp j))%R.
Proof.
  intros Hi Hj. unfold gp. apply (favg_mono _ _ d B gr_deg (proj1 gr_B)); [intros k Hk; apply gr_in; lia | intros k Hk; apply gr_in; lia|].
  intros k Hk. unfold N in Hj. exact (sp_mono junk d false l HF s Hs (i + 1 + k) (j + 1 + k) ltac:(lia) ltac:(fold n; lia)).
Qed.
Lemma gr_average (a : arr spec_float) ib : 0 <= ib < N -> ib < a_len a ->
  exists a', ng_average FA s ib a = Ok a' /\ a_len a' = a_len a /\ a_at a' ib = gp ib /\ (forall k, k <> ib -> a_at a' k = a_at a k).
Proof.
  intros Hib Hl. pose proof (in_d junk d l HF) as (Hd & Hn & Hbig). fold n in Hn, Hbig. unfold N in Hib. destruct (sp_fields junk d false l HF s Hs) as (Sd & _).
  unfold ng_average. change (num FA) with spec_float in *. rewrite Sd. rewrite aset_ok by lia. cbn [rbind]. assert (Gf : u64_add (nb_first_support_knot ib) 1 = ib + 1) by (unfold nb_first_support_knot, reference_element; rewrite elem_minus_0 by lia; unfold u64_add; rewrite (u64_small ib) by lia; rewrite (u64_small (0 + ib)) by lia; rewrite u64_small; lia). rewrite Gf.
  match goal with |- context [for_range ?lo ?hi ?f ?x] =>
    destruct (for_range_inv (fun ik (b : arr spec_float) => a_len b = a_len a /\ a_at b ib = fsum (fun k => held_knot s (ib + 1 + k)) (Z.to_nat (ik - (ib + 1))) /\ (forall k, k <> ib -> a_at b k = a_at a k)) f lo hi x) as (b & Eb & B1 & B2 & B3) end.
  - lia.
  - cbn [a_len a_at]. split; [reflexivity|]. rewrite Z.sub_diag, upd_eq. split; [reflexivity|]. intros. now apply upd_neq.
  - intros ik b Hik (B1 & B2 & B3). rewrite aget_ok by lia. cbn [rbind]. rewrite (sp_coord junk d false l HF s Hs) by (fold n; lia). cbn [rbind]. rewrite aset_ok by lia.
    eexists. split; [reflexivity|]. cbn [a_len a_at]. split; [exact B1|]. rewrite upd_eq. split; [|intros; rewrite upd_neq by lia; now apply B3].
    rewrite B2. replace (Z.to_nat (ik + 1 - (ib + 1))) with (S (Z.to_nat (ik - (ib + 1)))) by lia. cbn [fsum nadd FA]. do 2 f_equal. lia.
  - change (num FA) with spec_float in *. rewrite Eb. cbn [rbind]. rewrite aget_ok by lia. cbn [rbind]. rewrite aset_ok by lia. eexists. split; [reflexivity|]. cbn [a_len a_at]. rewrite upd_eq.
    split; [exact B1|]. split; [|intros; rewrite upd_neq by lia; now apply B3]. rewrite B2. unfold gp, favg. cbn [ndiv FA]. do 2 f_equal. lia.
Qed.
Definition gpoints : list spec_float := map (fun k => gp (Z.of_nat k)) (seq 0 (Z.to_nat N)).
Lemma gr_points : ng_points FA s = Ok (Some (mk_ns FA gpoints 0)).
Proof.
  pose proof (in_d junk d l HF) as (Hd & Hn & Hbig). fold n in Hn, Hbig. destruct (sp_fields junk d false l HF s Hs) as (_ & _ & _ & Sp). destruct (in_sizes junk d false l HF s Hs) as (_ & Sn). fold n in Sn. fold N in Sn. assert (HN : 2 <= N) by (unfold N; lia).
  unfold ng_points. rewrite Sp, Sn. change (num FA) with spec_float in *.
  destruct (for_range_inv (fun i (b : arr spec_float) => a_len b = N /\ (forall k, 0 <= k < i -> a_at b k = gp k)) (ng_average FA s) 0 N (mk_arr N (fun _ => nofz FA 0))) as (b & Eb & B1 & B2).
  - lia.
  - split; [reflexivity | intros; lia].
  - intros i b Hi (B1 & B2). destruct (gr_average b i Hi ltac:(lia)) as (b' & E1 & C1 & C2 & C3). change (num FA) with spec_float in *. exists b'. split; [exact E1|]. split; [lia|].
    intros k Hk. destruct (Z.eq_dec k i) as [->|]; [exact C2|]. rewrite C3 by lia. apply B2. lia.
  - change (num FA) with spec_float in *. rewrite Eb. cbn [rbind]. unfold ns_construct.
    assert (S1 : is_sorted FA (arr_list b) = true).
    { apply (proj2 (sorted_at FA b)). change (num FA) with spec_float in *. rewrite B1. intros k Hk Hk'. rewrite !B2 by lia. cbn [nltb FA]. rewrite fltb_ok by (apply gr_error; lia). apply R_ltb_false. pose proof (gr_mono k (k + 1) ltac:(lia) ltac:(lia)). lra. }
    change (num FA) with spec_float in *. rewrite S1. assert (El : arr_list b = gpoints). { unfold arr_list, gpoints. rewrite B1. apply map_ext_in. intros k Hk. apply in_seq in Hk. apply B2. lia. }
    rewrite El. reflexivity.
Qed.
Lemma gr_first : repeats_exactly d (first_break l) -> fval (gp 0) = first_break l.
Proof.
  intros Hr. unfold gp. pose proof (in_d junk d l HF) as (Hd & Hn & Hbig). fold n in Hn, Hbig. apply favg_const; [exact Hd | | apply gr_B | exact Hr].
  intros k Hk. split; [apply gr_in; unfold N; lia|]. change (t (0 + 1 + k) = first_break l). rewrite (op_knots junk d l HF s Hs) by (fold n; lia). rewrite (knots_open_left (map fval l) d) by (rewrite ?map_length; unfold n in *; lia). apply op_first.
Qed.
Lemma gr_last : repeats_exactly d (last_break l) -> fval (gp (N - 1)) = last_break l.
Proof.
  intros Hr. unfold gp. pose proof (in_d junk d l HF) as (Hd & Hn & Hbig). fold n in Hn, Hbig. apply favg_const; [exact Hd | | apply gr_B | exact Hr].
  intros k Hk. split; [apply gr_in; unfold N; lia|]. change (t (N - 1 + 1 + k) = last_break l). rewrite (op_knots junk d l HF s Hs) by (unfold N; fold n; lia). rewrite (knots_open_right (map fval l) d) by (rewrite ?map_length; unfold N, n in *; lia). apply op_last.
Qed.
Lemma gr_nth k x : nth_error gpoints k = Some x -> (0 <= Z.of_nat k < N) /\ x = gp (Z.of_nat k).
Proof.
  intros H. assert (Lk : (k < length gpoints)%nat) by (apply nth_error_Some; congruence). unfold gpoints in *. rewrite map_length, seq_length in Lk. split; [lia|].
  rewrite nth_error_map in H. rewrite (nth_error_nth' _ 0%nat) in H by (rewrite seq_length; exact Lk). rewrite seq_nth in H by exact Lk. cbn [option_map Nat.add] in H. congruence.
Qed.
End Float.
