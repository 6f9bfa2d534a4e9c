(** Knots as interpolation points in binary64, and Greville points that coincide. *)
From Coq Require Import Bool Reals Lia Lra Psatz ZifyBool List Floats.SpecFloat.
From Flocq Require Import Core.
From Verif Require Import BSplineModel BSplineSpec PointsModel PointsSpec LoopProofs BSplineProofs SamplingSpec SamplingProofs CellProofs KnotProofs SplineLemmas PointsProofs NonUniformProofs
  FloatLink FloatCell FloatCell2 FloatSpec FloatNonUniform FloatKnots FloatNonUniformSpec FloatKnots2 FloatNonUniformTheorems FloatNonUniformExamples FloatIntegral FloatIntegral2 FloatGreville FloatGrevilleSpec FloatGreville2 FloatGrevilleTheorems.
Import ListNotations.
Local Open Scope bool_scope. Local Open Scope Z_scope.

Theorem knot_points : forall junk d periodic l s, float_cells d l -> nb_construct FA junk d periodic l = Ok (Some s) -> nk_points FA s = Ok (Some (mk_ns FA l 0)).
Proof.
  intros junk d periodic l s HF Hs. pose proof (in_d junk d l HF) as (Hd & Hn & Hbig). destruct (sp_fields junk d periodic l HF s Hs) as (_ & Sf & Ss & _).
  unfold nk_points. rewrite Sf, Ss. change (num FA) with spec_float in *. set (n := Z.of_nat (length l)) in *.
  match goal with |- context [for_range ?lo ?hi ?f ?x] =>
    destruct (for_range_inv (fun i (c : arr spec_float) => a_len c = n /\ forall k, 0 <= k < i - d -> a_at c k = nth (Z.to_nat k) l (S754_zero false)) f lo hi x) as (c & Ec & C1 & C2) end.
  - lia.
  - cbn [a_len]. split; [reflexivity|intros; lia].
  - intros i c Hi (C1 & C2). rewrite (sp_coord junk d periodic l HF s Hs) by (fold n; lia). cbn [rbind]. rewrite em_small by lia. rewrite aset_ok by lia. eexists. split; [reflexivity|]. cbn [a_len a_at]. split; [exact C1|].
    intros k Hk. destruct (Z.eq_dec k (i - d)) as [->|].
    + rewrite upd_eq. rewrite <- (sp_break junk d periodic l HF s Hs (Z.to_nat (i - d))) by (unfold n in *; lia). f_equal. lia.
    + rewrite upd_neq by lia. apply C2. lia.
  - change (num FA) with spec_float in *. rewrite Ec. cbn [rbind].
    assert (El : arr_list c = l).
    { unfold arr_list. rewrite C1. unfold n. rewrite Nat2Z.id. apply nth_ext with (d := S754_zero false) (d' := S754_zero false); [now rewrite map_length, seq_length|].
      intros k Hk. rewrite map_length, seq_length in Hk. rewrite nth_indep with (d' := (fun k => a_at c (Z.of_nat k)) 0%nat) by (rewrite map_length, seq_length; exact Hk).
      rewrite (map_nth (fun k => a_at c (Z.of_nat k))). rewrite seq_nth by exact Hk. rewrite C2 by (unfold n; lia). now rewrite Nat2Z.id. }
    unfold ns_construct.
    assert (S1 : is_sorted FA (arr_list c) = true).
    { apply (proj2 (sorted_at FA c)). change (num FA) with spec_float in *. rewrite C1. intros k Hk Hk'. rewrite !C2 by lia. cbn [nltb FA].
      assert (I : forall j, 0 <= j < n -> nth_error l (Z.to_nat j) = Some (nth (Z.to_nat j) l (S754_zero false))) by (intros j Hj; apply nth_error_nth'; unfold n in *; lia).
      destruct HF as (_ & _ & _ & Fo & Fw). rewrite fltb_ok by (apply Fo; apply nth_In; unfold n in *; lia). apply R_ltb_false.
      pose proof (Fw (Z.to_nat k) _ _ (I k ltac:(lia)) ltac:(replace (S (Z.to_nat k)) with (Z.to_nat (k + 1)) by lia; apply I; lia)) as W. pose proof (bpow_ge_0 radix2 (-900)). lra. }
    change (num FA) with spec_float in *. rewrite S1, El. reflexivity.
Qed.

(** *** break points 1, 1 + 2^-52 and 2 *)
Definition after_one : spec_float := S754_finite false 4503599627370497 (-52).
Definition near_breaks : list spec_float := [nofz FA 1; after_one; nofz FA 2].
Lemma near_cells : float_cells 3 near_breaks.
Proof.
  destruct (fofz_exact 1 ltac:(lia)) as (O1 & V1). destruct (fofz_exact 2 ltac:(lia)) as (O2 & V2).
  assert (V : fval after_one = (1 + / IZR (2 ^ 52))%R) by (rewrite (tenth_val 4503599627370497 52 ltac:(lia) : fval after_one = _); change (Z.pos 4503599627370497) with (2 ^ 52 + 1); rewrite plus_IZR; field; apply not_0_IZR; lia).
  assert (W : (/ IZR (2 ^ 52) = bpow radix2 (-52))%R) by (change (-52) with (- (52)); rewrite (bpowN 52) by lia; reflexivity).
  assert (T1 : (bpow radix2 (-900) <= bpow radix2 (-52))%R) by (apply bpow_le; lia). assert (T2 : (bpow radix2 (-52) <= / 4)%R) by (replace (/ 4)%R with (bpow radix2 (-2)) by reflexivity; apply bpow_le; lia).
  assert (B : (2 <= bpow radix2 900)%R) by (change 2%R with (bpow radix2 1); apply bpow_le; lia). pose proof (bpow_ge_0 radix2 (-52)).
  split; [lia|]. split; [cbn; lia|]. split; [cbn; lia|]. split.
  - intros x [<-|[<-|[<-|[]]]].
    + split; [exact O1|]. rewrite V1, Rabs_pos_eq; lra.
    + split; [split; reflexivity|]. rewrite V, W, Rabs_pos_eq; lra.
    + split; [exact O2|]. rewrite V2, Rabs_pos_eq; lra.
  - intros k x y Hx Hy. assert (Es : forall u v : spec_float, Some u = Some v -> u = v) by congruence. change (num FA) with spec_float in *.
    destruct k as [|[|[|k]]]; cbn [nth_error near_breaks] in Hx, Hy; try discriminate; apply Es in Hx, Hy; rewrite <- Hx, <- Hy; rewrite ?V, ?V1, ?V2, ?W; lra.
Qed.
Definition near_run : option (option spec_float * option spec_float) :=
  match nb_construct FA (fun _ => S754_nan) 3 false near_breaks with
  | Ok (Some s) => match ng_points FA s with Ok (Some p) => Some (nth_error (ns_points FA p) 0, nth_error (ns_points FA p) 1) | _ => None end
  | _ => None end.
Lemma near_ran : near_run = Some (Some (nofz FA 1), Some (nofz FA 1)).
Proof. vm_compute. reflexivity. Qed.
Theorem greville_distinct_refuted : ~ (forall junk d l s p i j x y, float_cells d l -> nb_construct FA junk d false l = Ok (Some s) -> ng_points FA s = Ok (Some p) ->
  (i < j)%nat -> nth_error (ns_points FA p) i = Some x -> nth_error (ns_points FA p) j = Some y -> (fval x < fval y)%R).
Proof.
  intros H. pose proof near_ran as T. unfold near_run in T. destruct (cells_construct (fun _ => S754_nan) 3 false near_breaks near_cells (or_introl eq_refl)) as (s & Es).
  destruct (greville_points _ _ _ s near_cells Es) as (p & Ep & _). change (num FA) with spec_float in *. rewrite Es, Ep in T.
  assert (Es2 : forall u v : option spec_float * option spec_float, Some u = Some v -> fst u = fst v /\ snd u = snd v) by (intros u v Huv; assert (u = v) by congruence; subst; auto).
  apply Es2 in T. cbn [fst snd] in T. destruct T as (T1 & T2). pose proof (H _ _ _ _ _ 0%nat 1%nat _ _ near_cells Es Ep ltac:(lia) T1 T2). lra.
Qed.
