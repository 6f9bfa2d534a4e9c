(** The theorems on integrals of splines on non-uniform cells in binary64. *)
From Coq Require Import Bool Reals Lia Lra ZifyBool List Floats.SpecFloat.
From Flocq Require Import Core.
From Verif Require Import BSplineModel BSplineSpec IntegralModel IntegralSpec EvaluatorModel EvaluatorSpec BSplineDeriv IntegralProofs FloatLink FloatCell2 FloatBasis FloatSpec FloatNonUniformSpec FloatKnots2 FloatIntegral FloatIntegral2 FloatExamples FloatNonUniformExamples.
Import ListNotations.
Local Open Scope bool_scope. Local Open Scope Z_scope.

Lemma four_U x : (4 * U * x = 4 / IZR (2 ^ 53) * x)%R.
Proof. reflexivity. Qed.
Theorem cells_integrals : forall junk d periodic l s q (iv : chunk_1d FA), float_cells d l -> nb_construct FA junk d periodic l = Ok (Some s) ->
  let n := if periodic then cells l else cells l + d in
  c1_front FA iv = 0 -> c1_size FA iv = n \/ (periodic = true /\ c1_size FA iv = cells l + d) ->
  exists c, non_uniform_bsplines_integrals FA q s iv = Ok c /\ c1_front FA c = 0 /\ c1_size FA c = c1_size FA iv /\
    (forall i, 0 <= i < n -> let w := ((held_knots s (i + d + 1) - held_knots s i) / IZR (d + 1))%R in let v := a_at (c1_vals FA c) i in
       fok v /\ (0 <= fval v)%R /\ (Rabs (fval v - w) <= 4 / IZR (2 ^ 53) * w)%R /\
       (periodic = false -> integral (bspline (held_knots s) (last_break l) (Z.to_nat d) i) (first_break l) (last_break l) w)) /\
    (forall i, n <= i < c1_size FA iv -> a_at (c1_vals FA c) i = nofz FA 0).
Proof.
  intros junk d periodic l s q iv HF Hs n H0 Hsz. unfold n in *.
  destruct (in_values junk d periodic l HF s Hs q iv H0 Hsz) as (c & E1 & C1 & C2 & C3 & C4).
  exists c. split; [exact E1|]. split; [exact C1|]. split; [exact C2|]. split; [|exact C4].
  intros i Hi. destruct (C3 i Hi) as (V1 & V2 & V3). split; [exact V1|]. split; [exact V2|]. split; [exact V3|].
  intros Hp. rewrite Hp in Hs, Hi. exact (op_integral junk d l HF s Hs i Hi).
Qed.
Theorem cells_integrate : forall junk d l s m q mem M nbatch (coef : Z -> chunk_1d FA) (out : arr spec_float), float_cells d l -> nb_construct FA junk d false l = Ok (Some s) ->
  0 <= nbatch -> a_len out = nbatch -> (M * (last_break l - first_break l) <= bpow radix2 1000)%R -> (forall j, 0 <= j < nbatch -> float_coefficients (coef j) (cells l + d) M) ->
  exists out', integrate FA (NonUniform s) m q mem 0 (cells l + d) nbatch coef out = Ok out' /\ a_len out' = nbatch /\
    forall j, 0 <= j < nbatch -> fok (a_at out' j) /\
      exists I, integral (spline (held_knots s) (last_break l) d (cells l) (float_coefficient (coef j))) (first_break l) (last_break l) I /\
        (Rabs (fval (a_at out' j) - I) <= M * (last_break l - first_break l) * (IZR (3 * (cells l + d) + 5) / IZR (2 ^ 53)) + IZR (3 * (cells l + d)) * half_smallest)%R.
Proof.
  intros junk d l s m q mem M nbatch coef out HF Hs Hb Ho HM Hc.
  destruct (op_integrate junk d l HF s Hs m q mem M nbatch coef out Hb Ho HM Hc) as (o & E1 & O1 & O2).
  exists o. split; [exact E1|]. split; [exact O1|]. intros j Hj. destruct (O2 j Hj) as (F1 & F2). split; [exact F1|].
  eexists. split; [exact (op_spline junk d l HF s Hs (float_coefficient (coef j)))|]. exact F2.
Qed.
Theorem cells_integrate_length : forall junk d l s m q mem c (v : spec_float) (out : arr spec_float), float_cells d l -> nb_construct FA junk d false l = Ok (Some s) ->
  a_len out = 1 -> fok v -> (Rabs (fval v) * (last_break l - first_break l) <= bpow radix2 1000)%R ->
  c1_front FA c = 0 -> c1_size FA c = cells l + d -> (forall i, 0 <= i < cells l + d -> a_at (c1_vals FA c) i = v) ->
  exists out', integrate FA (NonUniform s) m q mem 0 (cells l + d) 1 (fun _ => c) out = Ok out' /\ fok (a_at out' 0) /\
    (Rabs (fval (a_at out' 0) - fval v * (last_break l - first_break l)) <= Rabs (fval v) * (last_break l - first_break l) * (IZR (3 * (cells l + d) + 5) / IZR (2 ^ 53)) + IZR (3 * (cells l + d)) * half_smallest)%R.
Proof.
  intros junk d l s m q mem c v out HF Hs Ho Hv HM H0 H1 H2.
  destruct (op_integrate junk d l HF s Hs m q mem (Rabs (fval v)) 1 (fun _ => c) out ltac:(lia) Ho HM) as (o & E1 & O1 & O2).
  { intros _ _. split; [exact H0|]. split; [exact H1|]. intros i Hi. pose proof (H2 i Hi) as G. change (num FA) with spec_float in *. rewrite G. split; [exact Hv | apply Rle_refl]. }
  exists o. split; [exact E1|]. destruct (O2 0 ltac:(lia)) as (F1 & F2). split; [exact F1|].
  match type of F2 with context [zsum ?N ?f] => assert (S : zsum N f = (fval v * (last_break l - first_break l))%R) end.
  { rewrite (zsum_ext _ _ (fun i => fval v * wt d s i)%R); [rewrite zsum_scal; f_equal; exact (op_sum junk d l HF s Hs)|].
    intros i Hi. unfold float_coefficient. pose proof (H2 i Hi) as G. change (num FA) with spec_float in *. rewrite G. reflexivity. }
  rewrite S in F2. exact F2.
Qed.

(** *** an example *)
Definition integrals_ex (periodic : bool) (z : Z) : option (list Z) :=
  match nb_construct FA (fun _ => S754_nan) 3 periodic breaks_ex with
  | Ok (Some s) => match non_uniform_bsplines_integrals FA 0%nat s (mk_chunk_1d FA 0 (mk_arr 7 (fun _ => S754_nan : num FA))) with
                   | Ok c => Some (map (fun i => ntrunc FA (nmul FA (a_at (c1_vals FA c) i) (nofz FA z))) [0; 1; 2; 3; 4; 5; 6]) | _ => None end
  | _ => None end.
Definition integrate_ex (z : Z) : option Z :=
  match nb_construct FA (fun _ => S754_nan) 3 false breaks_ex with
  | Ok (Some s) => match integrate FA (NonUniform s) memory_ex 0%nat (fun _ => S754_nan) 0 7 1 (fun _ => cells_coefs_ex) (mk_arr 1 (fun _ => S754_nan : num FA)) with
                   | Ok o => Some (ntrunc FA (nmul FA (a_at o 0) (nofz FA z))) | _ => None end
  | _ => None end.
Lemma bound_ex : (112 * (last_break breaks_ex - first_break breaks_ex) <= bpow radix2 1000)%R.
Proof.
  unfold first_break, last_break. cbn [breaks_ex map length nth Nat.sub]. rewrite !(fun z H => proj2 (fofz_exact z H)) by lia.
  apply Rle_trans with (bpow radix2 11); [|apply bpow_le; lia]. replace (bpow radix2 11) with 2048%R by reflexivity. lra.
Qed.
