(** A space in binary64 that meets the hypotheses. *)
From Coq Require Import Bool Reals Lia Lra ZifyBool Floats.SpecFloat.
From Flocq Require Import Core.
From Verif Require Import BSplineModel EvaluatorModel EvaluatorSpec FloatLink FloatCell2 FloatCell3 FloatSpec.
Local Open Scope Z_scope.

Lemma bounds_ex : float_bounds 3 10 (nofz FA 0) (nofz FA 10).
Proof.
  destruct (fofz_exact 0 ltac:(lia)) as (A1 & A2). destruct (fofz_exact 10 ltac:(lia)) as (B1 & B2). unfold float_bounds. rewrite A2, B2. split; [exact A1|]. split; [exact B1|].
  split; [lia|]. split; [lia|]. split; [lia|].
  assert (H : (IZR (2 ^ 7) <= bpow radix2 900)%R) by (replace (IZR (2 ^ 7)) with (bpow radix2 7) by (symmetry; exact (IZR_Zpower radix2 7 ltac:(lia))); apply bpow_le; lia).
  change (IZR (2 ^ 7)) with 128%R in H. rewrite !Rabs_pos_eq by lra. split; [lra|]. split; [lra|].
  assert (G : (bpow radix2 (-900) <= / IZR (2 ^ 3))%R) by (rewrite <- (bpowN 3) by lia; apply bpow_le; lia). change (IZR (2 ^ 3)) with 8%R in G. lra.
Qed.
(** The coefficients 100, 101, ..., 112 *)
Definition coefs_ex : chunk_1d FA := mk_chunk_1d FA 0 (mk_arr 13 (fun i => nofz FA (100 + i) : num FA)).
Lemma coefs_ok : float_coefficients coefs_ex (10 + 3) 112.
Proof.
  split; [reflexivity|]. split; [reflexivity|]. intros i Hi. cbn [coefs_ex c1_vals a_at]. destruct (fofz_exact (100 + i) ltac:(lia)) as (A1 & A2). split; [exact A1|].
  rewrite A2, <- abs_IZR. apply IZR_le. lia.
Qed.
Lemma big_enough : (112 <= bpow radix2 1000)%R.
Proof.
  assert (H : (IZR (2 ^ 7) <= bpow radix2 1000)%R) by (replace (IZR (2 ^ 7)) with (bpow radix2 7) by (symmetry; exact (IZR_Zpower radix2 7 ltac:(lia))); apply bpow_le; lia).
  change (IZR (2 ^ 7)) with 128%R in H. lra.
Qed.
Definition memory_ex : scratch FA := mk_scratch (A := FA) (fun _ => S754_nan) (fun _ => S754_nan) (fun _ => S754_nan) (fun _ _ => S754_nan) (fun _ _ => S754_nan) (fun _ _ => S754_nan).
(** What is computed, times [z], truncated *)
Definition scaled_ex (z : Z) (x : spec_float) : option (Z * Z) :=
  match ub_construct FA 0%nat 3 false (nofz FA 0) (nofz FA 10) 10 with
  | Ok s => match ub_icell_and_offset FA s x, eval FA (Uniform s) memory_ex (null_rule FA) (null_rule FA) x coefs_ex with
            | Ok (j, _), Ok y => Some (j, ntrunc FA (nmul FA y (nofz FA z))) | _, _ => None end
  | _ => None end.
