(** The spectral heat program on two by two points. *)
From Coq Require Import Bool Reals Lia Lra ZifyBool List.
From Verif Require Import Machine ArithModel HeatModel HeatSpec HeatReals HeatTheorems FFTSpec FFTMath FFTProofs FFTTheorems SpectralModel SpectralSpec SpectralMath SpectralProofs SpectralTheorems.
Import ListNotations.
Local Open Scope Z_scope.

Lemma cis_0' x : x = 0%R -> cis x = RtoC 1. Proof. intros ->. apply cis_0. Qed.
Lemma cis_half x : (x = - PI)%R -> cis x = RtoC (-1).
Proof. intros ->. unfold cis, RtoC. rewrite cos_neg, sin_neg, cos_PI, sin_PI. f_equal. ring. Qed.
Lemma cis_full x : (x = - (2 * PI))%R -> cis x = RtoC 1.
Proof. intros ->. unfold cis, RtoC. rewrite cos_neg, sin_neg, cos_2PI, sin_2PI. f_equal. ring. Qed.
Definition sign (p : Z) : R := if p =? 0 then 1%R else (-1)%R.
Lemma wave_2 T p q : 0 <= p < 2 -> 0 <= q < 2 -> wave 2 2 T p q = RtoC (T 0%Z 0%Z + sign q * T 0%Z 1%Z + sign p * T 1%Z 0%Z + sign p * sign q * T 1%Z 1%Z)%R.
Proof.
  intros Hp Hq. unfold wave. change (Z.to_nat 2) with 2%nat. cbn [csum]. change (Z.of_nat 0) with 0. change (Z.of_nat 1) with 1.
  rewrite !Z.mul_0_l, !Z.mul_1_l.
  assert (P : p = 0 \/ p = 1) by lia. assert (Q : q = 0 \/ q = 1) by lia.
  destruct P as [-> | ->], Q as [-> | ->]; cbn [sign Z.eqb];
    repeat (first [rewrite cis_0' by field | rewrite cis_half by field | rewrite cis_full by field]); unfold Cplus, Cmult, RtoC; cbn [fst snd]; f_equal; ring.
Qed.
Notation rate2 := (decay_rate 2 2 (-1) 1 (-1) 1 1 1).
Lemma frequency_2 p : 0 <= p < 2 -> (frequency (-1) 1 2 p ^ 2 = PI ^ 2 * IZR p)%R.
Proof.
  intros Hp. assert (P : p = 0 \/ p = 1) by lia. unfold frequency, oscillations. destruct P as [-> | ->].
  - change (2 * 0 <? 2) with true. cbv iota. unfold Rdiv. ring.
  - change (2 * 1 <? 2) with false. cbv iota. change (1 - 2) with (-1). field.
Qed.
Lemma rate_2 p q : 0 <= p < 2 -> 0 <= q < 2 -> (rate2 p q = PI ^ 2 * (IZR p + IZR q))%R.
Proof. intros Hp Hq. unfold decay_rate. rewrite !frequency_2 by lia. ring. Qed.
Lemma dt_2 : (spectral_dt 2 2 (-1) 1 (-1) 1 1 1 = 1 / PI ^ 2)%R.
Proof. pose proof PI_RGT_0. unfold spectral_dt, spacing. change (2 + 1 - 1) with 2. replace (PI / ((1 - -1) / 2))%R with PI by field.
  assert (0 < PI ^ 2)%R by now apply pow_lt. replace (1 * PI ^ 2 + 1 * PI ^ 2)%R with (2 * PI ^ 2)%R by ring. set (u := (PI ^ 2)%R) in *. field. lra. Qed.
Lemma start_2 T : hot_disc 2 2 (evenly (-1) 1 (2 + 1)) (evenly (-1) 1 (2 + 1)) T -> T 0 0 = 0%R /\ T 0 1 = 0%R /\ T 1 0 = 0%R /\ T 1 1 = (9999 / 1000)%R.
Proof.
  intros H. pose proof (H 0 0 ltac:(lia) ltac:(lia)) as H00. pose proof (H 0 1 ltac:(lia) ltac:(lia)) as H01. pose proof (H 1 0 ltac:(lia) ltac:(lia)) as H10. pose proof (H 1 1 ltac:(lia) ltac:(lia)) as H11.
  unfold evenly, spacing in *. change (2 + 1 - 1) with 2 in *. repeat match goal with H : context [Rlt_dec ?u ?v] |- _ => destruct (Rlt_dec u v) end; try lra; auto.
Qed.
(** A step in which the waves lose [r] times p + q. *)
Lemma step_2 dt r T T' : (dt * PI ^ 2 = r)%R -> spectral_step 2 2 (-1) 1 (-1) 1 1 1 dt T T' ->
  (T' 0%Z 1%Z = (T 0%Z 0%Z * r + T 0%Z 1%Z * (2 - 2 * r) + T 1%Z 1%Z * r) / 2 /\ T' 1%Z 1%Z = (T 0%Z 1%Z * r + T 1%Z 0%Z * r + T 1%Z 1%Z * (2 - 2 * r)) / 2 /\
   T' 0%Z 0%Z = (T 0%Z 1%Z * r + T 1%Z 0%Z * r + T 0%Z 0%Z * (2 - 2 * r)) / 2 /\ T' 1%Z 0%Z = (T 0%Z 0%Z * r + T 1%Z 0%Z * (2 - 2 * r) + T 1%Z 1%Z * r) / 2)%R.
Proof.
  intros Hr H.
  assert (W : forall p q, 0 <= p < 2 -> 0 <= q < 2 -> (T' 0%Z 0%Z + sign q * T' 0%Z 1%Z + sign p * T' 1%Z 0%Z + sign p * sign q * T' 1%Z 1%Z =
     (1 - r * (IZR p + IZR q)) * (T 0%Z 0%Z + sign q * T 0%Z 1%Z + sign p * T 1%Z 0%Z + sign p * sign q * T 1%Z 1%Z))%R).
  { intros p q Hp Hq. apply RtoC_inj. rewrite RtoC_mult, <- !wave_2, H by lia. rewrite rate_2 by lia. do 3 f_equal. rewrite <- Hr. ring. }
  pose proof (W 0 0 ltac:(lia) ltac:(lia)) as W00. pose proof (W 0 1 ltac:(lia) ltac:(lia)) as W01. pose proof (W 1 0 ltac:(lia) ltac:(lia)) as W10. pose proof (W 1 1 ltac:(lia) ltac:(lia)) as W11.
  cbn [sign Z.eqb] in *. lra.
Qed.
Section Two.
Context (L : fft_library) (HL : exact_library L) (ceil : R -> R) (Hceil : rounds_up ceil).
Lemma inputs_2 t1 : (0 < t1 <= 1 / PI ^ 2)%R -> spectral_inputs 2 2 (-1) 1 (-1) 1 1 1 0 t1 1 L ceil.
Proof.
  intros Ht. constructor; try lra; try lia; try assumption. rewrite dt_2. pose proof PI_RGT_0 as P. assert (0 < 1 / PI ^ 2)%R by (apply Rdiv_lt_0_compat; [lra|now apply pow_lt]).
  apply Rle_trans with 1%R; [|apply IZR_le; lia]. apply (Rmult_le_reg_r (1 / PI ^ 2)); [assumption|]. unfold Rdiv at 1. rewrite Rmult_assoc, Rinv_l by lra. lra.
Qed.
Lemma times_wrong : exists t1 lines N, spectral_main L ceil (-1) 1 3 1 (-1) 1 3 1 0 t1 1 = Ok lines /\ printed_times 0 t1 lines /\
  fewest_steps 0 t1 (spectral_dt 2 2 (-1) 1 (-1) 1 1 1) N /\
  forall T, spectral_history 2 2 (-1) 1 (-1) 1 1 1 ((t1 - 0) / IZR N) T -> lines <> heat_lines 2 2 0 t1 1 N T.
Proof.
  pose proof PI_RGT_0 as P. assert (P2 : (0 < PI ^ 2)%R) by now apply pow_lt. assert (P3 : (0 < 1 / PI ^ 2)%R) by (apply Rdiv_lt_0_compat; lra).
  exists (1 / PI ^ 2 / 2)%R. assert (I := inputs_2 (1 / PI ^ 2 / 2) ltac:(lra)).
  assert (F : fewest_steps 0 (1 / PI ^ 2 / 2) (spectral_dt 2 2 (-1) 1 (-1) 1 1 1) 1) by (split; [lia|]; rewrite dt_2; change (1 - 1) with 0; lra).
  destruct (spectral_prints 2 2 (-1) 1 (-1) 1 1 1 0 (1 / PI ^ 2 / 2) 1 L ceil I) as (N & T & HN & (T0 & TS) & HU & E).
  assert (N = 1) as -> by (symmetry; exact (proj1 (HU 1 T F (conj T0 TS)))).
  exists (heat_lines 2 2 0 (1 / PI ^ 2 / 2) 1 1 T), 1. split; [exact E|]. split; [apply lines_times; [lra|lia]|]. split; [exact HN|].
  intros T' (T0' & TS') Eq. destruct (start_2 _ T0) as (A1 & A2 & A3 & A4). destruct (start_2 _ T0') as (B1 & B2 & B3 & B4).
  destruct (step_2 (spectral_dt 2 2 (-1) 1 (-1) 1 1 1) 1 _ _ ltac:(rewrite dt_2; field; lra) (TS O)) as (C1 & C2 & _).
  destruct (step_2 ((1 / PI ^ 2 / 2 - 0) / 1) (1 / 2) _ _ ltac:(field; lra) (TS' O)) as (D1 & D2 & _).
  unfold heat_lines in Eq. change (shown_steps 1 (Z.to_nat 1)) with [O; 1%nat] in Eq. cbn [map] in Eq.
  assert (Ev : l_values RA (line_of 2 2 (0 + IZR (Z.of_nat 1) * (1 / PI ^ 2 / 2 - 0) / 1) (T 1%nat)) = l_values RA (line_of 2 2 (0 + IZR (Z.of_nat 1) * (1 / PI ^ 2 / 2 - 0) / 1) (T' 1%nat))) by congruence.
  unfold line_of in Ev. cbn [l_values] in Ev. change (2 / 2) with 1 in Ev. change (indices 2) with [0; 1] in Ev. cbn [map] in Ev.
  assert (Ew : T 1%nat 0 1 = T' 1%nat 0 1) by congruence. rewrite C1, D1 in Ew. rewrite A1, A2, A4, B1, B2, B4 in Ew. lra.
Qed.
Lemma never_settles T : spectral_history 2 2 (-1) 1 (-1) 1 1 1 (spectral_dt 2 2 (-1) 1 (-1) 1 1 1) T -> ~ Un_cv (fun n => T n 0 1) (total 2 2 (T O) / 4).
Proof.
  intros (T0 & TS) Hc. pose proof PI_RGT_0 as P. destruct (start_2 _ T0) as (A1 & A2 & A3 & A4).
  assert (G : forall n, (T (2 * n + 1)%nat 0%Z 0%Z = 0 /\ T (2 * n + 1)%nat 1%Z 1%Z = 0 /\ T (2 * n + 1)%nat 0%Z 1%Z = 9999 / 2000 /\ T (2 * n + 1)%nat 1%Z 0%Z = 9999 / 2000)%R).
  { induction n as [|n IH].
    - destruct (step_2 (spectral_dt 2 2 (-1) 1 (-1) 1 1 1) 1 _ _ ltac:(rewrite dt_2; field; lra) (TS O)) as (C1 & C2 & C3 & C4). change (2 * 0 + 1)%nat with 1%nat. rewrite C1, C2, C3, C4, A1, A2, A3, A4. lra.
    - destruct (step_2 (spectral_dt 2 2 (-1) 1 (-1) 1 1 1) 1 _ _ ltac:(rewrite dt_2; field; lra) (TS (2 * n + 1)%nat)) as (C1 & C2 & C3 & C4).
      destruct (step_2 (spectral_dt 2 2 (-1) 1 (-1) 1 1 1) 1 _ _ ltac:(rewrite dt_2; field; lra) (TS (S (2 * n + 1))%nat)) as (D1 & D2 & D3 & D4). replace (2 * S n + 1)%nat with (S (S (2 * n + 1)))%nat by lia.
      destruct IH as (E1 & E2 & E3 & E4). rewrite D1, D2, D3, D4, C1, C2, C3, C4, E1, E2, E3, E4. lra. }
  assert (Et : total 2 2 (T O) = (9999 / 1000)%R). { unfold total, total1. change (indices 2) with [0; 1]. cbn [map fold_right]. rewrite A1, A2, A3, A4. lra. }
  rewrite Et in Hc. destruct (Hc 1%R ltac:(lra)) as (n & Hn). specialize (Hn (2 * n + 1)%nat ltac:(lia)). destruct (G n) as (_ & _ & E3 & _). rewrite E3 in Hn. unfold R_dist in Hn.
  rewrite Rabs_right in Hn by lra. lra.
Qed.
End Two.
