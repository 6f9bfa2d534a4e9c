(** The waves of a temperature. *)
From Coq Require Import Bool Reals Lia Lra ZifyBool List.
From Verif Require Import Machine ArithModel HeatSpec HeatReals FFTSpec FFTMath FFTProofs FFTTheorems SpectralSpec.
Import ListNotations.
Local Open Scope Z_scope.

Lemma in_box_2 nx ny i j : 0 <= i < nx -> 0 <= j < ny -> in_box [nx; ny] [i; j].
Proof. intros. constructor; [assumption|]. constructor; [assumption|constructor]. Qed.
Lemma box_2_inv nx ny l : in_box [nx; ny] l -> exists i j, l = [i; j] /\ 0 <= i < nx /\ 0 <= j < ny.
Proof. intros H. inversion H as [|? i ? t H1 H2]; subst. inversion H2 as [|? j ? t' H3 H4]; subst. inversion H4; subst. exists i, j. auto. Qed.
Lemma wave_dft nx ny (f : list Z -> R) p q : wave nx ny (fun i j => f [i; j]) p q = dft [nx; ny] (fun l => RtoC (f l)) [p; q].
Proof.
  unfold wave, dft. cbn [box_sum]. apply csum_ext. intros i _. apply csum_ext. intros j _. f_equal. f_equal. cbn [angle].
  unfold Rdiv. ring.
Qed.
Definition listed (T : Z -> Z -> R) (l : list Z) : R := match l with [i; j] => T i j | _ => 0%R end.
Lemma wave_listed nx ny T p q : wave nx ny T p q = dft [nx; ny] (fun l => RtoC (listed T l)) [p; q].
Proof. rewrite <- wave_dft. reflexivity. Qed.
Lemma wave_ext nx ny T T' p q : (forall i j, 0 <= i < nx -> 0 <= j < ny -> T i j = T' i j) -> wave nx ny T p q = wave nx ny T' p q.
Proof. intros H. unfold wave. apply csum_ext. intros i Hi. apply csum_ext. intros j Hj. rewrite H by lia. reflexivity. Qed.
Section Grid.
Context (nx ny : Z) (Hx : 1 <= nx) (Hy : 1 <= ny).
Lemma sizes : Forall (fun n => 1 <= n) [nx; ny]. Proof. constructor; [exact Hx|]. constructor; [exact Hy|constructor]. Qed.
Lemma points_2 : points [nx; ny] = nx * ny. Proof. cbn. ring. Qed.
Lemma npos : (0 < IZR (nx * ny))%R. Proof. apply IZR_lt. nia. Qed.
Lemma waves_determine T T' : (forall p q, 0 <= p < nx -> 0 <= q < ny -> wave nx ny T p q = wave nx ny T' p q) -> forall i j, 0 <= i < nx -> 0 <= j < ny -> T i j = T' i j.
Proof.
  intros H i j Hi Hj. pose proof (in_box_2 nx ny i j Hi Hj) as B.
  pose proof (forward_backward [nx; ny] (fun l => RtoC (listed T l)) [i; j] sizes B) as E1.
  pose proof (forward_backward [nx; ny] (fun l => RtoC (listed T' l)) [i; j] sizes B) as E2.
  rewrite (inverse_ext [nx; ny] _ (dft [nx; ny] (fun l => RtoC (listed T' l)))) in E1.
  2:{ intros l Hl. destruct (box_2_inv nx ny l Hl) as (p & q & -> & Hp & Hq). rewrite <- !wave_listed. now apply H. }
  rewrite E1 in E2. rewrite points_2 in E2. cbn [listed] in E2. rewrite <- !RtoC_mult in E2. apply RtoC_inj in E2.
  pose proof npos. apply (Rmult_eq_reg_l (IZR (nx * ny))); lra.
Qed.
Lemma rtoc_sum n f : csum n (fun i => RtoC (f i)) = RtoC (total1 (Z.of_nat n) f).
Proof.
  unfold total1, indices. rewrite Nat2Z.id. induction n as [|n IH]; [reflexivity|]. cbn [csum]. rewrite IH, seq_S, !map_app, fold_right_app. cbn [map fold_right plus].
  rewrite <- RtoC_plus. f_equal. generalize (map f (map Z.of_nat (seq 0 n))) as l. induction l as [|x l IHl]; cbn [fold_right]; [lra|]. rewrite <- IHl. ring.
Qed.
Lemma rtoc_total T : csum (Z.to_nat nx) (fun i => csum (Z.to_nat ny) (fun j => RtoC (T i j))) = RtoC (total nx ny T).
Proof.
  rewrite (csum_ext _ _ (fun i => RtoC (total1 ny (fun j => T i j)))). 2:{ intros i _. rewrite rtoc_sum, Z2Nat.id by lia. reflexivity. }
  rewrite rtoc_sum, Z2Nat.id by lia. reflexivity.
Qed.
Lemma wave_mean T : wave nx ny T 0 0 = RtoC (total nx ny T).
Proof.
  rewrite <- rtoc_total. unfold wave. apply csum_ext. intros i _. apply csum_ext. intros j _. rewrite !Z.mul_0_r.
  replace (- (2 * PI * (0 / IZR nx + 0 / IZR ny)))%R with 0%R by (unfold Rdiv; ring). rewrite cis_0. ring.
Qed.
(** Parseval. *)
Lemma box_swap s : forall s' (f : list Z -> list Z -> C), box_sum s (fun j => box_sum s' (f j)) = box_sum s' (fun k => box_sum s (fun j => f j k)).
Proof.
  induction s as [|n s IH]; intros s' f; cbn [box_sum]; [reflexivity|]. rewrite box_csum. apply csum_ext. intros i _. now rewrite IH.
Qed.
Lemma parseval s (f : list Z -> C) : Forall (fun n => 1 <= n) s ->
  box_sum s (fun k => dft s f k * Cconj (dft s f k))%C = (RtoC (IZR (points s)) * box_sum s (fun j => f j * Cconj (f j)))%C.
Proof.
  intros Hs. transitivity (box_sum s (fun k => box_sum s (fun j => f j * (cis (- angle s j k) * Cconj (dft s f k)))))%C.
  { apply box_ext. intros k _. unfold dft at 1. rewrite Cmult_comm, <- box_scal. apply box_ext. intros j _. ring. }
  rewrite box_swap, <- box_scal. apply box_ext. intros j Hj. rewrite box_scal.
  assert (E : box_sum s (fun k => cis (- angle s j k) * Cconj (dft s f k))%C = Cconj (inverse_dft s (dft s f) j)).
  { unfold inverse_dft. rewrite box_conj. apply box_ext. intros k _. rewrite conj_mult, cis_conj. ring. }
  rewrite E, forward_backward by assumption. rewrite conj_mult, conj_real. ring.
Qed.
Definition power (z : C) : R := (fst z ^ 2 + snd z ^ 2)%R.
Lemma conj_power z : (z * Cconj z)%C = RtoC (power z).
Proof. destruct z as [x y]. unfold Cconj, Cmult, RtoC, power. cbn [fst snd]. f_equal; ring. Qed.
Lemma power_scal r z : power (RtoC r * z)%C = (r ^ 2 * power z)%R.
Proof. destruct z as [x y]. unfold Cmult, RtoC, power. cbn [fst snd]. ring. Qed.
Lemma power_pos z : (0 <= power z)%R. Proof. unfold power. pose proof (pow2_ge_0 (fst z)). pose proof (pow2_ge_0 (snd z)). lra. Qed.
Lemma power_energy T : total nx ny (fun p q => power (wave nx ny T p q)) = (IZR (nx * ny) * energy nx ny T)%R.
Proof.
  apply RtoC_inj. rewrite RtoC_mult. unfold energy. rewrite <- !rtoc_total.
  pose proof (parseval [nx; ny] (fun l => RtoC (listed T l)) sizes) as P. rewrite points_2 in P. cbn [box_sum] in P.
  transitivity (csum (Z.to_nat nx) (fun i => csum (Z.to_nat ny) (fun i0 => dft [nx; ny] (fun l => RtoC (listed T l)) [i; i0] * Cconj (dft [nx; ny] (fun l => RtoC (listed T l)) [i; i0]))))%C.
  - apply csum_ext. intros p _. apply csum_ext. intros q _. rewrite conj_power, <- wave_listed. reflexivity.
  - rewrite P. f_equal. apply csum_ext. intros i _. apply csum_ext. intros j _. cbn [listed]. rewrite conj_real, <- RtoC_mult. f_equal. ring.
Qed.
Lemma total1_le n f g : (forall i, 0 <= i < n -> (f i <= g i)%R) -> (total1 n f <= total1 n g)%R.
Proof.
  intros H. unfold total1. assert (H' : forall i, In i (indices n) -> (f i <= g i)%R).
  { intros i Hi. apply H. unfold indices in Hi. apply in_map_iff in Hi as (k & <- & Hk). apply in_seq in Hk. lia. }
  induction (indices n) as [|x l IH]; cbn [map fold_right]; [lra|]. pose proof (H' x (or_introl eq_refl)). assert (fold_right Rplus 0 (map f l) <= fold_right Rplus 0 (map g l))%R by (apply IH; intros; apply H'; now right). lra.
Qed.
End Grid.

Section Scheme.
Context (nx ny : Z) (a b c e kx ky dt : R) (Hx : 1 <= nx) (Hy : 1 <= ny).
Notation rate := (decay_rate nx ny a b c e kx ky).
Notation factor p q := (1 - dt * rate p q)%R.
Lemma oscillations_opposite n p : 1 <= n -> 0 <= p < n -> oscillations n ((- p) mod n) = - oscillations n p \/ oscillations n ((- p) mod n) = oscillations n p.
Proof.
  intros Hn Hp. unfold oscillations. destruct (Z.eq_dec p 0) as [->|N0]; [left; rewrite Z.mod_0_l by lia; replace (2 * 0 <? n) with true by lia; reflexivity|].
  replace ((- p) mod n) with (n - p) by (apply (Z.mod_unique _ _ (-1)); lia).
  destruct (2 * p <? n) eqn:A; destruct (2 * (n - p) <? n) eqn:B; lia.
Qed.
Lemma frequency_opposite u v n p : 1 <= n -> 0 <= p < n -> (frequency u v n ((- p) mod n) ^ 2 = frequency u v n p ^ 2)%R.
Proof. intros Hn Hp. unfold frequency. destruct (oscillations_opposite n p Hn Hp) as [-> | ->]; [rewrite opp_IZR; unfold Rdiv; ring | reflexivity]. Qed.
Definition damped (f : list Z -> R) (k : list Z) : C := match k with [p; q] => (RtoC (factor p q) * dft [nx; ny] (fun l => RtoC (f l)) [p; q])%C | _ => RtoC 0 end.
Lemma damped_hermitian f : hermitian [nx; ny] (damped f).
Proof.
  intros k Hk. destruct (box_2_inv nx ny k Hk) as (p & q & -> & Hp & Hq). cbn [opposite damped].
  pose proof (real_hermitian [nx; ny] f (sizes nx ny Hx Hy) _ Hk) as E. cbn [opposite] in E. rewrite E, conj_mult, conj_real. do 2 f_equal.
  unfold decay_rate. now rewrite !frequency_opposite by lia.
Qed.
Lemma damped_step (f g : list Z -> R) : (forall j, in_box [nx; ny] j -> RtoC (g j) = (RtoC (/ IZR (points [nx; ny])) * inverse_dft [nx; ny] (damped f) j)%C) ->
  spectral_step nx ny a b c e kx ky dt (fun i j => f [i; j]) (fun i j => g [i; j]).
Proof.
  intros H p q Hp Hq. rewrite !wave_dft. rewrite (dft_ext _ _ _ _ H), dft_scal, backward_forward; [| exact (sizes nx ny Hx Hy) | now apply in_box_2].
  cbn [damped]. rewrite points_2. pose proof (npos nx ny Hx Hy) as P. rewrite Cmult_assoc, <- RtoC_mult, Rinv_l by lra. ring.
Qed.
Lemma step_unique T T1 T2 : spectral_step nx ny a b c e kx ky dt T T1 -> spectral_step nx ny a b c e kx ky dt T T2 -> forall i j, 0 <= i < nx -> 0 <= j < ny -> T1 i j = T2 i j.
Proof. intros H1 H2. apply waves_determine; auto. intros p q Hp Hq. now rewrite H1, H2. Qed.
Lemma step_ext T T1 T' T1' : (forall i j, 0 <= i < nx -> 0 <= j < ny -> T i j = T' i j) -> (forall i j, 0 <= i < nx -> 0 <= j < ny -> T1 i j = T1' i j) ->
  spectral_step nx ny a b c e kx ky dt T T1 -> spectral_step nx ny a b c e kx ky dt T' T1'.
Proof. intros E E1 H p q Hp Hq. rewrite <- (wave_ext nx ny T T' p q E), <- (wave_ext nx ny T1 T1' p q E1). now apply H. Qed.
Definition advance (T : Z -> Z -> R) (i j : Z) : R := fst (RtoC (/ IZR (points [nx; ny])) * inverse_dft [nx; ny] (damped (listed T)) [i; j])%C.
Lemma advance_step T : spectral_step nx ny a b c e kx ky dt T (advance T).
Proof.
  apply (damped_step (listed T) (listed (advance T))). intros l Hl. destruct (box_2_inv nx ny l Hl) as (i & j & -> & Hi & Hj). cbn [listed]. unfold advance.
  assert (E : Cconj (RtoC (/ IZR (points [nx; ny])) * inverse_dft [nx; ny] (damped (listed T)) [i; j])%C = (RtoC (/ IZR (points [nx; ny])) * inverse_dft [nx; ny] (damped (listed T)) [i; j])%C).
  { rewrite conj_mult, conj_real, (hermitian_real [nx; ny] _ [i; j] (sizes nx ny Hx Hy) (damped_hermitian _) Hl). reflexivity. }
  exact (real_part _ E).
Qed.
Fixpoint evolve (T : Z -> Z -> R) (n : nat) : Z -> Z -> R := match n with O => T | S n => advance (evolve T n) end.
Definition start (i j : Z) : R := if Rlt_dec (evenly a b (nx + 1) i * evenly a b (nx + 1) i + evenly c e (ny + 1) j * evenly c e (ny + 1) j) (1 / 4) then (9999 / 1000)%R else 0%R.
Lemma history_exists : spectral_history nx ny a b c e kx ky dt (evolve start).
Proof. split; [intros i j _ _; reflexivity|]. intros k. apply advance_step. Qed.
Lemma history_unique T T' : spectral_history nx ny a b c e kx ky dt T -> spectral_history nx ny a b c e kx ky dt T' -> forall n i j, 0 <= i < nx -> 0 <= j < ny -> T n i j = T' n i j.
Proof.
  intros (H0 & H) (H0' & H') n. induction n as [|n IH]; intros i j Hi Hj; [now rewrite H0, H0'|].
  apply (step_unique (T n)); auto. apply (step_ext (T' n) (T' (S n))); auto. intros i' j' Hi' Hj'. now rewrite IH.
Qed.
Lemma rate_0 : rate 0 0 = 0%R.
Proof. unfold decay_rate, frequency, oscillations. replace (2 * 0 <? nx) with true by lia. replace (2 * 0 <? ny) with true by lia. unfold Rdiv. ring. Qed.
Lemma step_total T T' : spectral_step nx ny a b c e kx ky dt T T' -> total nx ny T' = total nx ny T.
Proof.
  intros H. specialize (H 0 0 ltac:(lia) ltac:(lia)). rewrite !wave_mean, rate_0 in H by auto. apply RtoC_inj. rewrite H. rewrite Rmult_0_r, Rminus_0_r. ring.
Qed.
Lemma step_energy T T' : (forall p q, 0 <= p < nx -> 0 <= q < ny -> (-1 <= factor p q <= 1)%R) -> spectral_step nx ny a b c e kx ky dt T T' -> (energy nx ny T' <= energy nx ny T)%R.
Proof.
  intros HM H. pose proof (npos nx ny Hx Hy) as P. apply (Rmult_le_reg_l (IZR (nx * ny))); [exact P|]. rewrite <- !power_energy by auto. unfold total.
  apply total1_le. intros p Hp. apply total1_le. intros q Hq. rewrite H, power_scal by auto. specialize (HM p q). pose proof (power_pos (wave nx ny T p q)) as Q.
  assert ((1 - dt * rate p q) ^ 2 <= 1)%R by (destruct HM as [M1 M2]; [lia|lia|]; replace ((1 - dt * rate p q) ^ 2)%R with (1 - (1 - (1 - dt * rate p q)) * (1 + (1 - dt * rate p q)))%R by ring; pose proof (Rmult_le_pos (1 - (1 - dt * rate p q)) (1 + (1 - dt * rate p q)) ltac:(lra) ltac:(lra)); lra).
  apply Rle_trans with (1 * power (wave nx ny T p q))%R; [|lra]. apply Rmult_le_compat_r; auto.
Qed.
End Scheme.
(** The step of the program is stable. *)
Lemma oscillations_bound n p : 1 <= n -> 0 <= p < n -> - n <= 2 * oscillations n p <= n.
Proof. intros. unfold oscillations. destruct (2 * p <? n) eqn:E; lia. Qed.
Lemma frequency_bound u v n p : (u < v)%R -> 1 <= n -> 0 <= p < n -> (frequency u v n p ^ 2 <= (PI / spacing u v (n + 1)) ^ 2)%R.
Proof.
  intros Huv Hn Hp. pose proof (oscillations_bound n p Hn Hp) as [B1 B2]. unfold frequency, spacing. replace (n + 1 - 1) with n by lia.
  assert (N : (1 <= IZR n)%R) by (apply IZR_le; lia). pose proof PI_RGT_0 as P.
  apply IZR_le in B1, B2. rewrite opp_IZR, mult_IZR in *. set (o := IZR (oscillations n p)) in *.
  replace (PI / ((v - u) / IZR n))%R with (PI / (v - u) * IZR n)%R by (field; lra). replace (2 * PI * o / (v - u))%R with (PI / (v - u) * (2 * o))%R by (field; lra).
  rewrite !Rpow_mult_distr. apply Rmult_le_compat_l; [apply pow2_ge_0|]. replace ((IZR n) ^ 2)%R with ((2 * o) ^ 2 + (IZR n - 2 * o) * (IZR n + 2 * o))%R by ring.
  pose proof (Rmult_le_pos (IZR n - 2 * o) (IZR n + 2 * o) ltac:(lra) ltac:(lra)). lra.
Qed.
Lemma stable nx ny a b c e kx ky p q : 1 <= nx -> 1 <= ny -> (a < b)%R -> (c < e)%R -> (0 < kx)%R -> (0 < ky)%R -> 0 <= p < nx -> 0 <= q < ny ->
  (-1 <= 1 - spectral_dt nx ny a b c e kx ky * decay_rate nx ny a b c e kx ky p q <= 1)%R.
Proof.
  intros Hx Hy Hab Hce Hkx Hky Hp Hq. unfold spectral_dt, decay_rate.
  pose proof (frequency_bound a b nx p Hab Hx Hp) as B1. pose proof (frequency_bound c e ny q Hce Hy Hq) as B2.
  pose proof (pow2_ge_0 (frequency a b nx p)) as P1. pose proof (pow2_ge_0 (frequency c e ny q)) as P2.
  assert (Q : forall u v n, (u < v)%R -> 1 <= n -> (0 < (PI / spacing u v (n + 1)) ^ 2)%R).
  { intros u v n Huv Hn. apply pow_lt. unfold spacing. replace (n + 1 - 1) with n by lia. pose proof PI_RGT_0. assert (0 < IZR n)%R by (apply IZR_lt; lia). apply Rdiv_lt_0_compat; [lra|]. apply Rdiv_lt_0_compat; lra. }
  pose proof (Q a b nx Hab Hx) as Q1. pose proof (Q c e ny Hce Hy) as Q2.
  set (f1 := (frequency a b nx p ^ 2)%R) in *. set (f2 := (frequency c e ny q ^ 2)%R) in *. set (m1 := ((PI / spacing a b (nx + 1)) ^ 2)%R) in *. set (m2 := ((PI / spacing c e (ny + 1)) ^ 2)%R) in *.
  clearbody f1 f2 m1 m2. clear Q.
  assert (D : (0 < kx * m1 + ky * m2)%R) by (pose proof (Rmult_lt_0_compat _ _ Hkx Q1); pose proof (Rmult_lt_0_compat _ _ Hky Q2); lra).
  assert (E : (0 <= kx * f1 + ky * f2 <= kx * m1 + ky * m2)%R).
  { pose proof (Rmult_le_compat_l kx _ _ ltac:(lra) B1). pose proof (Rmult_le_compat_l ky _ _ ltac:(lra) B2). pose proof (Rmult_le_pos kx f1 ltac:(lra) P1). pose proof (Rmult_le_pos ky f2 ltac:(lra) P2). lra. }
  set (u := (kx * f1 + ky * f2)%R) in *. set (w := (kx * m1 + ky * m2)%R) in *. clearbody u w.
  assert (0 <= 2 / w * u <= 2)%R; [|lra]. split.
  - apply Rmult_le_pos; [|lra]. apply Rlt_le, Rdiv_lt_0_compat; lra.
  - apply (Rmult_le_reg_l w); [lra|]. replace (w * (2 / w * u))%R with (2 * u)%R by (field; lra). lra.
Qed.
