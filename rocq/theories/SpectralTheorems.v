(** The spectral heat program: what it prints. *)
From Coq Require Import Bool Reals Lia Lra ZifyBool List Sorted.
From Verif Require Import Machine MachineProofs TypeSeqModel TaggedModel DomainModel DomainSpec DomainProofs ListAux DomainProofs2 SpanModel ReduceModel ArithModel
  UniformProofs ProgramModel ProgramProofs GridProofs LineProofs SamplingModel SamplingSpec SamplingProofs HeatModel HeatSpec HeatProofs HeatReals
  LoopModel LoopProofs AdvectionProofs AdvectionTheorems FFTSpec FFTMath FFTProofs FFTTheorems SpectralModel SpectralSpec SpectralMath SpectralProofs HeatTheorems.
Import ListNotations.
Local Open Scope bool_scope. Local Open Scope Z_scope.
Local Arguments Z.pow : simpl never.

Lemma fourier_frequencies (S : tag -> uniform_sampling RA) f q u v n : 2 <= n < 2 ^ 31 -> (u < v)%R -> S q = mk_us RA u (spacing u v (n + 1)) 0 ->
  exists s, init_fourier_space RA PI S f (q, (0, n)) = Ok s /\ forall p, 0 <= p < n -> ps_coordinate RA s p = Ok (SpectralSpec.frequency u v n p : num RA).
Proof.
  intros Hn Huv HS. assert (N : (0 < IZR n)%R) by (apply IZR_lt; lia). assert (St : us_step RA (S q) = spacing u v (n + 1)) by (now rewrite HS).
  assert (P : (0 < spacing u v (n + 1))%R) by (unfold spacing; replace (n + 1 - 1) with n by lia; apply Rdiv_lt_0_compat; lra).
  destruct (frequencies S f (q, (0, n)) n) as (s & E & H).
  - unfold one_mesh. cbn [fst snd]. lia.
  - lia.
  - cbn [fst]. now rewrite HS.
  - cbn [fst]. now rewrite St.
  - exists s. split; [exact E|]. intros p Hp. rewrite H by exact Hp. unfold SpectralSpec.frequency, oscillations, frequency_step, mesh_step. cbn [fst snd].
    rewrite St. assert (Ec : (p <? n - n / 2) = (2 * p <? n)). { pose proof (Z.div_mod n 2 ltac:(lia)). pose proof (Z.mod_pos_bound n 2 ltac:(lia)). lia. }
    rewrite Ec. unfold spacing. replace (n + 1 - 1) with n by lia. replace (n - 0) with n by lia.
    generalize (if 2 * p <? n then p else p - n) as o. intros o.
    assert (Eo : (IZR o * (2 * PI / (IZR n * ((v - u) / IZR n))))%R = (2 * PI * IZR o / (v - u))%R) by (field; lra). rewrite Eo. reflexivity.
Qed.
Lemma spectral_dt_pos nx ny a b c e kx ky : 1 <= nx -> 1 <= ny -> (a < b)%R -> (c < e)%R -> (0 < kx)%R -> (0 < ky)%R -> (0 < spectral_dt nx ny a b c e kx ky)%R.
Proof.
  intros Hx Hy Hab Hce Hkx Hky. unfold spectral_dt.
  assert (Q : forall u v n, (u < v)%R -> 1 <= n -> (0 < (PI / spacing u v (n + 1)) ^ 2)%R).
  { intros u v n Huv Hn. apply pow_lt. unfold spacing. replace (n + 1 - 1) with n by lia. pose proof PI_RGT_0. assert (0 < IZR n)%R by (apply IZR_lt; lia). apply Rdiv_lt_0_compat; [lra|]. apply Rdiv_lt_0_compat; lra. }
  pose proof (Rmult_lt_0_compat _ _ Hkx (Q a b nx Hab Hx)). pose proof (Rmult_lt_0_compat _ _ Hky (Q c e ny Hce Hy)). apply Rdiv_lt_0_compat; lra.
Qed.

Section Main.
Context (nx ny : Z) (a b c e kx ky t0 t1 : R) (period : Z) (L : fft_library) (ceil : R -> R).
Hypothesis I : spectral_inputs nx ny a b c e kx ky t0 t1 period L ceil.
Notation dt := (spectral_dt nx ny a b c e kx ky).
Notation main := (spectral_main L ceil a b (nx + 1) kx c e (ny + 1) ky t0 t1 period).
Notation history := (spectral_history nx ny a b c e kx ky dt).
Let Hx : 2 <= nx < 2 ^ 31. Proof. apply I. Qed.
Let Hy : 2 <= ny < 2 ^ 31. Proof. apply I. Qed.
Let Hab : (a < b)%R. Proof. apply I. Qed.
Let Hce : (c < e)%R. Proof. apply I. Qed.
Let Hkx : (0 < kx)%R. Proof. apply I. Qed.
Let Hky : (0 < ky)%R. Proof. apply I. Qed.
Let Hper : 0 < period. Proof. apply I. Qed.
Lemma main_ok N T : fewest_steps t0 t1 dt N -> history T -> main = Ok (heat_lines nx ny t0 t1 period N T).
Proof.
  intros HN (H0 & HT). assert (G : post True (fun lines => lines = heat_lines nx ny t0 t1 period N T) main); [|destruct main; cbn [post] in G; [now subst|now elim G..]].
  unfold spectral_main. rewrite !us_init_sampling by (lra || lia). cbn [rbind]. rewrite remove_last_1 by lia. cbn [rbind]. rewrite remove_last_1 by lia. cbn [rbind].
  replace (nx + 1 - 1) with nx by lia. replace (ny + 1 - 1) with ny by lia. cbn [us_step].
  assert (Edt : (2 / (kx * (PI / ((b - a) / IZR nx)) * (PI / ((b - a) / IZR nx)) + ky * (PI / ((e - c) / IZR ny)) * (PI / ((e - c) / IZR ny))))%R = dt).
  { unfold spectral_dt, spacing. replace (nx + 1 - 1) with nx by lia. replace (ny + 1 - 1) with ny by lia. f_equal. ring. }
  rewrite Edt. clear Edt. pose proof (spectral_dt_pos nx ny a b c e kx ky ltac:(lia) ltac:(lia) Hab Hce Hkx Hky) as Hdt.
  destruct (time_ok ceil t0 t1 dt (sp_ceil _ _ _ _ _ _ _ _ _ _ _ _ _ I) (sp_t _ _ _ _ _ _ _ _ _ _ _ _ _ I) Hdt (sp_steps _ _ _ _ _ _ _ _ _ _ _ _ _ I)) as (times & N' & Et & HN' & N2 & Hcoord & Hstep).
  assert (N' = N) as -> by (eapply fewest_unique; eauto). rewrite Et. cbn [rbind]. rewrite merge_xy by lia. cbn [rbind].
  cbn [front dom_begin map fst snd one_elem rbind].
  set (sx := mk_us RA a _ 0). set (sy := mk_us RA c _ 0). set (S := fun q : nat => if Nat.eqb q hx then sx else sy). set (last := mk_chunk_nd _ _).
  assert (HLs : carries nx ny last (T O)).
  { split; [reflexivity|]. intros i j Hi Hj. rewrite H0 by auto. cbn [nd_at last]. unfold initial_temp, us_coordinate. cbn [us_origin us_step us_front sx sy nadd nmul nofz nltb RA].
    unfold elem_minus, u64_sub. rewrite !u64_small, !i64_small by lia. rewrite !Z.sub_0_r. unfold evenly, spacing. replace (nx + 1 - 1) with nx by lia. replace (ny + 1 - 1) with ny by lia.
    set (X := (a + IZR i * ((b - a) / IZR nx))%R). set (Y := (c + IZR j * ((e - c) / IZR ny))%R). destruct (Rlt_dec (X * X + Y * Y) (1 / 4)) as [Hlt|Hge]; [rewrite R_ltb_true by exact Hlt | rewrite R_ltb_false by lra]; cbn [value]; change (num RA) with R; lra. }
  rewrite (shown_ok nx ny _ last (T O)) by (lia || exact HLs). cbn [rbind].
  destruct (fourier_frequencies S hfx hx a b nx ltac:(lia) Hab) as (fx & Efx & Hfx). { unfold S, sx, spacing. cbn [Nat.eqb hx]. replace (nx + 1 - 1) with nx by lia. reflexivity. }
  destruct (fourier_frequencies S hfy hy c e ny ltac:(lia) Hce) as (fy & Efy & Hfy). { unfold S, sy, spacing. cbn [Nat.eqb hx hy]. replace (ny + 1 - 1) with ny by lia. reflexivity. }
  rewrite Efx. cbn [rbind]. rewrite Efy. cbn [rbind].
  destruct (fourier_mesh_ok fourier_of_dim (dom2 hx hy 0 nx 0 ny) [nx; ny] false (grid_mesh nx ny ltac:(lia) ltac:(lia))) as (kd & Ek & Mk & _).
  { constructor; [intros [Q | []]; discriminate|]. constructor; [intros [] | constructor]. }
  rewrite Ek. cbn [rbind].
  assert (Er : remove_first [(ht, (0, N + 1))] [(ht, 1)] = Ok [(ht, (1, N + 1))]).
  { destruct HN as [HN _]. unfold remove_first, front. cbn [dom_begin map fst snd]. rewrite elem_add_1 by lia. cbn [rbind]. rewrite extents_1' by lia. cbn [rbind].
    rewrite vect_sub_1 by lia. cbn [rbind]. rewrite mk_domain_1' by lia. f_equal. f_equal. f_equal. f_equal; lia. }
  rewrite Er. cbn [rbind dom_begin dom_end map fst snd one_elem]. destruct HN as [HN HN3].
  eapply post_bind.
  - apply (post_for _ (inv nx ny T (us_coordinate RA times) period)); [lia| |].
    + split; [exact HLs|]. split.
      * change (1 - 1) with 0. rewrite Z.div_0_l, Z.mul_0_r by lia. reflexivity.
      * unfold lines_before. change (Z.to_nat 1) with 1%nat. cbn [seq filter]. change (Z.of_nat 0) with 0. rewrite Z.mod_0_l by lia. reflexivity.
    + intros k st Hk Hi. refine (iteration_ok L (sp_exact _ _ _ _ _ _ _ _ _ _ _ _ _ I) nx ny Hx Hy a b c e kx ky dt S fx fy Hfx Hfy kd Mk T HT (us_coordinate RA times) period Hper k st _ Hi). lia.
  - intros st (I1 & I5 & I6). replace (N + 1 - 1) with N in * by lia.
    assert (Eb : back [(ht, (0, N + 1))] = [(ht, N)]). { rewrite back_1 by lia. do 2 f_equal. lia. }
    rewrite Eb. cbn [rbind one_elem]. rewrite I5. set (n := Z.to_nat N) in *.
    assert (E1 := Z.div_mod N period ltac:(lia)). assert (E2 := Z.mod_pos_bound N period Hper).
    assert (El : forall k, (k <= n)%nat -> line_of nx ny (us_coordinate RA times (Z.of_nat k)) (T k) = line_of nx ny (t0 + IZR (Z.of_nat k) * (t1 - t0) / IZR N) (T k)) by (intros k Hk; rewrite Hcoord by lia; reflexivity).
    assert (Eq : forall l, (forall k, In k l -> (k <= n)%nat) -> map (fun k => line_of nx ny (us_coordinate RA times (Z.of_nat k)) (T k)) l = map (fun k => line_of nx ny (t0 + IZR (Z.of_nat k) * (t1 - t0) / IZR N) (T k)) l).
    { intros l Hl. apply map_ext_in. intros k Hk. apply El, Hl, Hk. }
    rewrite I6. unfold lines_before. replace (Z.to_nat (N + 1)) with (Datatypes.S n) by lia.
    rewrite Eq by (intros k Hk; apply filter_In in Hk as [Hk _]; apply in_seq in Hk; lia).
    destruct (period * (N / period) <? N) eqn:C.
    + rewrite (shown_ok nx ny _ _ _ ltac:(lia) ltac:(lia) I1). cbn [rbind post]. unfold heat_lines. fold n. rewrite (shown_more dt period ceil Hper) by (subst n; rewrite ?Z2Nat.id by lia; lia).
      rewrite map_app. cbn [map]. rewrite <- El by lia. subst n. rewrite Z2Nat.id by lia. reflexivity.
    + cbn [post]. unfold heat_lines. fold n. rewrite shown_all' by (subst n; rewrite Z2Nat.id by lia; lia). reflexivity.
Qed.
Theorem spectral_prints : exists N T, fewest_steps t0 t1 dt N /\ history T /\
  (forall N' T', fewest_steps t0 t1 dt N' -> history T' -> N' = N /\ forall n i j, 0 <= i < nx -> 0 <= j < ny -> T' n i j = T n i j) /\
  main = Ok (heat_lines nx ny t0 t1 period N T).
Proof.
  pose proof (spectral_dt_pos nx ny a b c e kx ky ltac:(lia) ltac:(lia) Hab Hce Hkx Hky) as Hdt.
  destruct (steps_exist t0 t1 dt ceil (sp_t _ _ _ _ _ _ _ _ _ _ _ _ _ I) Hdt (sp_steps _ _ _ _ _ _ _ _ _ _ _ _ _ I) (sp_ceil _ _ _ _ _ _ _ _ _ _ _ _ _ I)) as (N & HN).
  pose proof (history_exists nx ny a b c e kx ky dt ltac:(lia) ltac:(lia)) as HT. exists N, (evolve nx ny a b c e kx ky dt (start nx ny a b c e)).
  split; [exact HN|]. split; [exact HT|]. split; [|now apply main_ok].
  intros N' T' HN' HT'. split; [eapply fewest_unique; eauto|]. intros n i j Hi Hj. apply (history_unique nx ny a b c e kx ky dt ltac:(lia) ltac:(lia)); auto.
Qed.
Theorem spectral_output : exists lines, main = Ok lines /\ printed_times t0 t1 lines /\ same_mean lines.
Proof.
  destruct spectral_prints as (N & T & HN & HT & _ & E). eexists. split; [exact E|]. split.
  - apply lines_times; [apply I | apply HN].
  - apply lines_mean. intros k. apply (step_total nx ny a b c e kx ky dt); try lia. apply HT.
Qed.
Theorem spectral_stable T : history T -> forall n, (energy nx ny (T (S n)) <= energy nx ny (T n))%R.
Proof.
  intros (_ & HT) n. apply (step_energy nx ny a b c e kx ky dt); try lia; [|apply HT]. intros p q Hp Hq. apply stable; auto; lia.
Qed.
End Main.
