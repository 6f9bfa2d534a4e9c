(** The spectral heat program. *)
From Coq Require Import Bool Reals Lia Lra ZifyBool List.
From Verif Require Import Machine MachineProofs TypeSeqModel TaggedModel DomainModel DomainSpec DomainProofs ListAux DomainProofs2 SpanModel ReduceModel ArithModel
  UniformProofs ProgramModel ProgramProofs GridProofs LineProofs SamplingModel SamplingSpec SamplingProofs HeatModel HeatSpec HeatProofs HeatReals
  LoopModel LoopProofs AdvectionProofs FFTSpec FFTMath FFTProofs FFTTheorems SpectralModel SpectralSpec SpectralMath HeatTheorems.
Import ListNotations.
Local Open Scope bool_scope. Local Open Scope Z_scope.
Local Arguments Z.pow : simpl never.

(** A chunk on the grid that holds [T]. *)
Definition carries (nx ny : Z) (k : chunk_nd Real_) (T : Z -> Z -> R) : Prop := nd_domain k = dom2 hx hy 0 nx 0 ny /\ forall i j, 0 <= i < nx -> 0 <= j < ny -> nd_at k [i; j] = T i j.
Lemma grid_mesh nx ny : 1 <= nx < 2 ^ 31 -> 1 <= ny < 2 ^ 31 -> mesh (dom2 hx hy 0 nx 0 ny) [nx; ny].
Proof.
  intros Hx Hy. split; [|split; [discriminate|]].
  - constructor; [intros [Q | []]; discriminate|]. constructor; [intros [] | constructor].
  - constructor; [cbn [fst snd]; lia|]. constructor; [cbn [fst snd]; lia | constructor].
Qed.
Lemma shown_ok nx ny time k T : 1 <= nx < 2 ^ 31 -> 1 <= ny < 2 ^ 31 -> carries nx ny k T ->
  spectral_display (dom2 hx hy 0 nx 0 ny) time k = Ok (line_of nx ny time T).
Proof.
  intros Hx Hy (D & H). unfold spectral_display. rewrite D, (mesh_shape _ _ (grid_mesh nx ny Hx Hy)). apply display_ok; auto. split; [reflexivity|]. split; [reflexivity|]. intros i j Hi Hj. cbn [a2_at]. now apply H.
Qed.
Lemma us_init_sampling q a b n : (a < b)%R -> 1 < n < 2 ^ 63 -> us_init RA q a b n = Ok (mk_us RA a ((b - a) / IZR (n - 1))%R 0, [(q, (0, n))]).
Proof.
  intros Hab Hn. unfold us_init. cbn [nltb RA]. rewrite R_ltb_true by exact Hab. replace (1 <? n) with true by lia.
  rewrite ssub_small by lia. cbn [rbind]. unfold us_construct. cbn [nltb nofz nsub ndiv num RA]. rewrite R_ltb_true.
  2:{ apply Rdiv_lt_0_compat; [lra|]. apply IZR_lt. lia. }
  cbn [rbind us_front]. unfold reference_element. rewrite mk_domain_1' by lia. cbn [rbind]. do 4 f_equal.
Qed.
Lemma remove_last_1 q n : 1 < n < 2 ^ 63 -> remove_last [(q, (0, n))] [(q, 1)] = Ok [(q, (0, n - 1))].
Proof.
  intros Hn. unfold remove_last. rewrite extents_1' by lia. cbn [rbind]. rewrite vect_sub_1 by lia. cbn [rbind front dom_begin map fst snd]. rewrite mk_domain_1' by lia. do 4 f_equal. lia.
Qed.

Section Program.
Context (L : fft_library) (HL : exact_library L) (nx ny : Z) (Hx : 2 <= nx < 2 ^ 31) (Hy : 2 <= ny < 2 ^ 31).
Context (a b c e kx ky dt : R).
Context (samplings : tag -> uniform_sampling RA) (fx fy : periodic_sampling RA).
Hypothesis Hfx : forall p, 0 <= p < nx -> ps_coordinate RA fx p = Ok (frequency a b nx p : num RA).
Hypothesis Hfy : forall q, 0 <= q < ny -> ps_coordinate RA fy q = Ok (frequency c e ny q : num RA).
Notation factor p q := (1 - dt * decay_rate nx ny a b c e kx ky p q)%R.
Notation xy := (dom2 hx hy 0 nx 0 ny).
Lemma damp_call_ok p q v : 0 <= p < nx -> 0 <= q < ny ->
  exists w, damp_call fx fy kx ky dt p q v = Ok w /\ w [p; q] = (RtoC (factor p q) * v [p; q])%C /\ forall l, l <> [p; q] -> w l = v l.
Proof.
  intros Hp Hq. unfold damp_call. rewrite Hfx, Hfy by lia. cbn [rbind]. eexists. split; [reflexivity|]. split.
  - destruct (list_eq_dec Z.eq_dec [p; q] [p; q]) as [_|N]; [|now elim N]. rewrite Cmult_comm. f_equal. f_equal. unfold decay_rate. ring.
  - intros l Hl. destruct (list_eq_dec Z.eq_dec l [p; q]) as [N|_]; [now elim Hl|reflexivity].
Qed.
Lemma damp_ok n1 n2 d v : n1 <= nx -> n2 <= ny -> 0 <= n1 -> 0 <= n2 -> view_shape d = [n1; n2] ->
  exists w, damp fx fy kx ky dt (mk_chunk_nd (t := Complex_) d v) = Ok (mk_chunk_nd (t := Complex_) d w) /\
    forall p q, 0 <= p < n1 -> 0 <= q < n2 -> w [p; q] = (RtoC (factor p q) * v [p; q])%C.
Proof.
  intros H1 H2 P1 P2 Hd. unfold damp. cbn [nd_domain nd_at]. rewrite Hd.
  pose (P := fun (p : Z) (w : list Z -> C) => (forall p' q, 0 <= p' < p -> 0 <= q < n2 -> w [p'; q] = (RtoC (factor p' q) * v [p'; q])%C) /\ forall p' q, p <= p' -> w [p'; q] = v [p'; q]).
  assert (G : post True (P n1) (for_range 0 n1 (fun p v => for_range 0 n2 (fun q v => damp_call fx fy kx ky dt p q v) v) v)).
  { apply post_for; [lia| |].
    - split; [intros; lia | reflexivity].
    - intros p w Hp (A & B). pose (Q := fun (q : Z) (w' : list Z -> C) => (forall p' q', p' <> p -> w' [p'; q'] = w [p'; q']) /\ (forall q', 0 <= q' < q -> w' [p; q'] = (RtoC (factor p q') * v [p; q'])%C) /\ forall q', q <= q' -> w' [p; q'] = v [p; q']).
      eapply post_weaken; [apply (post_for True Q); [lia| |]|].
      + split; [reflexivity|]. split; [intros; lia|]. intros q' _. apply B. lia.
      + intros q w' Hq (Q1 & Q2 & Q3). destruct (damp_call_ok p q w' ltac:(lia) ltac:(lia)) as (w'' & -> & E1 & E2). cbn [post]. split; [|split].
        * intros p' q' N. rewrite E2 by congruence. now apply Q1.
        * intros q' Hq'. destruct (Z.eq_dec q' q) as [->|N]; [rewrite E1, Q3 by lia; reflexivity|]. rewrite E2 by congruence. apply Q2. lia.
        * intros q' Hq'. rewrite E2 by (intros N; assert (q' = q) by congruence; lia). apply Q3. lia.
      + intros w' (Q1 & Q2 & Q3). split.
        * intros p' q' Hp' Hq'. destruct (Z.eq_dec p' p) as [->|N]; [now apply Q2|]. rewrite Q1 by exact N. apply A; lia.
        * intros p' q' Hp'. rewrite Q1 by lia. apply B. lia. }
  change (value Complex_) with C in *. destruct (for_range 0 n1 (fun p v => for_range 0 n2 (fun q v => damp_call fx fy kx ky dt p q v) v) v) as [w| |]; cbn [post] in G; [|now elim G..]. cbn [rbind]. exists w. split; [reflexivity|]. apply G.
Qed.
Lemma iterate_ok k_mesh k T T' : mesh k_mesh (half [nx; ny]) -> carries nx ny k T -> spectral_step nx ny a b c e kx ky dt T T' ->
  exists k', spectral_iterate L samplings fx fy kx ky dt k_mesh k = Ok k' /\ carries nx ny k' T'.
Proof.
  intros Hk (D & H) Hs. destruct k as [d v]. cbn [nd_domain nd_at] in D, H. subst d. unfold spectral_iterate. cbn [nd_domain].
  pose proof (grid_mesh nx ny ltac:(lia) ltac:(lia)) as M.
  destruct (real_forward L HL samplings N_BACKWARD xy k_mesh [nx; ny] M I Hk v) as (F & EF & VF). cbn [value] in *. rewrite EF. cbn [rbind].
  assert (Hh : half [nx; ny] = [nx; ny / 2 + 1]) by reflexivity. rewrite Hh in *.
  assert (Hny : 0 <= ny / 2 /\ ny / 2 + 1 <= ny) by (split; [apply Z.div_pos; lia | pose proof (Z.div_lt ny 2 ltac:(lia) ltac:(lia)); lia]).
  destruct (damp_ok nx (ny / 2 + 1) k_mesh F ltac:(lia) ltac:(lia) ltac:(lia) ltac:(lia) (mesh_shape _ _ Hk)) as (w & EW & VW). rewrite EW. cbn [rbind].
  destruct (real_backward L HL samplings N_BACKWARD xy k_mesh [nx; ny] M I Hk w (damped nx ny a b c e kx ky dt v)) as (g & EG & VG).
  - apply damped_hermitian; lia.
  - rewrite Hh. intros k Hb. destruct (box_2_inv _ _ _ Hb) as (p & q & -> & Hp & Hq). rewrite VW by auto. cbn [damped]. rewrite VF by exact Hb. cbn [factor]. cbn [FFTSpec.factor]. ring.
  - exists (mk_chunk_nd (t := Real_) xy g). split; [exact EG|]. split; [reflexivity|]. cbn [nd_at]. cbn [FFTSpec.factor] in VG.
    assert (S : spectral_step nx ny a b c e kx ky dt (fun i j => v [i; j]) (fun i j => g [i; j])) by (apply damped_step; [lia|lia|exact VG]).
    apply (step_unique nx ny a b c e kx ky dt ltac:(lia) ltac:(lia) T); [|exact Hs].
    exact (step_ext nx ny a b c e kx ky dt _ _ T (fun i j => g [i; j]) H (fun _ _ _ _ => eq_refl) S).
Qed.
Context (k_mesh : domain) (Hk : mesh k_mesh (half [nx; ny])) (T : nat -> Z -> Z -> R) (HT : forall n, spectral_step nx ny a b c e kx ky dt (T n) (T (S n))).
Context (time : Z -> R) (period : Z) (Hper : 0 < period).
Definition lines_before (k : nat) : list (display_line RA) :=
  map (fun n => line_of nx ny (time (Z.of_nat n)) (T n)) (filter (fun n => Z.of_nat n mod period =? 0) (seq 0 k)).
Definition inv (k : Z) (st : spectral_state) : Prop :=
  carries nx ny (f_last st) (T (Z.to_nat (k - 1))) /\ f_output st = period * ((k - 1) / period) /\ f_lines st = lines_before (Z.to_nat k).
Lemma iteration_ok k st : 1 <= k < 2 ^ 63 -> inv k st ->
  post True (inv (k + 1)) (spectral_iteration L samplings fx fy kx ky dt xy k_mesh time period k st).
Proof.
  intros Hkk (I1 & I5 & I6). unfold spectral_iteration.
  destruct (iterate_ok k_mesh (f_last st) _ _ Hk I1 (HT _)) as (k' & -> & R1). cbn [rbind].
  set (n := Z.to_nat (k - 1)) in *. assert (En : Z.to_nat (k + 1 - 1) = S n) by lia.
  assert (Q : 0 <= period * ((k - 1) / period) <= k - 1).
  { split; [apply Z.mul_nonneg_nonneg; [lia|apply Z.div_pos; lia]|apply Z.mul_div_le; lia]. }
  assert (Dv : (period <=? k - period * ((k - 1) / period)) = (k mod period =? 0)).
  { assert (E1 := Z.div_mod (k - 1) period ltac:(lia)). assert (E2 := Z.mod_pos_bound (k - 1) period Hper).
    destruct (Z.eq_dec ((k - 1) mod period) (period - 1)) as [e'|ne].
    - assert (M : k mod period = 0). { symmetry. apply (Z.mod_unique _ _ ((k - 1) / period + 1)); lia. }
      rewrite M. apply Z.leb_le. lia.
    - assert (M : k mod period = (k - 1) mod period + 1). { symmetry. apply (Z.mod_unique _ _ ((k - 1) / period)); lia. }
      rewrite M. destruct (period <=? k - period * ((k - 1) / period)) eqn:C; lia. }
  assert (O : (if k mod period =? 0 then k else period * ((k - 1) / period)) = period * (k / period)).
  { assert (E1 := Z.div_mod (k - 1) period ltac:(lia)). assert (E2 := Z.mod_pos_bound (k - 1) period Hper).
    assert (E3 := Z.div_mod k period ltac:(lia)). destruct (k mod period =? 0) eqn:C; [lia|]. f_equal.
    assert (E4 := Z.mod_pos_bound k period Hper). symmetry. apply (Z.div_unique _ _ _ (k mod period - 1)); lia. }
  assert (Em : elem_minus k (f_output st) = k - period * ((k - 1) / period)).
  { rewrite I5. unfold elem_minus, u64_sub. rewrite u64_small, i64_small by lia. reflexivity. }
  rewrite Em, Dv.
  assert (Lb : lines_before (Z.to_nat (k + 1)) = lines_before (Z.to_nat k) ++ (if k mod period =? 0 then [line_of nx ny (time k) (T (S n))] else [])).
  { unfold lines_before. replace (Z.to_nat (k + 1)) with (S (Z.to_nat k)) by lia. rewrite seq_S, filter_app, map_app. cbn [filter Nat.add]. rewrite Z2Nat.id by lia.
    f_equal. destruct (k mod period =? 0); [|reflexivity]. cbn [map]. rewrite Z2Nat.id by lia. replace (S n) with (Z.to_nat k) by lia. reflexivity. }
  destruct (k mod period =? 0) eqn:Ck.
  - rewrite (shown_ok nx ny (time k) k' (T (S n))) by (lia || exact R1). cbn [rbind post].
    split; cbn [f_last f_output f_lines]; [rewrite En; exact R1|]. replace (k + 1 - 1) with k by lia. split; [exact O|]. rewrite I6. now rewrite Lb.
  - cbn [post]. split; cbn [f_last f_output f_lines]; [rewrite En; exact R1|]. replace (k + 1 - 1) with k by lia. split; [now rewrite I5|]. rewrite I6, Lb. now rewrite app_nil_r.
Qed.
End Program.
