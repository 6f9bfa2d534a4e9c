From Coq Require Import String.
From Verif Require Import Machine ListAux PdiModel PdiSpec.

Definition ref : Type := string * ptr * access.
Definition rname (r : ref) : string := fst (fst r).
Definition pick (n : string) (refs : list ref) : list (ptr * access) :=
  rev (map (fun r => (snd (fst r), snd r)) (filter (fun r => String.eqb n (rname r)) refs)).
Definition is_setup (c : call) : bool := match c with Store _ _ | PDI_share _ _ _ => true | _ => false end.
Definition matches (w : world) (r : ref) (x : string * content * access) : Prop :=
  rname r = fst (fst x) /\ snd r = snd x /\ denotes w (snd (fst r)) (snd (fst x)).

Lemma Forall2_impl_in {A B} (P Q : A -> B -> Prop) l l' : (forall a b, P a b -> Q a b) -> Forall2 P l l' -> Forall2 Q l l'.
Proof. intros H. induction 1; constructor; auto. Qed.
Lemma steps_app w l w' l' w'' : steps w l w' -> steps w' l' w'' -> steps w (l ++ l') w''.
Proof. induction 1; cbn; auto. intros. econstructor; eauto. Qed.
Lemma steps_one w c w' : step w c w' -> steps w [c] w'.
Proof. intros. econstructor; eauto. constructor. Qed.

Section Inv.
Variables (w0 : world).
Record inv (e : pdi_event) (w : world) (refs : list ref) (xs : list (string * content * access)) : Prop := {
  i_steps : steps w0 (trace e) w;
  i_setup : forallb is_setup (trace e) = true;
  i_names : m_names e = map rname refs;
  i_owned : forall k, owned w k = nth_error (m_metadata e) k;
  i_shared : forall n, shared w n = pick n refs ++ shared w0 n;
  i_match : Forall2 (matches w) refs xs }.
Lemma inv_init name : (forall k, owned w0 k = None) -> inv (make_event name) w0 [] [].
Proof. intros fresh. constructor; cbn; auto; [constructor | intros [|k]; apply fresh]. Qed.
Lemma inv_share_copy e w refs xs name m a : inv e w refs xs ->
  exists w', inv (share_copy e name m a) w' (refs ++ [(name, Own (length (m_metadata e)), a)]) (xs ++ [(name, Copy m, a)]) /\
             m_event_name (share_copy e name m a) = m_event_name e.
Proof.
  intros [H1 H2 H3 H4 H5 H6]. unfold share_copy. cbn. set (k := length (m_metadata e)).
  set (w1 := mk_world (shared w) (fun j => if Nat.eqb j k then Some m else owned w j)).
  assert (S1 : step w (Store k m) w1) by (constructor; rewrite H4; apply nth_error_None; lia).
  eexists (mk_world (upd (shared w1) name ((Own k, a) :: shared w1 name)) (owned w1)).
  assert (S2 : step w1 (PDI_share name (Own k) a) (mk_world (upd (shared w1) name ((Own k, a) :: shared w1 name)) (owned w1))).
  { constructor. intros j E. injection E as <-. cbn. now rewrite Nat.eqb_refl. }
  split; [|reflexivity]. constructor; unfold share; cbn [m_event_name m_names m_metadata trace store_name shared owned w1].
  - eapply steps_app; [eapply steps_app; [exact H1 | apply steps_one, S1] | apply steps_one, S2].
  - rewrite !forallb_app. rewrite H2. reflexivity.
  - now rewrite H3, map_app.
  - intros j. destruct (Nat.eqb_spec j k) as [->|Hj].
    + unfold k. now rewrite nth_error_app2, Nat.sub_diag by lia.
    + rewrite H4. destruct (Nat.lt_ge_cases j (length (m_metadata e))); [now rewrite nth_error_app1|].
      rewrite (proj2 (nth_error_None (m_metadata e) j)) by lia. symmetry. apply nth_error_None. rewrite app_length. cbn. unfold k in Hj. lia.
  - intros n. unfold upd, pick. rewrite filter_app, map_app, rev_app_distr. cbn [filter rname fst snd].
    destruct (String.eqb_spec n name) as [->|Hn]; cbn; rewrite H5; reflexivity.
  - apply Forall2_app.
    + eapply Forall2_impl_in; [|exact H6]. intros [[n p] b] [[n' c] b'] (E1 & E2 & E3). split; [exact E1|]. split; [exact E2|].
      cbn in *. destruct c as [m'|h]; auto. destruct E3 as (j & -> & Ej). exists j. split; auto. cbn.
      destruct (Nat.eqb_spec j k) as [->|]; auto. rewrite H4 in Ej. assert (k < length (m_metadata e))%nat by (apply nth_error_Some; congruence). unfold k in *; lia.
    + constructor; [|constructor]. split; [reflexivity|]. split; [reflexivity|]. cbn. exists k. split; auto. cbn. now rewrite Nat.eqb_refl.
Qed.
Lemma inv_share_user e w refs xs name h a : inv e w refs xs ->
  exists w', inv (share e name (User h) a) w' (refs ++ [(name, User h, a)]) (xs ++ [(name, At h, a)]) /\
             m_event_name (share e name (User h) a) = m_event_name e.
Proof.
  intros [H1 H2 H3 H4 H5 H6]. eexists (mk_world (upd (shared w) name ((User h, a) :: shared w name)) (owned w)). split; [|reflexivity].
  constructor; cbn.
  - eapply steps_app; [exact H1|]. apply steps_one. constructor. discriminate.
  - rewrite forallb_app, H2. reflexivity.
  - now rewrite H3, map_app.
  - exact H4.
  - intros n. unfold upd, pick. rewrite filter_app, map_app, rev_app_distr. cbn [filter rname fst snd].
    destruct (String.eqb_spec n name) as [->|Hn]; cbn; rewrite H5; reflexivity.
  - apply Forall2_app; [exact H6|]. constructor; [|constructor]. repeat split.
Qed.
Lemma map_u64 x : Forall (fun n => 0 <= n < 2 ^ 64) x -> map u64 x = x.
Proof. induction 1; cbn; auto. rewrite IHForall. f_equal. unfold u64. change two64 with (2 ^ 64). now apply Z.mod_small. Qed.
Lemma inv_with e w refs xs c : acceptable c -> extents_fit c -> inv e w refs xs ->
  exists e' w' refs', with_ e (fst (fst c)) (snd (fst c)) (snd c) = Ok e' /\ inv e' w' refs' (xs ++ expected c) /\ m_event_name e' = m_event_name e.
Proof.
  intros Ha Hf Hi. destruct c as [[name a] d]. cbn [fst snd].
  assert (Hchunk : forall a0 x h w1, (acc_in a0 = true -> w1 = true) -> Forall (fun n => 0 <= n < 2 ^ 64) x ->
    exists e' w' refs', with_chunk e name a0 x h w1 = Ok e' /\
      inv e' w' refs' (xs ++ [((name ++ "_rank")%string, Copy (Scalar (Z.of_nat (length x))), PDI_OUT); ((name ++ "_extents")%string, Copy (Array x), PDI_OUT); (name, At h, a0)]) /\ m_event_name e' = m_event_name e).
  { intros a0 x h w1 Hw Hx. unfold with_chunk. replace (negb (acc_in a0) || acc_in (default_access w1)) with true.
    2:{ destruct (acc_in a0); auto. rewrite Hw by auto. reflexivity. }
    rewrite map_u64 by exact Hx.
    destruct (inv_share_copy e w refs xs (name ++ "_rank")%string (Scalar (Z.of_nat (length x))) PDI_OUT Hi) as (w2 & I2 & E2).
    eapply inv_share_copy in I2 as (w3 & I3 & E3). eapply inv_share_user in I3 as (w4 & I4 & E4).
    eexists _, _, _. split; [reflexivity|]. rewrite <- !app_assoc in I4. split; [exact I4 |]. congruence. }
  assert (Harith : forall a0 v p w1, (acc_in a0 = true -> w1 = true) ->
    exists e' w' refs', with_arithmetic e name a0 v p w1 = Ok e' /\ inv e' w' refs' (xs ++ [(name, if acc_in a0 then At p else Copy (Scalar v), a0)]) /\ m_event_name e' = m_event_name e).
  { intros a0 v p w1 Hw. unfold with_arithmetic. replace (negb (acc_in a0) || acc_in (default_access w1)) with true.
    2:{ destruct (acc_in a0); auto. rewrite Hw by auto. reflexivity. }
    destruct (acc_in a0).
    - eapply inv_share_user in Hi as (w4 & I4 & E4). eexists _, _, _. split; [reflexivity|]. split; [exact I4|exact E4].
    - eapply inv_share_copy in Hi as (w4 & I4 & E4). eexists _, _, _. split; [reflexivity|]. split; [exact I4|exact E4]. }
  destruct d as [x h w1 | v p w1 | n p]; cbn [with_ expected acceptable extents_fit] in *.
  - destruct a as [a|]; apply Hchunk; auto; destruct w1; auto; discriminate.
  - destruct a as [a|]; apply Harith; auto; destruct w1; auto; discriminate.
  - destruct a as [a|]; [contradiction|]. unfold with_string.
    destruct (inv_share_copy e w refs xs (name ++ "_size")%string (Scalar n) PDI_OUT Hi) as (w2 & I2 & E2).
    eapply inv_share_user in I2 as (w4 & I4 & E4). eexists _, _, _. split; [reflexivity|]. rewrite <- !app_assoc in I4. split; [exact I4|]. congruence.
Qed.
Lemma inv_withs l : forall e w refs xs, Forall acceptable l -> Forall extents_fit l -> inv e w refs xs ->
  exists e' w' refs', withs e l = Ok e' /\ inv e' w' refs' (xs ++ concat (map expected l)) /\ m_event_name e' = m_event_name e.
Proof.
  induction l as [|c l IH]; intros e w refs xs Ha Hf Hi.
  - exists e, w, refs. cbn. rewrite app_nil_r. auto.
  - inversion Ha as [|? ? Ha1 Ha2]; subst. inversion Hf as [|? ? Hf1 Hf2]; subst.
    destruct (inv_with e w refs xs c Ha1 Hf1 Hi) as (e1 & w1 & r1 & E & I & N). destruct c as [[name a] d]. cbn [withs fst snd] in *. rewrite E. cbn [rbind].
    destruct (IH e1 w1 r1 _ Ha2 Hf2 I) as (e2 & w2 & r2 & E' & I' & N'). exists e2, w2, r2. cbn [map concat]. rewrite app_assoc.
    split; [exact E'|]. split; [exact I'|]. congruence.
Qed.
(** ** Destruction *)
Lemma pick_cons n r refs : pick n (r :: refs) = pick n refs ++ (if String.eqb n (rname r) then [(snd (fst r), snd r)] else []).
Proof. unfold pick. cbn [filter]. destruct (String.eqb n (rname r)); cbn; [reflexivity | now rewrite app_nil_r]. Qed.
Lemma reclaim_all names : forall w (base : store_t),
  (forall n, exists l, shared w n = l ++ base n /\ length l = count_occ String.string_dec names n) ->
  exists w', steps w (map PDI_reclaim names) w' /\ (forall n, shared w' n = base n) /\ owned w' = owned w.
Proof.
  induction names as [|n0 names IH]; intros w base H.
  - exists w. split; [constructor|]. split; auto. intros n. destruct (H n) as (l & E & L). cbn in L. destruct l; [exact E | discriminate].
  - destruct (H n0) as (l & E & L). cbn in L. destruct (String.string_dec n0 n0); [|contradiction]. destruct l as [|x l]; [discriminate|]. cbn in L, E.
    destruct (IH (mk_world (upd (shared w) n0 (l ++ base n0)) (owned w)) base) as (w' & S' & B' & O').
    + intros n. cbn. unfold upd. destruct (String.eqb_spec n n0) as [->|Hn].
      * exists l. split; auto.
      * destruct (H n) as (l' & E' & L'). exists l'. split; auto. rewrite L'. cbn. destruct (String.string_dec n0 n); [congruence|reflexivity].
    + exists w'. split; [|auto]. cbn. econstructor; [eapply step_reclaim; exact E | exact S'].
Qed.
Lemma release_all w ks : NoDup ks -> (forall k, In k ks -> owned w k <> None) -> (forall n k a, ~ In (Own k, a) (shared w n)) ->
  exists w', steps w (map Release ks) w' /\ shared w' = shared w /\ (forall k, owned w' k = if in_dec Nat.eq_dec k ks then None else owned w k).
Proof.
  revert w. induction ks as [|k0 ks IH]; intros w Hn Ho Hr.
  - exists w. split; [constructor|]. split; [reflexivity|]. reflexivity.
  - inversion Hn as [|? ? Hni Hn']; subst. set (w1 := mk_world (shared w) (fun j => if Nat.eqb j k0 then None else owned w j)).
    destruct (IH w1 Hn') as (w' & S' & B' & O').
    + intros k Hk. cbn. destruct (Nat.eqb_spec k k0) as [->|]; [contradiction|]. apply Ho. now right.
    + exact Hr.
    + exists w'. split; [cbn; econstructor; [apply step_release; [apply Ho; now left | intros n a; apply Hr] | exact S']|]. split; [exact B'|].
      intros k. rewrite O'. unfold w1. cbn [owned].
      destruct (in_dec Nat.eq_dec k ks) as [Hi|Hi], (in_dec Nat.eq_dec k (k0 :: ks)) as [Hj|Hj]; auto.
      * exfalso. apply Hj. now right.
      * destruct Hj as [->|Hj]; [now rewrite Nat.eqb_refl | contradiction].
      * destruct (Nat.eqb_spec k k0) as [->|]; auto. exfalso. apply Hj. now left.
Qed.
Lemma pick_length n refs : length (pick n refs) = count_occ String.string_dec (map rname refs) n.
Proof.
  unfold pick. rewrite rev_length, map_length. induction refs as [|r refs IH]; cbn; auto.
  destruct (String.eqb_spec n (rname r)) as [->|Hn]; destruct (String.string_dec _ _); try congruence; cbn; congruence.
Qed.
End Inv.

Lemma life_ok name l w0 : (forall k, owned w0 k = None) -> (forall n k a, ~ In (Own k, a) (shared w0 n)) ->
  Forall acceptable l -> Forall extents_fit l ->
  exists before after refs w1 w2, event_life name l = Ok (before ++ [PDI_event name] ++ after) /\
    (forall n, ~ In (PDI_event n) (before ++ after)) /\ (forall n, ~ In (PDI_reclaim n) before) /\ (forall k, ~ In (Release k) before) /\
    steps w0 before w1 /\
    Forall2 (matches w1) refs (concat (map expected l)) /\
    (forall n, shared w1 n = rev (map (fun r => (snd (fst r), snd r)) (filter (fun r => String.eqb n (fst (fst r))) refs)) ++ shared w0 n) /\
    steps w1 after w2 /\ same_world w2 w0.
Proof.
  intros Hf Hr Ha He. destruct (inv_withs w0 l (make_event name) w0 [] [] Ha He (inv_init w0 name Hf)) as (e & w1 & refs & E & [I1 I2 I3 I4 I5 I6] & N).
  destruct (reclaim_all (m_names e) w1 (shared w0)) as (w2 & S2 & B2 & O2).
  { intros n. exists (pick n refs). split; [apply I5|]. now rewrite pick_length, I3. }
  destruct (release_all w2 (seq 0 (length (m_metadata e)))) as (w3 & S3 & B3 & O3).
  { apply seq_NoDup. }
  { intros k Hk. apply in_seq in Hk. rewrite O2, I4. apply nth_error_Some. lia. }
  { intros n k a. rewrite B2. apply Hr. }
  exists (trace e), (map PDI_reclaim (m_names e) ++ map Release (seq 0 (length (m_metadata e)))), refs, w1, w3.
  assert (Hset : forall c, In c (trace e) -> is_setup c = true) by (apply forallb_forall; exact I2).
  split; [unfold event_life; rewrite E; cbn [rbind]; unfold destroy_event; now rewrite N|].
  split. { intros n Hin. rewrite !in_app_iff, !in_map_iff in Hin. destruct Hin as [Hin|[(x & Hx & _)|(x & Hx & _)]]; try discriminate. now apply Hset in Hin. }
  split. { intros n Hin. now apply Hset in Hin. } split. { intros n Hin. now apply Hset in Hin. }
  split; [exact I1|]. split; [exact I6|]. split; [exact I5|]. split; [eapply steps_app; eauto|]. split.
  - intros n. now rewrite B3.
  - intros k. rewrite O3, Hf. destruct (in_dec Nat.eq_dec k _) as [|Hk]; auto. rewrite O2, I4. apply nth_error_None.
    destruct (Nat.lt_ge_cases k (length (m_metadata e))); auto. exfalso. apply Hk, in_seq. lia.
Qed.
Lemma with_rejected e c : ~ acceptable c -> with_ e (fst (fst c)) (snd (fst c)) (snd c) = Rejected.
Proof.
  destruct c as [[name [[i o]|]] [x h w1 | v p w1 | n p]]; cbn; intros H; try (exfalso; apply H; exact I); auto.
  - unfold with_chunk. cbn. destruct i; [|exfalso; apply H; discriminate]. destruct w1; [exfalso; apply H; auto|reflexivity].
  - unfold with_arithmetic. cbn. destruct i; [|exfalso; apply H; discriminate]. destruct w1; [exfalso; apply H; auto|reflexivity].
Qed.
Lemma acceptable_dec c : {acceptable c} + {~ acceptable c}.
Proof.
  destruct c as [[name [[i o]|]] [x h w1 | v p w1 | n p]]; cbn; auto; destruct i, w1; auto; right; intros H; discriminate (H eq_refl).
Qed.
Lemma withs_rejected l : forall e, ~ Forall acceptable l -> withs e l = Rejected.
Proof.
  induction l as [|c l IH]; intros e H; [exfalso; apply H; constructor|]. pose proof (with_rejected e c) as W. destruct c as [[name a] d]. cbn [withs fst snd] in *.
  destruct (acceptable_dec (name, a, d)) as [Ha|Ha]; [|now rewrite W].
  assert (Hl : ~ Forall acceptable l) by (intros Hl; apply H; now constructor).
  destruct (with_ e name a d) eqn:E; cbn [rbind]; auto.
  exfalso. clear -E. destruct d as [x h w1|v p w1|n p], a as [[i o]|]; cbn in E; try discriminate; unfold with_chunk, with_arithmetic in E;
    repeat match type of E with (if ?b then _ else _) = _ => destruct b end; discriminate.
Qed.
Lemma life_rejected name l : ~ Forall acceptable l -> event_life name l = Rejected.
Proof. intros H. unfold event_life. now rewrite withs_rejected. Qed.
