From Coq Require Import Ascii String.
From Verif Require Import Machine PrintModel PrintSpec.
Open Scope list_scope.
Open Scope Z_scope.

(** * A program logic for the lock *)
Section L.
Context (good : options -> Prop) (ok_event : event -> Prop).
(** Threads that hold the lock [d] times know the options. *)
Inductive safe : nat -> options -> thread -> Prop :=
| safe_acq0 o k : (forall o', good o' -> safe 1 o' k) -> safe 0 o (Acquire k)
| safe_acq d o k : safe (S (S d)) o k -> safe (S d) o (Acquire k)
| safe_rel1 o k : good o -> (forall o', safe 0 o' k) -> safe 1 o (Release k)
| safe_rel d o k : safe (S d) o k -> safe (S (S d)) o (Release k)
| safe_done o : safe 0 o Done
| safe_gett0 o k : (forall z o', safe 0 o' (k z)) -> safe 0 o (GetT k)
| safe_gete0 o k : (forall z o', safe 0 o' (k z)) -> safe 0 o (GetE k)
| safe_gett d o k : safe (S d) o (k (threshold o)) -> safe (S d) o (GetT k)
| safe_gete d o k : safe (S d) o (k (edgeitems o)) -> safe (S d) o (GetE k)
| safe_putt d o z k : safe (S d) (mk_options z (edgeitems o)) k -> safe (S d) o (PutT z k)
| safe_pute d o z k : safe (S d) (mk_options (threshold o) z) k -> safe (S d) o (PutE z k)
| safe_emit d o e k : ok_event e -> (forall o', (d = 0%nat \/ o' = o) -> safe d o' k) -> safe d o (Emit e k).

Definition inv (s : printer) : Prop :=
  Forall (fun p => ok_event (snd p)) (p_log s) /\
  match p_lock s with
  | None => good (p_options s) /\ forall t o, In t (p_threads s) -> safe 0 o t
  | Some (i, d) => exists d', d = S d' /\ (exists t, nth_error (p_threads s) i = Some t /\ safe d (p_options s) t) /\
      forall j t o, j <> i -> nth_error (p_threads s) j = Some t -> safe 0 o t
  end.
Lemma nth_set_same {A} i (x : A) l y : nth_error l i = Some y -> nth_error (set_nth i x l) i = Some x.
Proof. revert l. induction i as [|i IH]; intros [|z l] H; cbn in *; try discriminate; auto. Qed.
Lemma nth_set_other {A} i j (x : A) l : j <> i -> nth_error (set_nth i x l) j = nth_error l j.
Proof. revert j l. induction i as [|i IH]; intros [|j] [|z l] H; cbn in *; auto; try congruence. Qed.
Lemma in_set {A} i (x y : A) l : In y (set_nth i x l) -> y = x \/ In y l.
Proof. revert l. induction i as [|i IH]; intros [|z l] H; cbn in *; auto; destruct H as [H|H]; auto. destruct (IH l H); auto. Qed.

Lemma inv_step i s s' : inv s -> p_step i s = Some s' -> inv s'.
Proof.
  intros [Hlog Hl] E. unfold p_step in E. destruct (nth_error (p_threads s) i) as [t|] eqn:Et; [|discriminate].
  destruct (p_lock s) as [[j d]|] eqn:El.
  - destruct Hl as (d' & -> & (t' & Et' & Hs) & Ho).
    destruct (Nat.eq_dec i j) as [->|Hne].
    + rewrite Et in Et'. injection Et' as <-.
      assert (Hoth : forall k j' u o, j' <> j -> nth_error (set_nth j k (p_threads s)) j' = Some u -> safe 0 o u).
      { intros k j' u o Hj Hu. rewrite nth_set_other in Hu by auto. eauto. }
      destruct t; try discriminate.
      * rewrite Nat.eqb_refl in E. injection E as <-. split; [exact Hlog|]. cbn. exists (S d'). split; auto. split.
        -- exists t. split; [eapply nth_set_same; eauto|]. now inversion Hs.
        -- intros; eapply (Hoth t); eauto.
      * destruct d' as [|d'].
        -- injection E as <-. split; [exact Hlog|]. cbn. inversion Hs; subst. split; auto. intros u o Hu.
           apply In_nth_error in Hu as [n Hn]. destruct (Nat.eq_dec n j) as [->|Hnj].
           ++ rewrite (nth_set_same _ _ _ _ Et) in Hn. injection Hn as <-. auto.
           ++ eapply (Hoth t); eauto.
        -- injection E as <-. split; [exact Hlog|]. cbn. exists d'. split; auto. split; [|intros; eapply (Hoth t); eauto].
           exists t. split; [eapply nth_set_same; eauto|]. now inversion Hs.
      * injection E as <-. split; [exact Hlog|]. cbn. exists d'. split; auto. split; [|intros; eapply (Hoth (k (threshold (p_options s)))); eauto].
        eexists. split; [eapply nth_set_same; eauto|]. now inversion Hs.
      * injection E as <-. split; [exact Hlog|]. cbn. exists d'. split; auto. split; [|intros; eapply (Hoth (k (edgeitems (p_options s)))); eauto].
        eexists. split; [eapply nth_set_same; eauto|]. now inversion Hs.
      * injection E as <-. split; [exact Hlog|]. cbn. exists d'. split; auto. split; [|intros; eapply (Hoth t); eauto].
        eexists. split; [eapply nth_set_same; eauto|]. now inversion Hs.
      * injection E as <-. split; [exact Hlog|]. cbn. exists d'. split; auto. split; [|intros; eapply (Hoth t); eauto].
        eexists. split; [eapply nth_set_same; eauto|]. now inversion Hs.
      * injection E as <-. inversion Hs; subst. split; [apply Forall_app; split; [exact Hlog|repeat constructor; auto]|]. cbn. exists d'. split; auto. split; [|intros; eapply (Hoth t); eauto].
        eexists. split; [eapply nth_set_same; eauto|]. auto.
    + assert (Hme := fun o => Ho i t o Hne Et).
      assert (Hd : forall k, (forall o, safe 0 o k) -> forall o' lo, lo = Some (j, S d') -> o' = p_options s ->
        inv (mk_printer o' lo (set_nth i k (p_threads s)) (p_log s))).
      { intros k Hk o' lo -> ->. split; [exact Hlog|]. cbn. exists d'. split; auto. split.
        - exists t'. split; [rewrite nth_set_other by congruence; exact Et'|exact Hs].
        - intros j' u o Hj Hu. destruct (Nat.eq_dec j' i) as [->|]; [rewrite (nth_set_same _ _ _ _ Et) in Hu; injection Hu as <-; auto|].
          rewrite nth_set_other in Hu by auto. eauto. }
      assert (Hm := Hme (p_options s)). destruct t; try discriminate; inversion Hm; subst.
      * destruct (Nat.eqb_spec j i); [congruence|discriminate].
      * injection E as <-. apply Hd; auto.
      * injection E as <-. apply Hd; auto.
      * injection E as <-. assert (K := Hd t ltac:(auto) _ _ eq_refl eq_refl). destruct K as [_ K]. split; [apply Forall_app; split; [exact Hlog|repeat constructor; auto]|exact K].
  - destruct Hl as [Hg Hs]. assert (Hm := Hs t (p_options s) (nth_error_In _ _ Et)).
    assert (Hk : forall k u o, (forall o, safe 0 o k) -> In u (set_nth i k (p_threads s)) -> safe 0 o u).
    { intros k u o Hsk Hu. apply in_set in Hu as [->|Hu]; auto. }
    destruct t; try discriminate; inversion Hm; subst; injection E as <-.
    + split; [exact Hlog|]. cbn. exists O. split; auto. split.
      * exists t. split; [eapply nth_set_same; eauto|]. auto.
      * intros j' u o Hj Hu. rewrite nth_set_other in Hu by auto. apply Hs. eapply nth_error_In; eauto.
    + split; [exact Hlog|]. cbn. split; auto. intros; eapply Hk; eauto.
    + split; [exact Hlog|]. cbn. split; auto. intros; eapply Hk; eauto.
    + split; [apply Forall_app; split; [exact Hlog|repeat constructor; auto]|]. cbn. split; auto. intros; eapply Hk; eauto.
Qed.
Lemma inv_run sched s : inv s -> inv (p_run sched s).
Proof.
  revert s. induction sched as [|i sched IH]; intros s H; auto. cbn [p_run]. apply IH. destruct (p_step i s) eqn:E; auto. eapply inv_step; eauto.
Qed.
Lemma inv_finished s : inv s -> finished s -> p_lock s = None /\ good (p_options s).
Proof.
  intros [_ H] F. destruct (p_lock s) as [[i d]|]; [|tauto]. destruct H as (d' & -> & (t & Et & Hs) & _).
  unfold finished in F. rewrite Forall_forall in F. rewrite (F t (nth_error_In _ _ Et)) in Hs. inversion Hs.
Qed.
Lemma inv_progress s : inv s -> finished s \/ exists i s', p_step i s = Some s'.
Proof.
  intros [_ H]. destruct (p_lock s) as [[i d]|] eqn:El.
  - destruct H as (d' & -> & (t & Et & Hs) & _). right. exists i. unfold p_step. rewrite Et, El.
    destruct t; try (eexists; reflexivity); [inversion Hs| |].
    + rewrite Nat.eqb_refl. eauto.
    + destruct d'; eauto.
  - assert (D : finished s \/ exists t, In t (p_threads s) /\ t <> Done).
    { clear H. unfold finished. induction (p_threads s) as [|t l IH]; [left; constructor|]. destruct IH as [IH|(u & Hu & Hn)].
      - destruct t; try (right; eexists; split; [left; reflexivity|discriminate]). left. now constructor.
      - right. exists u. split; [now right|auto]. }
    destruct D as [D|(t & Ht & Hn)]; [now left|]. right. apply In_nth_error in Ht as [i Hi]. exists i. unfold p_step. rewrite Hi, El.
    destruct t; try congruence; eauto.
Qed.
End L.

(** * Printing *)
Section P.
Context (init : options) (ts : list (list call)).
Definition good (o : options) : Prop := accepted o = true /\ legitimate init ts o.
Definition ok_event (e : event) : Prop :=
  match e with Returned _ => True | Shown true o => o = full_options | Shown false o => good o end.
Notation safe := (safe good ok_event).

Lemma safe_print k : (forall o, safe 0 o k) -> forall o, safe 0 o (t_print k).
Proof.
  intros Hk o. unfold t_print, t_print_type_info, t_print_content. constructor. intros [t e] Hg. constructor. constructor. constructor.
  do 2 constructor. constructor; [exact Hg|]. intros o' [?| ->]; [discriminate|]. constructor. constructor; auto.
Qed.
(** set_print_options while the lock is held. *)
Lemma safe_set_held d n k o : accepted n = true -> safe (S d) n (k o) -> safe (S d) o (t_set n k).
Proof.
  intros Ha Hk. destruct o as [t e], n as [nt ne]. unfold t_set. rewrite Ha. do 3 constructor. do 3 constructor. exact Hk.
Qed.
Lemma safe_set n k : legitimate init ts n \/ accepted n = false -> (forall o o', safe 0 o' (k o)) -> forall o, safe 0 o (t_set n k).
Proof.
  intros Hn Hk o. unfold t_set. constructor. intros t o1. constructor. intros e o2. constructor. intros o3 Hg.
  destruct (accepted n) eqn:Ha.
  - destruct Hn as [Hn|Hn]; [|discriminate]. constructor. constructor. constructor; [|auto]. destruct n. split; auto.
  - constructor; auto.
Qed.
Lemma safe_print_full k : (forall o, safe 0 o k) -> forall o, safe 0 o (t_print_full k).
Proof.
  intros Hk o. unfold t_print_full. constructor. intros o1 Hg. apply safe_set_held; [reflexivity|].
  unfold t_print_type_info, t_print_content. constructor. constructor. constructor. do 2 constructor. constructor; [reflexivity|].
  intros o' [?| ->]; [discriminate|]. constructor. apply safe_set_held; [apply Hg|]. constructor; auto.
Qed.
Lemma safe_calls cs : (forall n, In (CSet n) cs -> requested ts n) -> forall o, safe 0 o (run_calls cs).
Proof.
  induction cs as [|c cs IH]; intros H o; [constructor|].
  assert (IH' : forall o, safe 0 o (run_calls cs)) by (apply IH; intros; apply H; now right). destruct c; cbn [run_calls].
  - apply safe_set.
    + destruct (accepted o0) eqn:E; [left; right; split; auto; apply H; now left | now right].
    + intros. constructor; [exact I|auto].
  - unfold t_get. constructor. intros t o1. constructor. intros e o2. constructor; [exact I|auto].
  - now apply safe_print.
  - now apply safe_print_full.
Qed.
Lemma inv_start : accepted init = true -> inv good ok_event (start init ts).
Proof.
  intros Ha. split; [constructor|]. cbn. split; [split; auto; now left|]. intros t o Ht. apply in_map_iff in Ht as (cs & <- & Hc).
  apply safe_calls. intros n Hn. exists cs. auto.
Qed.
Lemma threads_ok sched : accepted init = true -> let s := p_run sched (start init ts) in
  (finished s -> p_lock s = None /\ legitimate init ts (p_options s)) /\
  (forall i full o, In (i, Shown full o) (p_log s) -> if full then o = full_options else accepted o = true /\ legitimate init ts o) /\
  (finished s \/ exists i s', p_step i s = Some s').
Proof.
  intros Ha s. assert (H := inv_run good ok_event sched _ (inv_start Ha)). fold s in H. split; [|split].
  - intros F. destruct (inv_finished _ _ _ H F) as [H1 [_ H2]]. auto.
  - intros i full o Hi. destruct H as [H _]. rewrite Forall_forall in H. specialize (H _ Hi). cbn in H. destruct full; exact H.
  - apply (inv_progress _ _ _ H).
Qed.
End P.

Lemma torn_read : exists sched o,
  let s := p_run sched (start default_options [[CSet (mk_options 4 1)]; [CGet]]) in
  finished s /\ In (1%nat, Returned o) (p_log s) /\ ~ valid o /\ ~ legitimate default_options [[CSet (mk_options 4 1)]; [CGet]] o.
Proof.
  exists (repeat 0%nat 4 ++ repeat 1%nat 2 ++ repeat 0%nat 30 ++ repeat 1%nat 20), (mk_options 4 3).
  split; [vm_compute; repeat constructor|]. split; [vm_compute; tauto|]. split.
  - unfold valid. cbn. lia.
  - intros [H|[(cs & [<-|[<-|[]]] & H) _]]; [discriminate | destruct H as [H|[]]; discriminate | destruct H as [H|[]]; discriminate].
Qed.
Lemma returns_temporary : exists sched,
  let s := p_run sched (start default_options [[CPrintFull]; [CSet (mk_options 20 4)]]) in
  finished s /\ In (1%nat, Returned full_options) (p_log s).
Proof.
  exists (repeat 0%nat 6 ++ repeat 1%nat 2 ++ repeat 0%nat 30 ++ repeat 1%nat 20). split; [vm_compute; repeat constructor|]. vm_compute. tauto.
Qed.
