From Verif Require Import Machine MachineProofs TypeSeqModel TaggedModel TaggedSpec TaggedProofs
  DomainModel DomainSpec DomainProofs ListAux DomainProofs2 SpanModel SpanSpec SpanProofs StorageProofs KokkosModel KokkosSpec KokkosProofs
  ReduceModel ReduceSpec ReduceProofs ParModel ParSpec.

(** * Interleavings *)
Section Interleave.
Context {V : Type}.
Lemma nth_set_prog (ps : list (prog V)) : forall k p j, nth_error (set_prog ps k p) j =
  if Nat.eqb j k then match nth_error ps k with Some _ => Some p | None => None end else nth_error ps j.
Proof.
  induction ps as [|x ps IH]; intros k p j; destruct k, j; cbn; auto.
  - destruct (Nat.eqb j k); reflexivity.
Qed.
Lemma within_ext (R W R' W' : Z -> Prop) (p : prog V) : (forall a, R a -> R' a) -> (forall a, W a -> W' a) -> within R W p -> within R' W' p.
Proof. intros HR HW. induction 1; constructor; auto. destruct H; auto. Qed.
Lemma alone_ext R W (p : prog V) : within R W p -> forall m m' : memory V, (forall a, R a \/ W a -> m a = m' a) ->
  forall a, R a \/ W a -> run_alone p m a = run_alone p m' a.
Proof.
  induction 1 as [|a k Ha Hk IH|a v p Ha Hp IH]; intros m m' Hm b Hb; cbn [run_alone]; auto.
  - rewrite <- (Hm a Ha). now apply IH.
  - apply IH; auto. intros c Hc. unfold mem_write. destruct (c =? a); auto.
Qed.
Lemma alone_frame R W (p : prog V) : within R W p -> forall m a, ~ W a -> run_alone p m a = m a.
Proof.
  induction 1 as [|a k Ha Hk IH|a v p Ha Hp IH]; intros m b Hb; cbn [run_alone]; auto.
  rewrite IH by auto. unfold mem_write. destruct (Z.eqb_spec b a) as [->|]; tauto.
Qed.
Lemma step_within R W (p : prog V) m : within R W p -> within R W (fst (step1 p m)).
Proof. destruct 1; cbn; auto. constructor. Qed.
Lemma step_alone (p : prog V) m : run_alone (fst (step1 p m)) (snd (step1 p m)) = run_alone p m.
Proof. destruct p; reflexivity. Qed.
Lemma step_frame R W (p : prog V) m a : within R W p -> ~ W a -> snd (step1 p m) a = m a.
Proof. destruct 1; cbn; auto. intros. unfold mem_write. destruct (Z.eqb_spec a a0) as [->|]; tauto. Qed.

Variables (R W : nat -> Z -> Prop) (ps0 : list (prog V)) (m0 : memory V).
Hypothesis Hrf : forall j k a, (j < length ps0)%nat -> (k < length ps0)%nat -> j <> k -> W j a -> ~ R k a /\ ~ W k a.
Hypothesis Hw0 : forall k p, nth_error ps0 k = Some p -> within (R k) (W k) p.
Definition inv (ps : list (prog V)) (m : memory V) : Prop :=
  length ps = length ps0 /\
  (forall k p p0, nth_error ps k = Some p -> nth_error ps0 k = Some p0 ->
     within (R k) (W k) p /\ forall a, W k a -> run_alone p m a = run_alone p0 m0 a) /\
  (forall a, (forall k, (k < length ps0)%nat -> ~ W k a) -> m a = m0 a).
Lemma inv_start : inv ps0 m0.
Proof. split; [reflexivity|]. split; auto. intros k p p0 H1 H2. rewrite H1 in H2. injection H2 as <-. split; auto. Qed.
Lemma set_prog_length (ps : list (prog V)) k p : length (set_prog ps k p) = length ps.
Proof. revert k. induction ps; destruct k; cbn; auto. Qed.
Lemma inv_step ps m k p : inv ps m -> nth_error ps k = Some p -> inv (set_prog ps k (fst (step1 p m))) (snd (step1 p m)).
Proof.
  intros (Hl & Hk & Hf) Hp. assert (Hkl : (k < length ps0)%nat) by (rewrite <- Hl; apply nth_error_Some; congruence).
  destruct (nth_error ps0 k) as [pk|] eqn:Epk; [|apply nth_error_None in Epk; lia].
  destruct (Hk k p pk Hp Epk) as [Hwp Hvp].
  split; [now rewrite set_prog_length|]. split.
  - intros j q q0 Hq Hq0. rewrite nth_set_prog in Hq. destruct (Nat.eqb_spec j k) as [->|Hne].
    + rewrite Hp in Hq. injection Hq as <-. rewrite Epk in Hq0. injection Hq0 as <-. split; [now apply step_within|].
      intros a Ha. rewrite step_alone. now apply Hvp.
    + destruct (Hk j q q0 Hq Hq0) as [Hwq Hvq]. split; auto. intros a Ha. rewrite <- Hvq by auto.
      assert (Hjl : (j < length ps0)%nat) by (apply nth_error_Some; congruence).
      apply (alone_ext (R j) (W j)); auto. intros b Hb. apply (step_frame (R k) (W k)); auto.
      intros Hc. destruct (Hrf k j b Hkl Hjl (not_eq_sym Hne) Hc). tauto.
  - intros a Ha. rewrite (step_frame (R k) (W k)); auto.
Qed.
Lemma inv_run sched : forall ps m, inv ps m -> inv (fst (interleave_calls sched ps m)) (snd (interleave_calls sched ps m)).
Proof.
  induction sched as [|k s IH]; intros ps m Hi; cbn [interleave_calls]; auto.
  destruct (nth_error ps k) as [p|] eqn:E; auto.
  pose proof (inv_step ps m k p Hi E) as Hs. destruct (step1 p m) as [p' m'] eqn:Es. apply IH. exact Hs.
Qed.
Lemma kernel_result sched m' : kernel ps0 sched m0 = Ok m' ->
  (forall k p a, nth_error ps0 k = Some p -> W k a -> m' a = run_alone p m0 a) /\
  (forall a, (forall k, (k < length ps0)%nat -> ~ W k a) -> m' a = m0 a).
Proof.
  unfold kernel. pose proof (inv_run sched ps0 m0 inv_start) as (Hl & Hk & Hf).
  destruct (interleave_calls sched ps0 m0) as [ps' m1]. cbn [fst snd] in *.
  destruct (forallb is_ret ps') eqn:Er; [|discriminate]. intros E. injection E as <-. split; auto.
  intros k p a Hp Ha. destruct (nth_error ps' k) as [q|] eqn:Eq.
  - rewrite <- (proj2 (Hk k q p Eq Hp) a Ha). rewrite forallb_forall in Er. specialize (Er q (nth_error_In _ _ Eq)). destruct q; try discriminate. reflexivity.
  - apply nth_error_None in Eq. assert ((k < length ps0)%nat) by (apply nth_error_Some; congruence). lia.
Qed.
Lemma sequential_result :
  (forall k p a, nth_error ps0 k = Some p -> W k a -> fold_left (fun m p => run_alone p m) ps0 m0 a = run_alone p m0 a) /\
  (forall a, (forall k, (k < length ps0)%nat -> ~ W k a) -> fold_left (fun m p => run_alone p m) ps0 m0 a = m0 a).
Proof.
  assert (G : forall l pre m, ps0 = pre ++ l ->
    (forall k p0, (length pre <= k)%nat -> nth_error ps0 k = Some p0 -> forall a, R k a \/ W k a -> m a = m0 a) ->
    (forall k p0 a, nth_error ps0 k = Some p0 -> W k a ->
       fold_left (fun m p => run_alone p m) l m a = if (k <? length pre)%nat then m a else run_alone p0 m0 a) /\
    (forall a, (forall k, (k < length ps0)%nat -> ~ W k a) -> fold_left (fun m p => run_alone p m) l m a = m a)).
  { induction l as [|p l IH]; intros pre m E Hm.
    - rewrite app_nil_r in E. subst. split; [|intros; reflexivity]. intros k p0 a Hp _. cbn [fold_left].
      assert (Hkk : (k < length pre)%nat) by (apply nth_error_Some; congruence). destruct (Nat.ltb_spec k (length pre)); [reflexivity|lia].
    - assert (Hp : nth_error ps0 (length pre) = Some p) by (rewrite E, nth_error_app2, Nat.sub_diag by lia; reflexivity).
      assert (Hpl : (length pre < length ps0)%nat) by (apply nth_error_Some; congruence).
      pose proof (Hw0 _ _ Hp) as Hwp.
      destruct (IH (pre ++ [p]) (run_alone p m)) as [G1 G2].
      + now rewrite <- app_assoc.
      + intros k p0 Hk Hp0 a Ha. rewrite app_length in Hk. cbn in Hk. assert (Hkl : (k < length ps0)%nat) by (apply nth_error_Some; congruence).
        rewrite (alone_frame _ _ _ Hwp) by (intros Hc; destruct (Hrf (length pre) k a); auto; try lia; tauto).
        apply (Hm k p0); auto; lia.
      + cbn [fold_left]. split.
        * intros k p0 a Hp0 Ha. rewrite (G1 k p0 a Hp0 Ha). rewrite app_length. cbn [length].
          assert (Hkl : (k < length ps0)%nat) by (apply nth_error_Some; congruence).
          destruct (Nat.ltb_spec k (length pre)), (Nat.ltb_spec k (length pre + 1)); try lia; auto.
          -- apply (alone_frame _ _ _ Hwp). intros Hc. destruct (Hrf (length pre) k a); auto; lia.
          -- assert (k = length pre) by lia. subst k. rewrite Hp in Hp0. injection Hp0 as <-.
             apply (alone_ext _ _ _ Hwp); auto. intros b Hb. now apply (Hm (length pre) p).
        * intros a Ha. rewrite G2 by auto. apply (alone_frame _ _ _ Hwp). auto. }
  destruct (G ps0 [] m0 eq_refl) as [G1 G2]; auto.
Qed.
Lemma kernel_sequential sched m' : kernel ps0 sched m0 = Ok m' ->
  (forall a, (forall k, (k < length ps0)%nat -> ~ W k a) \/ exists k, (k < length ps0)%nat /\ W k a) ->
  forall a, m' a = fold_left (fun m p => run_alone p m) ps0 m0 a.
Proof.
  intros E Hdec a. destruct (kernel_result sched m' E) as [K1 K2]. destruct sequential_result as [S1 S2].
  destruct (Hdec a) as [Ha|(k & Hk & Ha)].
  - now rewrite K2, S2.
  - destruct (nth_error ps0 k) as [p|] eqn:Ep; [|apply nth_error_None in Ep; lia]. now rewrite (K1 k p a Ep Ha), (S1 k p a Ep Ha).
Qed.
End Interleave.

(** Some interleaving runs to the end, whatever the calls do. *)
Lemma kernel_ends {V} (ps : list (prog V)) m : exists sched m', kernel ps sched m = Ok m'.
Proof.
  assert (A : forall s1 s2 ps (m : memory V), interleave_calls (s1 ++ s2) ps m =
     interleave_calls s2 (fst (interleave_calls s1 ps m)) (snd (interleave_calls s1 ps m))).
  { induction s1 as [|k s1 IH]; intros s2 ps1 m1; cbn [app interleave_calls]; auto.
    destruct (nth_error ps1 k) as [p|]; auto. destruct (step1 p m1). apply IH. }
  assert (One : forall (p : prog V) pre post m, exists s, exists m', interleave_calls s (pre ++ p :: post) m = (pre ++ PRet :: post, m')).
  { induction p as [|a k IH|a v p IH]; intros pre post m1.
    - exists [], m1. reflexivity.
    - destruct (IH (m1 a) pre post m1) as (s & m' & E). exists (length pre :: s), m'. cbn [interleave_calls].
      rewrite nth_error_app2, Nat.sub_diag by lia. cbn [nth_error step1].
      replace (set_prog (pre ++ PRead a k :: post) (length pre) (k (m1 a))) with (pre ++ k (m1 a) :: post); auto.
      clear. induction pre; cbn; congruence.
    - destruct (IH pre post (mem_write m1 a v)) as (s & m' & E). exists (length pre :: s), m'. cbn [interleave_calls].
      rewrite nth_error_app2, Nat.sub_diag by lia. cbn [nth_error step1].
      replace (set_prog (pre ++ PWrite a v p :: post) (length pre) p) with (pre ++ p :: post); auto.
      clear. induction pre; cbn; congruence. }
  assert (All : forall post pre (m : memory V), forallb is_ret pre = true -> exists s m' ps', interleave_calls s (pre ++ post) m = (ps', m') /\ forallb is_ret ps' = true).
  { induction post as [|p post IH]; intros pre m1 Hp.
    - exists [], m1, pre. rewrite app_nil_r. auto.
    - destruct (One p pre post m1) as (s1 & m2 & E1).
      destruct (IH (pre ++ [PRet]) m2) as (s2 & m3 & ps' & E2 & H2); [rewrite forallb_app, Hp; reflexivity|].
      rewrite <- app_assoc in E2. exists (s1 ++ s2), m3, ps'. rewrite A, E1. cbn [fst snd]. auto. }
  destruct (All ps [] m eq_refl) as (s & m' & ps' & E & H). exists s, m'. unfold kernel. cbn [app] in E. now rewrite E, H.
Qed.

(** * Calls given by a list of items *)
Section Items.
Context {V A : Type}.
Variables (l : list A) (P : A -> prog V) (R W : A -> Z -> Prop) (m0 : memory V).
Hypothesis Hnd : NoDup l.
Hypothesis Hin : forall x, In x l -> within (R x) (W x) (P x).
Hypothesis Hrf : forall x y a, In x l -> In y l -> x <> y -> W x a -> ~ R y a /\ ~ W y a.
Lemma nth_map_some {B C} (f : B -> C) (k : list B) n y : nth_error (map f k) n = Some y -> exists x, nth_error k n = Some x /\ y = f x.
Proof. revert n. induction k; destruct n; cbn; try discriminate; eauto. intros E. injection E as <-. eauto. Qed.
Lemma items_lift (Q : A -> Z -> Prop) : exists Q' : nat -> Z -> Prop, (forall k x, nth_error l k = Some x -> forall a, Q' k a <-> Q x a).
Proof.
  exists (fun k a => match nth_error l k with Some x => Q x a | None => False end). intros k x E a. now rewrite E.
Qed.
Lemma items sched m' : kernel (map P l) sched m0 = Ok m' ->
  (forall x a, In x l -> W x a -> m' a = run_alone (P x) m0 a) /\
  (forall a, (forall x, In x l -> ~ W x a) -> m' a = m0 a).
Proof.
  intros E. set (R' := fun k a => match nth_error l k with Some x => R x a | None => False end).
  set (W' := fun k a => match nth_error l k with Some x => W x a | None => False end).
  destruct (kernel_result R' W' (map P l) m0) with (sched := sched) (m' := m') as [K1 K2]; auto.
  - intros j k a Hj Hk Hne Ha. rewrite map_length in *. unfold R', W' in *.
    destruct (nth_error l j) as [x|] eqn:Ej; [|tauto]. destruct (nth_error l k) as [y|] eqn:Ek; [|tauto].
    apply (Hrf x y); eauto using nth_error_In. intros ->. apply Hne. eapply NoDup_nth_error; eauto. congruence.
  - intros k p Hp. apply nth_map_some in Hp as (x & Ex & ->).
    assert (H := Hin x (nth_error_In _ _ Ex)).
    apply (within_ext (R x) (W x)); auto; intros a Ha; unfold R', W'; now rewrite Ex.
  - split.
    + intros x a Hx Ha. destruct (In_nth_error _ _ Hx) as [k Ek]. apply (K1 k (P x)).
      * rewrite nth_error_map, Ek. reflexivity.
      * unfold W'. now rewrite Ek.
    + intros a Ha. apply K2. intros k Hk. unfold W'. destruct (nth_error l k) eqn:Ek; auto. apply Ha. eauto using nth_error_In.
Qed.
Lemma items_sequential sched m' : kernel (map P l) sched m0 = Ok m' ->
  (forall a, (forall x, In x l -> ~ W x a) \/ exists x, In x l /\ W x a) ->
  forall a, m' a = fold_left (fun m x => run_alone (P x) m) l m0 a.
Proof.
  intros E Hdec. set (R' := fun k a => match nth_error l k with Some x => R x a | None => False end).
  set (W' := fun k a => match nth_error l k with Some x => W x a | None => False end).
  intros a. rewrite (kernel_sequential R' W' (map P l) m0) with (sched := sched); auto.
  - clear. generalize m0. induction l; intros; cbn; auto.
  - intros j k b Hj Hk Hne Ha. rewrite map_length in *. unfold R', W' in *.
    destruct (nth_error l j) as [x|] eqn:Ej; [|tauto]. destruct (nth_error l k) as [y|] eqn:Ek; [|tauto].
    apply (Hrf x y); eauto using nth_error_In. intros ->. apply Hne. eapply NoDup_nth_error; eauto. congruence.
  - intros k p Hp. apply nth_map_some in Hp as (x & Ex & ->).
    assert (H := Hin x (nth_error_In _ _ Ex)).
    apply (within_ext (R x) (W x)); auto; intros c Hc; unfold R', W'; now rewrite Ex.
  - intros b. destruct (Hdec b) as [Hb|(x & Hx & Hb)].
    + left. intros k Hk. unfold W'. destruct (nth_error l k) eqn:Ek; auto. apply Hb. eauto using nth_error_In.
    + right. destruct (In_nth_error _ _ Hx) as [k Ek]. exists k. rewrite map_length. split.
      * apply nth_error_Some. congruence.
      * unfold W'. now rewrite Ek.
Qed.
End Items.

(** Copies: each item reads one address and writes one. *)
Lemma copies {V A} (l : list A) (src dst : A -> Z) (fn : V -> V) (m0 : memory V) sched m' : NoDup l ->
  (forall x y, In x l -> In y l -> dst x = dst y -> x = y) ->
  (forall x y, In x l -> In y l -> dst x = src y -> x = y) ->
  kernel (map (fun x => PRead (src x) (fun v => PWrite (dst x) (fn v) PRet)) l) sched m0 = Ok m' ->
  (forall x, In x l -> m' (dst x) = fn (m0 (src x))) /\
  (forall a, (forall x, In x l -> a <> dst x) -> m' a = m0 a).
Proof.
  intros Hnd Hd Hs E.
  destruct (items l (fun x => PRead (src x) (fun v => PWrite (dst x) (fn v) PRet)) (fun x a => a = src x) (fun x a => a = dst x) m0)
    with (sched := sched) (m' := m') as [K1 K2]; auto.
  - intros x Hx. constructor; auto. intros v. constructor; auto. constructor.
  - intros x y a Hx Hy Hne ->. split; intros Ha; apply Hne; [now apply Hs|now apply Hd].
  - split; auto. intros x Hx. rewrite (K1 x) by auto. cbn [run_alone]. unfold mem_write. now rewrite Z.eqb_refl.
Qed.
Lemma fills {V A} (l : list A) (dst : A -> Z) (v : V) (m0 : memory V) sched m' : NoDup l ->
  (forall x y, In x l -> In y l -> dst x = dst y -> x = y) ->
  kernel (map (fun x => PWrite (dst x) v PRet) l) sched m0 = Ok m' ->
  (forall x, In x l -> m' (dst x) = v) /\
  (forall a, (forall x, In x l -> a <> dst x) -> m' a = m0 a).
Proof.
  intros Hnd Hd E.
  destruct (items l (fun x => PWrite (dst x) v PRet) (fun x a => False) (fun x a => a = dst x) m0)
    with (sched := sched) (m' := m') as [K1 K2]; auto.
  - intros x Hx. constructor; auto. constructor.
  - intros x y a Hx Hy Hne ->. split; [tauto|]. intros Ha; apply Hne; now apply Hd.
  - split; auto. intros x Hx. rewrite (K1 x) by auto. cbn [run_alone]. unfold mem_write. now rewrite Z.eqb_refl.
Qed.
