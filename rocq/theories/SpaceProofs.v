From Verif Require Import SpaceModel SpaceSpec ListAux.

Section Proofs.
Context {A name : Type}.
Variable name_eqb : name -> name -> bool.
Variable name_of : nat -> name.
Hypothesis eqb_ok : forall a b, name_eqb a b = true <-> a = b.
Hypothesis distinct : forall a b, name_of a = name_of b -> a = b.
Notation run := (run name_eqb name_of).
Notation step := (step name_eqb name_of).
Implicit Types (h : list (event A)) (e : event A).

Lemma guarded_snoc h e g : guarded_from g (h ++ [e]) =
  match e with Begin => true | End => false | _ => guarded_from g h end.
Proof. revert g; induction h as [|x h IH]; intros g; destruct e; try reflexivity; destruct x; cbn; apply IH. Qed.
Lemma attributes_snoc h e d v : attributes_from v d (h ++ [e]) =
  match e with
  | End => None
  | Init d' (Some a) => if Nat.eqb d d' then match attributes_from v d h with Some b => Some b | None => Some a end
                        else attributes_from v d h
  | _ => attributes_from v d h
  end.
Proof.
  revert v; induction h as [|x h IH]; intros v.
  - destruct e as [| |d' [a|]| |]; cbn; reflexivity.
  - destruct x as [| |d' [a|]| |]; cbn [app attributes_from]; try apply IH.
    destruct (Nat.eqb d d'), v; apply IH.
Qed.
Lemma run_snoc s h e : run s (h ++ [e]) =
  rbind (run s h) (fun r => rbind (step (snd r) e) (fun r' => Ok (fst r ++ [fst r'], snd r'))).
Proof.
  revert s; induction h as [|x h IH]; intros s; cbn [app SpaceModel.run].
  - cbn [rbind snd fst]. destruct (step s e) as [[a t]| |]; reflexivity.
  - destruct (step s x) as [[a t]| |]; try reflexivity. cbn [rbind snd fst]. rewrite IH.
    destruct (run t h) as [[l u]| |]; try reflexivity. cbn [rbind snd fst].
    destruct (step u e) as [[b w]| |]; reflexivity.
Qed.

(** The store lists, once each, the initialised dimensions. *)
Definition inv h (s : state A name) : Prop :=
  (forall d, dual s d = attributes d h) /\
  (if guarded h then exists m : list (name * nat), store s = Some m /\ (forall p : name * nat, In p m -> fst p = name_of (snd p)) /\
                               (forall d, attributes d h <> None -> In (name_of d, d) m)
   else store s = None /\ forall d, attributes d h = None).

Lemma reset_all (m : list (name * nat)) (f : nat -> option A) d : (In d (map snd m) \/ f d = None) ->
  fold_left (fun g p => set_dual g (snd p) None) m f d = None.
Proof.
  revert f; induction m as [|p m IH]; intros f H; cbn [fold_left]; [destruct H as [[]|H]; exact H|].
  apply IH. unfold set_dual. destruct (Nat.eqb_spec d (snd p)) as [->|n]; [now right|].
  destruct H as [[E|H]|H]; [congruence|now left|now right].
Qed.
Lemma emplace_new (m : list (name * nat)) d : (forall p : name * nat, In p m -> fst p = name_of (snd p)) ->
  (forall p, In p (map_emplace name_eqb m (name_of d) d) -> fst p = name_of (snd p)) /\
  In (name_of d, d) (map_emplace name_eqb m (name_of d) d) /\ incl m (map_emplace name_eqb m (name_of d) d).
Proof.
  intros H. unfold map_emplace. destruct (existsb _ m) eqn:E.
  - apply existsb_exists in E. destruct E as [[n x] [I E]]. apply eqb_ok in E. cbn [fst] in E. subst n.
    pose proof (H _ I) as K. cbn [fst snd] in K. apply distinct in K. subst x. repeat split; auto. apply incl_refl.
  - repeat split.
    + intros p I. apply in_app_or in I. destruct I as [I|[<-|[]]]; auto.
    + apply in_or_app. right. now left.
    + apply incl_appl, incl_refl.
Qed.

Lemma step_ok h s e : inv h s -> allowed h e ->
  exists s', step s e = Ok (expected h e, s') /\ inv (h ++ [e]) s'.
Proof.
  intros [Hd Hs] Ha. unfold inv, guarded, attributes.
  destruct e as [| |d c|d|d]; cbn [SpaceModel.step allowed expected] in *.
  - unfold guard_ctor. eexists; split; [reflexivity|]. cbn [dual store]. rewrite guarded_snoc.
    rewrite Ha in Hs. destruct Hs as [_ Hn]. split.
    + intros d. rewrite attributes_snoc. apply Hd.
    + exists []. repeat split; [contradiction|]. intros d. rewrite attributes_snoc. intros K. exfalso. apply K, Hn.
  - unfold guard_dtor. rewrite Ha in Hs. destruct Hs as [m [-> [Hk Hm]]]. eexists; split; [reflexivity|].
    cbn [dual store]. rewrite guarded_snoc. split.
    + intros d. rewrite attributes_snoc. apply reset_all. rewrite Hd.
      destruct (attributes d h) eqn:E; [left|now right].
      assert (In (name_of d, d) m) as I by (apply Hm; congruence).
      apply in_map_iff. exists (name_of d, d). auto.
    + split; [reflexivity|]. intros d. now rewrite attributes_snoc.
  - unfold init_discrete_space. rewrite Hd. rewrite Ha in Hs. destruct Hs as [m [Es [Hk Hm]]].
    destruct (attributes d h) as [b|] eqn:E.
    + exists s. split; [destruct c; reflexivity|]. rewrite guarded_snoc. unfold guarded in Ha. rewrite Ha. split.
      * intros x. rewrite attributes_snoc, Hd. destruct c; [|reflexivity].
        destruct (Nat.eqb_spec x d) as [Ex|]; [|reflexivity]. rewrite Ex. unfold attributes in *. now rewrite E.
      * exists m. repeat split; auto. intros x. rewrite attributes_snoc. intros K. apply Hm.
        destruct c; [|exact K]. destruct (Nat.eqb_spec x d) as [Ex|]; [|exact K]. rewrite Ex, E. discriminate.
    + destruct c as [a|].
      * rewrite Es. eexists; split; [reflexivity|]. cbn [dual store]. rewrite guarded_snoc. unfold guarded in Ha. rewrite Ha.
        destruct (emplace_new m d Hk) as [K1 [K2 K3]]. split.
        -- intros x. rewrite attributes_snoc. unfold set_dual. destruct (Nat.eqb_spec x d) as [Ex|].
           ++ rewrite Ex. unfold attributes in *. now rewrite E.
           ++ apply Hd.
        -- eexists; split; [reflexivity|]. split; [exact K1|]. intros x. rewrite attributes_snoc.
           destruct (Nat.eqb_spec x d) as [Ex|]; [intros _; rewrite Ex; exact K2|]. intros K. apply K3, Hm, K.
      * exists s. split; [reflexivity|]. rewrite guarded_snoc. unfold guarded in Ha. rewrite Ha. split.
        -- intros x. rewrite attributes_snoc. apply Hd.
        -- exists m. repeat split; auto. intros x. rewrite attributes_snoc. apply Hm.
  - eexists; split; [unfold is_discrete_space_initialized; rewrite Hd; reflexivity|].
    rewrite guarded_snoc. split; [intros x; rewrite attributes_snoc; apply Hd|].
    fold (guarded h). destruct (guarded h).
    + destruct Hs as [m [Es [Hk Hm]]]. exists m. repeat split; auto. intros x. rewrite attributes_snoc. apply Hm.
    + destruct Hs as [Es Hn]. split; [exact Es|]. intros x. rewrite attributes_snoc. apply Hn.
  - unfold discrete_space. rewrite Hd. destruct (attributes d h) as [a|] eqn:E; [|contradiction].
    eexists; split; [reflexivity|]. rewrite guarded_snoc. split; [intros x; rewrite attributes_snoc; apply Hd|].
    fold (guarded h). destruct (guarded h).
    + destruct Hs as [m [Es [Hk Hm]]]. exists m. repeat split; auto. intros x. rewrite attributes_snoc. apply Hm.
    + destruct Hs as [Es Hn]. split; [exact Es|]. intros x. rewrite attributes_snoc. apply Hn.
Qed.

Lemma disciplined_snoc h e : disciplined (h ++ [e]) -> disciplined h /\ allowed h e.
Proof.
  intros H. split.
  - intros p x q E. apply (H p x (q ++ [e])). rewrite E, <- app_assoc. reflexivity.
  - apply (H h e []). reflexivity.
Qed.
Lemma run_ok h : disciplined h -> exists l s, run start h = Ok (l, s) /\ inv h s /\ length l = length h /\
  forall p e q, h = p ++ e :: q -> nth_error l (length p) = Some (expected p e).
Proof.
  induction h as [|e h IH] using rev_ind; intros D.
  - exists [], start. split; [reflexivity|]. split; [|split; [reflexivity|]].
    + split; [reflexivity|]. cbn. split; [reflexivity|]. reflexivity.
    + intros p e q E. destruct p; discriminate.
  - apply disciplined_snoc in D. destruct D as [D Al]. destruct (IH D) as [l [s [Hr [Hi [Hl He]]]]].
    destruct (step_ok _ _ _ Hi Al) as [s' [Hs Hi']].
    exists (l ++ [expected h e]), s'. rewrite run_snoc, Hr. cbn [rbind snd fst]. rewrite Hs. cbn [rbind snd fst].
    split; [reflexivity|]. split; [exact Hi'|]. rewrite !app_length, Hl. split; [reflexivity|].
    intros p x q E. destruct q as [|y q _] using rev_ind.
    + apply app_inj_tail in E. destruct E as [<- <-]. rewrite nth_error_app2, Hl, Nat.sub_diag by lia. reflexivity.
    + assert (h = p ++ x :: q) as E'.
      { change (p ++ x :: q ++ [y]) with (p ++ (x :: q) ++ [y]) in E. rewrite app_assoc in E.
        apply app_inj_tail in E. tauto. }
      rewrite nth_error_app1; [now apply He with (q := q)|]. rewrite Hl, E', app_length. cbn. lia.
Qed.

Lemma end_clears h d : attributes d (h ++ [End]) = None.
Proof. unfold attributes. now rewrite attributes_snoc. Qed.
End Proofs.

Lemma extract_after_ok {B} (dflt x : B) rest : extract_after dflt rest (x :: rest) = rest.
Proof.
  unfold extract_after.
  assert (forall l k pre, k = length pre -> map (fun i => nth (i + 1) (x :: pre ++ l) dflt) (seq k (length l)) = l) as H.
  { induction l as [|b l IH]; intros k pre E; [reflexivity|]. cbn [length seq map]. f_equal.
    - rewrite Nat.add_1_r. cbn [nth]. rewrite app_nth2, E, Nat.sub_diag by lia. reflexivity.
    - specialize (IH (S k) (pre ++ [b])). rewrite <- app_assoc in IH. apply IH. rewrite app_length. cbn. lia. }
  apply (H rest 0%nat []). reflexivity.
Qed.

Section Statements.
Context {A name : Type}.
Variable name_eqb : name -> name -> bool.
Variable name_of : nat -> name.
Hypothesis eqb_ok : forall a b, name_eqb a b = true <-> a = b.
Hypothesis distinct : forall a b, name_of a = name_of b -> a = b.

Lemma history_exact (h : list (event A)) : disciplined h ->
  exists l s, run name_eqb name_of start h = Ok (l, s) /\ length l = length h /\
    (forall p e q, h = p ++ e :: q -> nth_error l (length p) = Some (expected p e)) /\
    (forall d, is_discrete_space_initialized s d = true <-> attributes d h <> None) /\
    (forall d a, discrete_space s d = Ok (Attributes a, s) <-> attributes d h = Some a).
Proof.
  intros H. destruct (run_ok name_eqb name_of eqb_ok distinct h H) as (l & s & Hr & [Hi _] & Hl & He).
  exists l, s. split; [exact Hr|]. split; [exact Hl|]. split; [exact He|]. split.
  - intros d. unfold is_discrete_space_initialized. rewrite Hi. destruct (attributes d h); split; congruence.
  - intros d a. unfold discrete_space. rewrite Hi. destruct (attributes d h); split; congruence.
Qed.

Lemma attributes_app (v : option A) d h1 h2 : attributes_from v d (h1 ++ h2) = attributes_from (attributes_from v d h1) d h2.
Proof.
  revert v; induction h1 as [|x h1 IH]; intros v; [reflexivity|]. destruct x as [| |d' [a|]| |]; cbn [app attributes_from]; try apply IH.
  destruct (Nat.eqb d d'), v; apply IH.
Qed.
Lemma attributes_keep (b : A) d h : ~ In End h -> attributes_from (Some b) d h = Some b.
Proof.
  induction h as [|x h IH]; intros H; [reflexivity|]. cbn in H.
  destruct x as [| |d' [a|]| |]; cbn [attributes_from]; try (apply IH; tauto); [tauto|].
  destruct (Nat.eqb d d'); apply IH; tauto.
Qed.
Lemma attributes_none d (h : list (event A)) : (forall a, ~ In (Init d (Some a)) h) -> attributes_from None d h = None.
Proof.
  induction h as [|x h IH]; intros H; [reflexivity|].
  assert (H' : forall a, ~ In (Init d (Some a)) h) by (intros a K; apply (H a); now right).
  destruct x as [| |d' [a|]| |]; cbn [attributes_from]; try (apply IH; exact H').
  destruct (Nat.eqb_spec d d') as [E|]; [|now apply IH]. exfalso. apply (H a). left. now rewrite E.
Qed.
(** The attributes are those of the first initialisation of the scope. *)
Lemma first_wins d (a : A) p q : (forall b, ~ In (Init d (Some b)) p) -> ~ In End q -> forall o,
  attributes d (o ++ End :: p ++ Init d (Some a) :: q) = Some a.
Proof.
  intros Hp Hq o. unfold attributes. rewrite attributes_app. cbn [attributes_from].
  rewrite attributes_app. rewrite attributes_none by exact Hp. cbn [attributes_from].
  rewrite Nat.eqb_refl. now apply attributes_keep.
Qed.
End Statements.

(** Two types may share typeid(..).name() (same name in the unnamed namespaces of two translation
    units): the second resetter is dropped and the space survives its guard. *)
Lemma same_name_survives : exists l s,
  run Nat.eqb (fun _ => O) start [Begin; Init 1%nat (Some 10); Init 2%nat (Some 20); End; Begin; Init 2%nat (Some 30)] = Ok (l, s) /\
  nth_error l 5 = Some Threw /\ discrete_space s 2%nat = Ok (Attributes 20, s).
Proof. do 2 eexists. split; [reflexivity|]. split; reflexivity. Qed.
(** Nested guards: the inner one forgets the resetters of the outer one, and the outer destructor
    dereferences an empty optional. *)
Lemma nested_undefined : run (A := Z) Nat.eqb (fun d => d) start [Begin; Begin; End; End] = Undef.
Proof. reflexivity. Qed.
Lemma nested_survives : exists l s,
  run Nat.eqb (fun d => d) start [Begin; Init 1%nat (Some 10); Begin; End] = Ok (l, s) /\
  is_discrete_space_initialized s 1%nat = true.
Proof. do 2 eexists. split; reflexivity. Qed.
Lemma unguarded_undefined d (a : Z) : run Nat.eqb (fun d => d) start [Init d (Some a)] = Undef.
Proof. reflexivity. Qed.
