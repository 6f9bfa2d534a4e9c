From Verif Require Import Machine MachineProofs ListAux ChunkMemModel ChunkMemSpec.

Record inv (w : world) : Prop := {
  inv_live : forall p n, In (p, n) (live w) <-> exists x c, vars w x = Some c /\ c_ptr c = Some p /\ c_size c = n;
  inv_uniq : forall x y p, owns w x p -> owns w y p -> x = y;
  inv_nodup : NoDup (map fst (live w));
  inv_freed : NoDup (freed w);
  inv_alloc : forall p, allocated w p <-> is_live w p \/ In p (freed w);
  inv_disj : forall p, is_live w p -> ~ In p (freed w) }.

Lemma set_var_same vs x c : set_var vs x c x = c.
Proof. unfold set_var. now rewrite Nat.eqb_refl. Qed.
Lemma set_var_other vs x c y : y <> x -> set_var vs x c y = vs y.
Proof. unfold set_var. intros H. now rewrite (proj2 (Nat.eqb_neq _ _) H). Qed.
Lemma inv_init : inv init_world.
Proof.
  constructor; simpl.
  - intros p n. split; [tauto|]. intros (x & c & H & _). discriminate.
  - intros x y p (c & H & _). discriminate.
  - constructor. - constructor.
  - intros p. unfold allocated, is_live. simpl. split; [lia|]. intros [[n []]|[]].
  - intros p [n []].
Qed.
(** Replacing variables by others that own the same buffers. *)
Lemma live_nodup_fun (l : list (nat * Z)) p n m : NoDup (map fst l) -> In (p, n) l -> In (p, m) l -> n = m.
Proof.
  induction l as [|[q k] l IH]; intros Hn H1 H2; [destruct H1|]. inversion Hn; subst.
  destruct H1 as [H1|H1]; destruct H2 as [H2|H2].
  - congruence.
  - injection H1 as -> ->. exfalso. apply H3. simpl. change p with (fst (p, m)). now apply in_map.
  - injection H2 as -> ->. exfalso. apply H3. simpl. change p with (fst (p, n)). now apply in_map.
  - auto.
Qed.
(** After releasing what [x] owns and forgetting [x]. *)
Lemma release_ok w x c : inv w -> vars w x = Some c ->
  exists w', release w c = Ok w' /\ vars w' = vars w /\ next w' = next w /\
    (forall p n, In (p, n) (live w') <-> In (p, n) (live w) /\ c_ptr c <> Some p) /\
    (freed w' = match c_ptr c with Some p => p :: freed w | None => freed w end) /\
    NoDup (map fst (live w')) /\
    (forall p, c_ptr c = Some p -> is_live w p).
Proof.
  intros Hi Hx. unfold release. destruct (c_ptr c) as [p|] eqn:Ep.
  - assert (Hl : In (p, c_size c) (live w)) by (apply (inv_live w Hi); eauto).
    unfold deallocate. destruct (find (fun b => Nat.eqb (fst b) p) (live w)) as [[q m]|] eqn:Ef.
    + apply find_some in Ef as [E1 E2]. simpl in E2. apply Nat.eqb_eq in E2. subst q.
      rewrite (live_nodup_fun _ p m (c_size c) (inv_nodup w Hi) E1 Hl). rewrite Z.eqb_refl. eexists. split; [reflexivity|]. simpl.
      split; auto. split; auto. split; [|split; auto; split].
      * intros q n. rewrite filter_In. simpl. rewrite negb_true_iff, Nat.eqb_neq. split; intros [A B]; split; auto; congruence.
      * assert (G := inv_nodup w Hi). clear -G. induction (live w) as [|[q n] l IH]; simpl; [constructor|]. inversion G; subst.
        destruct (negb (Nat.eqb q p)); simpl; auto. constructor; auto. intros Hc. apply H1. apply in_map_iff in Hc as (r & E & Hr).
        apply filter_In in Hr as [Hr _]. apply in_map_iff. eauto.
      * intros q E. injection E as <-. exists (c_size c). auto.
    + exfalso. assert (G := find_none _ _ Ef _ Hl). simpl in G. rewrite Nat.eqb_refl in G. discriminate.
  - exists w. split; auto. split; auto. split; auto. split; [|split; auto; split].
    + intros p n. split; [intros; split; auto; discriminate | tauto].
    + apply (inv_nodup w Hi).
    + discriminate.
Qed.
Lemma inv_default w x : inv w -> vars w x = None -> inv (mk_world (live w) (next w) (freed w) (set_var (vars w) x (Some default_chunk))).
Proof.
  intros Hi Hx. constructor; simpl; try apply Hi.
  - intros p n. rewrite (inv_live w Hi). split; intros (y & c & H1 & H2 & H3); exists y, c; split; auto.
    + rewrite set_var_other; auto. intros ->. congruence.
    + unfold set_var in H1. destruct (Nat.eqb_spec y x); auto. injection H1 as <-. discriminate.
  - intros y z p (c & H1 & H2) (c' & H3 & H4). simpl in *. unfold set_var in *.
    destruct (Nat.eqb_spec y x); [injection H1 as <-; discriminate|]. destruct (Nat.eqb_spec z x); [injection H3 as <-; discriminate|].
    apply (inv_uniq w Hi y z p); [exists c | exists c']; auto.
Qed.
Lemma inv_alloc_step w x n null : inv w -> vars w x = None -> inv (construct_chunk w x n null).
Proof.
  intros Hi Hx. unfold construct_chunk. destruct ((n =? 0) && null).
  - constructor; simpl; try apply Hi.
    + intros p m. rewrite (inv_live w Hi). split; intros (y & c & H1 & H2 & H3); exists y, c; split; auto.
      * rewrite set_var_other; auto. intros ->. congruence.
      * unfold set_var in H1. destruct (Nat.eqb_spec y x); auto. injection H1 as <-. discriminate.
    + intros y z p (c & H1 & H2) (c' & H3 & H4). simpl in *. unfold set_var in *.
      destruct (Nat.eqb_spec y x); [injection H1 as <-; discriminate|]. destruct (Nat.eqb_spec z x); [injection H3 as <-; discriminate|].
      apply (inv_uniq w Hi y z p); [exists c | exists c']; auto.
  - assert (Hfresh : forall m, ~ In (next w, m) (live w)).
    { intros m H. assert (G : allocated w (next w)) by (apply (inv_alloc w Hi); left; exists m; auto). unfold allocated in G. lia. }
    assert (Hfresh' : ~ In (next w) (freed w)).
    { intros H. assert (G : allocated w (next w)) by (apply (inv_alloc w Hi); auto). unfold allocated in G. lia. }
    constructor; simpl.
    + intros p m. split.
      * intros [H|H].
        -- injection H as <- <-. exists x, (mk_chunk (Some (next w)) n). rewrite set_var_same. auto.
        -- apply (inv_live w Hi) in H as (y & c & H1 & H2 & H3). exists y, c. rewrite set_var_other; auto. intros ->. congruence.
      * intros (y & c & H1 & H2 & H3). unfold set_var in H1. destruct (Nat.eqb_spec y x).
        -- injection H1 as <-. simpl in *. injection H2 as <-. left. congruence.
        -- right. apply (inv_live w Hi). eauto.
    + assert (Hown : forall y p, owns (mk_world ((next w, n) :: live w) (S (next w)) (freed w) (set_var (vars w) x (Some (mk_chunk (Some (next w)) n)))) y p ->
         (y = x /\ p = next w) \/ (y <> x /\ owns w y p /\ p <> next w)).
      { intros y p (c & H1 & H2). simpl in H1. unfold set_var in H1. destruct (Nat.eqb_spec y x).
        - left. injection H1 as <-. simpl in H2. injection H2 as <-. auto.
        - right. split; auto. split; [exists c; auto|]. intros ->. apply (Hfresh (c_size c)). apply (inv_live w Hi). eauto. }
      intros y z p H1 H2. apply Hown in H1. apply Hown in H2.
      destruct H1 as [[-> ->]|(N1 & O1 & F1)]; destruct H2 as [[-> E]|(N2 & O2 & F2)]; try congruence. apply (inv_uniq w Hi y z p); auto.
    + constructor; [|apply Hi]. intros H. apply in_map_iff in H as ([q m] & E & H). simpl in E. subst q. now apply (Hfresh m).
    + apply Hi.
    + intros p. unfold allocated. simpl. destruct (Nat.eq_dec p (next w)) as [->|Hp].
      * split; [intros _; left; exists n; now left | lia].
      * assert (G := inv_alloc w Hi p). unfold allocated in G. split.
        -- intros H. destruct (proj1 G ltac:(lia)) as [[m Hm]|Hf]; [left; exists m; now right | auto].
        -- intros [[m [Hm|Hm]]|Hf]; [congruence | |].
           ++ assert (p < next w)%nat; [|lia]. apply G. left. exists m. auto.
           ++ assert (p < next w)%nat; [|lia]. apply G. auto.
    + intros p [m [Hm|Hm]]; [injection Hm as <- <-; auto|]. apply (inv_disj w Hi). exists m. auto.
Qed.
Lemma inv_move_ctor w x y cy : inv w -> vars w x = None -> vars w y = Some cy -> inv (move_ctor w x y cy).
Proof.
  intros Hi Hx Hy. assert (Nxy : x <> y) by congruence. unfold move_ctor.
  assert (Hv : forall z c p, set_var (set_var (vars w) x (Some cy)) y (Some (mk_chunk None (c_size cy))) z = Some c -> c_ptr c = Some p ->
     (z = x /\ c = cy) \/ (z <> x /\ z <> y /\ vars w z = Some c)).
  { intros z c p H1 H2. unfold set_var in H1. destruct (Nat.eqb_spec z y); [injection H1 as <-; discriminate|].
    destruct (Nat.eqb_spec z x); [left; split; congruence | right; auto]. }
  constructor; simpl; try apply Hi.
  - intros p n. rewrite (inv_live w Hi). split.
    + intros (z & c & H1 & H2 & H3). destruct (Nat.eq_dec z y) as [->|Hz].
      * exists x, c. split; auto. rewrite set_var_other by auto. rewrite set_var_same. congruence.
      * exists z, c. split; auto. rewrite set_var_other by auto. rewrite set_var_other; auto. congruence.
    + intros (z & c & H1 & H2 & H3). destruct (Hv z c p H1 H2) as [[-> ->]|(_ & _ & H)]; eauto.
  - intros a b p (c & H1 & H2) (c' & H3 & H4). simpl in *.
    destruct (Hv a c p H1 H2) as [[-> ->]|(N1 & N2 & H)]; destruct (Hv b c' p H3 H4) as [[-> ->]|(N1' & N2' & H')]; auto.
    + exfalso. apply N2'. apply (inv_uniq w Hi b y p); [exists c'; auto | exists cy; auto].
    + exfalso. apply N2. apply (inv_uniq w Hi a y p); [exists c; auto | exists cy; auto].
    + apply (inv_uniq w Hi a b p); [exists c; auto | exists c'; auto].
Qed.
(** Common part of destruction and assignment: [x] loses its buffer. *)
Lemma freed_ok w x c w' : inv w -> vars w x = Some c -> release w c = Ok w' ->
  NoDup (freed w') /\ (forall p, allocated w' p <-> is_live w' p \/ In p (freed w')) /\ (forall p, is_live w' p -> ~ In p (freed w')).
Proof.
  intros Hi Hx E. destruct (release_ok w x c Hi Hx) as (w1 & E1 & V & Nx & L & F & ND & Own). rewrite E in E1. injection E1 as <-.
  rewrite F. destruct (c_ptr c) as [p|].
  - split; [constructor; [|apply Hi]; apply (inv_disj w Hi), Own; auto|]. split.
    + intros q. unfold allocated. rewrite Nx. rewrite (inv_alloc w Hi q : (q < next w)%nat <-> _). split.
      * intros [[n Hn]|Hf]; [|right; now right]. destruct (Nat.eq_dec p q) as [->|]; [right; now left|]. left. exists n. apply L. split; auto. congruence.
      * intros [[n Hn]|[<-|Hf]]; auto. left. exists n. now apply L.
    + intros q [n Hn] [<-|Hf]; apply L in Hn as [Hn Hne]; [congruence|]. apply (inv_disj w Hi q); auto. exists n. auto.
  - split; [apply Hi|]. split.
    + intros q. unfold allocated. rewrite Nx. rewrite (inv_alloc w Hi q : (q < next w)%nat <-> _).
      split; (intros [[n Hn]|Hf]; [left; exists n; apply L; auto; split; auto; discriminate | auto]).
    + intros q [n Hn]. apply L in Hn as [Hn _]. apply (inv_disj w Hi). exists n. auto.
Qed.
Lemma inv_destroy w x c : inv w -> vars w x = Some c -> exists w', destroy w x c = Ok w' /\ inv w' /\ vars w' = set_var (vars w) x None /\
  freed w' = match c_ptr c with Some p => p :: freed w | None => freed w end.
Proof.
  intros Hi Hx. destruct (release_ok w x c Hi Hx) as (w1 & E1 & V & Nx & L & F & ND & Own).
  destruct (freed_ok w x c w1 Hi Hx E1) as (F1 & F2 & F3).
  unfold destroy. rewrite E1. cbn [rbind]. eexists. split; [reflexivity|]. simpl. rewrite V. split; [|split; auto].
  constructor; simpl; auto.
  - intros p n. rewrite L, (inv_live w Hi). split.
    + intros [(y & d & H1 & H2 & H3) Hne]. exists y, d. split; auto. rewrite set_var_other; auto. intros ->. congruence.
    + intros (y & d & H1 & H2 & H3). unfold set_var in H1. destruct (Nat.eqb_spec y x); [discriminate|]. split; [eauto|].
      intros Hc. apply n0. apply (inv_uniq w Hi y x p); [exists d | exists c]; auto.
  - intros a b p (d & H1 & H2) (d' & H3 & H4). simpl in *. unfold set_var in *.
    destruct (Nat.eqb_spec a x); [discriminate|]. destruct (Nat.eqb_spec b x); [discriminate|].
    apply (inv_uniq w Hi a b p); [exists d | exists d']; auto.
Qed.
Lemma inv_move_assign w x y cx cy : inv w -> vars w x = Some cx -> vars w y = Some cy ->
  exists w', move_assign w x y cx = Ok w' /\ inv w' /\
    (forall z, z <> x -> z <> y -> vars w' z = vars w z) /\
    (exists c, vars w' y = Some c /\ c_ptr c = None) /\
    (x <> y -> vars w' x = Some cy) /\
    freed w' = match c_ptr cx with Some p => p :: freed w | None => freed w end.
Proof.
  intros Hi Hx Hy. destruct (release_ok w x cx Hi Hx) as (w1 & E1 & V & Nx & L & F & ND & Own).
  destruct (freed_ok w x cx w1 Hi Hx E1) as (F1 & F2 & F3).
  unfold move_assign. rewrite E1. cbn [rbind]. rewrite V, Hy.
  assert (Hyy : exists c', set_var (vars w) x (Some cy) y = Some c') by (unfold set_var; destruct (Nat.eqb y x); eauto).
  destruct Hyy as [c' Hc']. rewrite Hc'. eexists. split; [reflexivity|].
  assert (Hv : forall z c p, set_var (set_var (vars w) x (Some cy)) y (Some (mk_chunk None (c_size c'))) z = Some c -> c_ptr c = Some p ->
     (z = x /\ x <> y /\ c = cy) \/ (z <> x /\ z <> y /\ vars w z = Some c)).
  { intros z c p H1 H2. unfold set_var in H1. destruct (Nat.eqb_spec z y); [injection H1 as <-; discriminate|].
    destruct (Nat.eqb_spec z x); [left; subst; split; auto; split; congruence | right; auto]. }
  split; [|split; [|split; [|split]]]; simpl; auto.
  - constructor; simpl; auto.
    + intros p n. rewrite L, (inv_live w Hi). split.
      * intros [(z & c & H1 & H2 & H3) Hne]. assert (z <> x) by congruence. destruct (Nat.eq_dec z y) as [->|Hz].
        -- exists x, c. split; auto. rewrite set_var_other by auto. rewrite set_var_same. congruence.
        -- exists z, c. split; auto. rewrite !set_var_other by auto. auto.
      * intros (z & c & H1 & H2 & H3). destruct (Hv z c p H1 H2) as [(-> & Hn & ->)|(N1 & N2 & H)].
        -- split; [eauto|]. intros Hc. apply Hn. apply (inv_uniq w Hi x y p); [exists cx | exists cy]; auto.
        -- split; [eauto|]. intros Hc. apply N1. apply (inv_uniq w Hi z x p); [exists c | exists cx]; auto.
    + intros a b p (c & H1 & H2) (d & H3 & H4). simpl in *.
      destruct (Hv a c p H1 H2) as [(-> & Hn & ->)|(N1 & N2 & H)]; destruct (Hv b d p H3 H4) as [(-> & Hn' & ->)|(N1' & N2' & H')]; auto.
      * exfalso. apply N2'. apply (inv_uniq w Hi b y p); [exists d; auto | exists cy; auto].
      * exfalso. apply N2. apply (inv_uniq w Hi a y p); [exists c; auto | exists cy; auto].
      * apply (inv_uniq w Hi a b p); [exists c; auto | exists d; auto].
  - intros z Hzx Hzy. now rewrite !set_var_other.
  - rewrite set_var_same. eexists. split; reflexivity.
  - intros Hn. rewrite set_var_other by auto. apply set_var_same.
Qed.
Lemma step_inv w o al : inv w -> (forall x, al x = true <-> alive w x) -> forall r, legal al (o :: r) = true ->
  exists w', step w o = Ok w' /\ inv w' /\ exists al', (forall x, al' x = true <-> alive w' x) /\ legal al' r = true.
Proof.
  intros Hi Ha r Hl.
  assert (Hno : forall x, negb (al x) = true -> vars w x = None).
  { intros x H. apply negb_true_iff in H. destruct (vars w x) eqn:E; auto. assert (al x = true) by (apply Ha; unfold alive; congruence). congruence. }
  assert (Hyes : forall x, al x = true -> exists c, vars w x = Some c).
  { intros x H. apply Ha in H. unfold alive in H. destruct (vars w x); [eauto | congruence]. }
  destruct o as [x|x n null|x y|x y|x]; cbn [legal step] in *.
  - apply andb_true_iff in Hl as [H1 H2]. rewrite (Hno x H1). eexists. split; [reflexivity|]. split; [apply inv_default; auto|].
    eexists. split; [|exact H2]. intros z. unfold alive, set_var. simpl. destruct (Nat.eqb z x); [split; congruence | apply Ha].
  - apply andb_true_iff in Hl as [H1 H2]. apply andb_true_iff in H1 as [H1 H3]. rewrite (Hno x H1). change two64 with (2 ^ 64). rewrite H3.
    eexists. split; [reflexivity|]. split; [apply inv_alloc_step; auto|]. eexists. split; [|exact H2].
    intros z. unfold alive, construct_chunk. destruct ((n =? 0) && null); simpl; unfold set_var; destruct (Nat.eqb z x); try (split; congruence); apply Ha.
  - apply andb_true_iff in Hl as [H1 H2]. apply andb_true_iff in H1 as [H1 H3]. rewrite (Hno x H1). destruct (Hyes y H3) as [cy Hy]. rewrite Hy.
    eexists. split; [reflexivity|]. split; [apply inv_move_ctor; auto|]. eexists. split; [|exact H2].
    intros z. unfold alive, move_ctor, set_var. simpl. destruct (Nat.eqb_spec z y); [subst; destruct (Nat.eqb y x); split; congruence|].
    destruct (Nat.eqb z x); [split; congruence | apply Ha].
  - apply andb_true_iff in Hl as [H1 H2]. apply andb_true_iff in H1 as [H1 H3]. destruct (Hyes x H1) as [cx Hx]. destruct (Hyes y H3) as [cy Hy]. rewrite Hx, Hy.
    destruct (inv_move_assign w x y cx cy Hi Hx Hy) as (w' & E & I & V & (c & Vy & _) & Vx & _). exists w'. split; auto. split; auto. exists al. split; auto.
    intros z. unfold alive. destruct (Nat.eq_dec z y) as [->|Ny]; [rewrite Vy; split; congruence|].
    destruct (Nat.eq_dec z x) as [->|Nx]; [rewrite Vx by auto; split; congruence|]. rewrite V by auto. apply Ha.
  - apply andb_true_iff in Hl as [H1 H2]. destruct (Hyes x H1) as [c Hx]. rewrite Hx.
    destruct (inv_destroy w x c Hi Hx) as (w' & E & I & V & _). exists w'. split; auto. split; auto. eexists. split; [|exact H2].
    intros z. unfold alive. rewrite V. unfold set_var. destruct (Nat.eqb z x); [split; congruence | apply Ha].
Qed.
Lemma run_inv os : forall w al, inv w -> (forall x, al x = true <-> alive w x) -> legal al os = true ->
  exists w', run_ops w os = Ok w' /\ inv w'.
Proof.
  induction os as [|o r IH]; intros w al Hi Ha Hl; [exists w; split; auto; reflexivity|].
  destruct (step_inv w o al Hi Ha r Hl) as (w1 & E & I1 & al' & Ha' & Hl'). cbn [run_ops]. rewrite E. cbn [rbind]. eapply IH; eauto.
Qed.
Lemma history_ok os : legal (fun _ => false) os = true ->
  exists w, run_ops init_world os = Ok w /\
    (forall x y p, owns w x p -> owns w y p -> x = y) /\
    (forall p, is_live w p <-> exists x, owns w x p) /\
    (forall p, allocated w p <-> is_live w p \/ In p (freed w)) /\
    (forall p, is_live w p -> ~ In p (freed w)) /\
    NoDup (freed w) /\
    ((forall x, ~ alive w x) -> live w = [] /\ forall p, allocated w p -> In p (freed w)).
Proof.
  intros Hl. destruct (run_inv os init_world (fun _ => false)) as (w & E & Hi); auto using inv_init.
  { intros x. unfold alive. simpl. split; congruence. }
  exists w. split; auto. split; [apply Hi|].
  assert (HL : forall p, is_live w p <-> exists x, owns w x p).
  { intros p. split.
    - intros [n Hn]. apply (inv_live w Hi) in Hn as (x & c & H1 & H2 & _). exists x, c. auto.
    - intros (x & c & H1 & H2). exists (c_size c). apply (inv_live w Hi). eauto. }
  split; auto. split; [apply Hi|]. split; [apply Hi|]. split; [apply Hi|].
  intros Hd. assert (Hn : live w = []).
  { destruct (live w) as [|[p n] l] eqn:El; auto. exfalso. assert (G : is_live w p) by (exists n; rewrite El; now left).
    apply HL in G as (x & c & H1 & _). apply (Hd x). unfold alive. congruence. }
  split; auto. intros p Hp. apply (inv_alloc w Hi) in Hp as [[n Hp]|]; auto. rewrite Hn in Hp. destruct Hp.
Qed.
Lemma move_semantics os w : legal (fun _ => false) os = true -> run_ops init_world os = Ok w ->
  (forall x y w', step w (MoveCtor x y) = Ok w' ->
     (forall p, owns w' x p <-> owns w y p) /\ (forall p, ~ owns w' y p) /\ live w' = live w) /\
  (forall x y w', x <> y -> step w (MoveAssign x y) = Ok w' ->
     (forall p, owns w' x p <-> owns w y p) /\ (forall p, ~ owns w' y p) /\
     (forall p, is_live w' p <-> is_live w p /\ ~ owns w x p)).
Proof.
  intros Hl Er. destruct (run_inv os init_world (fun _ => false)) as (w0 & E & Hi); auto using inv_init.
  { intros x. unfold alive. simpl. split; congruence. }
  rewrite Er in E. injection E as <-. split.
  - intros x y w' Es. cbn [step] in Es. destruct (vars w x) eqn:Hx; [discriminate|]. destruct (vars w y) as [cy|] eqn:Hy; [|discriminate].
    injection Es as <-. assert (x <> y) by congruence. unfold move_ctor, owns. simpl. split; [|split; auto].
    + intros p. split; intros (c & H1 & H2).
      * rewrite set_var_other, set_var_same in H1 by auto. exists c. split; congruence.
      * exists c. split; auto. rewrite set_var_other, set_var_same by auto. congruence.
    + intros p (c & H1 & H2). rewrite set_var_same in H1. injection H1 as <-. discriminate.
  - intros x y w' Hn Es. cbn [step] in Es. destruct (vars w x) as [cx|] eqn:Hx; [|discriminate]. destruct (vars w y) as [cy|] eqn:Hy; [|discriminate].
    destruct (inv_move_assign w x y cx cy Hi Hx Hy) as (w1 & E1 & I & V & (c & Vy & Pc) & Vx & F). rewrite Es in E1. injection E1 as <-.
    split; [|split].
    + intros p. unfold owns. rewrite (Vx Hn), Hy. tauto.
    + intros p (d & H1 & H2). congruence.
    + intros p. destruct (release_ok w x cx Hi Hx) as (w2 & E2 & _ & _ & L & _).
      unfold move_assign in Es. rewrite E2 in Es. cbn [rbind] in Es.
      destruct (vars w2 y) as [c2|]; [|discriminate]. destruct (set_var (vars w2) x (Some c2) y); [|discriminate]. injection Es as <-.
      unfold is_live. simpl. split.
      * intros [n Hp]. apply L in Hp as [Hp Hne]. split; [eauto|]. intros (d & H1 & H2). congruence.
      * intros [[n Hp] Hno]. exists n. apply L. split; auto. intros Hc. apply Hno. exists cx. auto.
Qed.
