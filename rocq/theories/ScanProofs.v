From Coq Require Import Permutation.
From Verif Require Import Machine MachineProofs TypeSeqModel TaggedModel TaggedSpec TaggedProofs
  DomainModel DomainSpec DomainProofs ListAux DomainProofs2 SpanModel SpanSpec SpanProofs StorageProofs ReduceModel ReduceSpec ReduceProofs ReduceProofs2.

Lemma zrange_len n : length (zrange n) = Z.to_nat n.
Proof. unfold zrange. now rewrite map_length, seq_length. Qed.
Lemma app_inv_len {A} (a b c d : list A) : length a = length c -> a ++ b = c ++ d -> a = c /\ b = d.
Proof.
  revert c. induction a as [|x a IH]; intros [|y c] Hl H; try discriminate; cbn in *; [auto|].
  injection H as -> H. destruct (IH c) as [-> ->]; auto.
Qed.
Lemma split_range a b n : 0 <= n -> a ++ b = zrange n ->
  a = zrange (Z.of_nat (length a)) /\ b = map (Z.add (Z.of_nat (length a))) (zrange (Z.of_nat (length b))) /\ Z.of_nat (length a) + Z.of_nat (length b) = n.
Proof.
  intros Hn H. assert (L : Z.of_nat (length a) + Z.of_nat (length b) = n).
  { apply (f_equal (@length Z)) in H. rewrite app_length, zrange_len in H. lia. }
  rewrite <- L in H. rewrite zrange_app in H by lia. apply app_inv_len in H as [-> ->]; [|rewrite zrange_len; lia].
  rewrite !map_length, !zrange_len, !Nat2Z.id. auto.
Qed.
Lemma zrange_succ n : 0 <= n -> zrange (n + 1) = zrange n ++ [n].
Proof. intros. rewrite zrange_app by lia. change (zrange 1) with [0]. cbn. now rewrite Z.add_0_r. Qed.
Lemma zrange_cons n : 0 < n -> zrange n = 0 :: map (Z.add 1) (zrange (n - 1)).
Proof. intros. replace n with (1 + (n - 1)) at 1 by lia. rewrite zrange_app by lia. reflexivity. Qed.
Lemma in_shift lo k i : In i (map (Z.add lo) (zrange k)) <-> lo <= i < lo + k.
Proof. rewrite in_map_iff. setoid_rewrite in_zrange. split; [intros (x & <- & ?); lia|]. intros. exists (i - lo). lia. Qed.
Lemma NoDup_zrange n : NoDup (zrange n).
Proof. unfold zrange. apply FinFun.Injective_map_NoDup; [intros a b; lia|apply seq_NoDup]. Qed.

Section Machine.
Variables (ty : scan_type) (r : reducer) (n : Z) (A : Z -> Z) (F : memory Z -> Z -> Z) (G : Z -> Z).
Variable m0 : memory Z.
Variable call : Z -> Z -> bool -> memory Z -> res (Z * memory Z).
Hypothesis Hn : 0 <= n.
Hypothesis Hr : r <> RBxor.
Hypothesis A_inj : forall i j, 0 <= i < n -> 0 <= j < n -> A i = A j -> i = j.
Hypothesis HG : forall i, rng (G i).
Hypothesis call_nonfinal : forall id p m, 0 <= id < n -> call id p false m = Ok (ddc_op r p (F m id), m).
Hypothesis call_final : forall id p m, 0 <= id < n -> call id p true m =
  match ty with
  | Inclusive => let p' := ddc_op r p (F m id) in Ok (p', mem_write m (A id) p')
  | Exclusive => let m1 := mem_write m (A id) p in Ok (ddc_op r p (F m1 id), m1)
  end.
Hypothesis HF : forall id m, 0 <= id < n ->
  (forall a, (ty = Exclusive -> a <> A id) -> (forall j, 0 <= j < n -> j <> id -> a <> A j) -> m a = m0 a) -> F m id = G id.
Definition pre (k : Z) : Z := reduction r (map G (zrange k)).
Definition val (i : Z) : Z := match ty with Inclusive => pre (i + 1) | Exclusive => pre i end.
Lemma pre_step i : 0 <= i -> pre (i + 1) = ddc_op r (pre i) (G i).
Proof.
  intros. unfold pre. rewrite zrange_succ, map_app by lia. cbn. apply reduction_snoc; auto.
  apply Forall_forall. intros x Hx. apply in_map_iff in Hx as (y & <- & _). apply HG.
Qed.
Lemma G_rng l : Forall rng (map G l).
Proof. apply Forall_forall. intros x Hx. apply in_map_iff in Hx as (y & <- & _). apply HG. Qed.

Lemma total_ok init t : kokkos_init r = Some init -> (forall i, In i (scan_leaves t) -> 0 <= i < n) ->
  scan_total call (kokkos_join r) init m0 t = Ok (reduction r (map G (scan_leaves t))).
Proof.
  intros Hi. induction t as [l|a IHa b IHb]; intros Hl.
  - cbn [scan_total scan_leaves] in *.
    assert (H : forall l done, (forall i, In i l -> 0 <= i < n) ->
      fold_left (fun acc id => rbind acc (fun a => rbind (call id a false m0) (fun p => Ok (fst p)))) l (Ok (reduction r (map G done))) = Ok (reduction r (map G (done ++ l)))).
    { clear l Hl. induction l as [|i l IH]; intros done Hl; cbn [fold_left rbind]; [now rewrite app_nil_r|].
      rewrite call_nonfinal by (apply Hl; now left). cbn [rbind fst].
      rewrite (HF i m0) by (auto; apply Hl; now left).
      rewrite <- reduction_snoc by (auto using G_rng). change [G i] with (map G [i]). rewrite <- map_app.
      rewrite IH by (intros; apply Hl; now right). now rewrite <- app_assoc. }
    rewrite (reduction_init r init Hi). apply (H l []). auto.
  - cbn [scan_total scan_leaves] in *. rewrite IHa by (intros; apply Hl, in_or_app; auto). cbn [rbind].
    rewrite IHb by (intros; apply Hl, in_or_app; auto). cbn [rbind]. rewrite map_app, reduction_join by auto using G_rng. reflexivity.
Qed.

(** A chunk state: the next index [lo], the number of calls left, and the partial value. *)
Definition chunk_ok (c : list Z * Z) : Prop :=
  exists lo k, 0 <= lo /\ 0 <= k /\ lo + k <= n /\ fst c = map (Z.add lo) (zrange k) /\ snd c = pre lo.
Definition todo (st : list (list Z * Z)) : list Z := concat (map fst st).
Record Inv (st : list (list Z * Z)) (m : memory Z) : Prop := {
  i_chunks : Forall chunk_ok st;
  i_nodup : NoDup (todo st);
  i_done : forall i, 0 <= i < n -> ~ In i (todo st) -> m (A i) = val i;
  i_todo : forall i, 0 <= i < n -> In i (todo st) -> m (A i) = m0 (A i);
  i_frame : forall a, (forall i, 0 <= i < n -> a <> A i) -> m a = m0 a }.

Lemma set_chunk_split {B} (st : list B) k x : nth_error st k = Some x ->
  exists st1 st2, st = st1 ++ x :: st2 /\ length st1 = k /\ forall y, set_chunk st k y = st1 ++ y :: st2.
Proof.
  revert k. induction st as [|z st IH]; intros [|k] H; try discriminate.
  - injection H as ->. exists [], st. auto.
  - destruct (IH k H) as (s1 & s2 & -> & <- & E). exists (z :: s1), s2. repeat split; auto. intros y. cbn. now rewrite E.
Qed.

Lemma steps_ok steps : forall st m, Inv st m ->
  (forall k, count_occ Nat.eq_dec steps k = length (nth k (map fst st) [])) ->
  exists st' m', scan_steps call st m steps = Ok (st', m') /\
    (forall i, 0 <= i < n -> m' (A i) = val i) /\ (forall a, (forall i, 0 <= i < n -> a <> A i) -> m' a = m0 a).
Proof.
  induction steps as [|k steps IH]; intros st m HI Hc.
  - exists st, m. split; [reflexivity|]. split; [|apply HI].
    intros i Hi. apply HI; auto. intros Hin. apply in_concat in Hin as (l & Hl & Hin).
    apply In_nth with (d := []) in Hl as (k & Hk & <-). specialize (Hc k). cbn in Hc. destruct (nth k (map fst st) []); [auto|discriminate].
  - pose proof (Hc k) as Hk. cbn in Hk. destruct (Nat.eq_dec k k) as [_|]; [|congruence].
    destruct (nth_error st k) as [[rem p]|] eqn:Ek.
    2:{ rewrite (nth_overflow (map fst st)) in Hk; [discriminate|]. rewrite map_length. now apply nth_error_None. }
    assert (Enth : nth k (map fst st) [] = rem). { apply nth_error_nth. rewrite nth_error_map, Ek. reflexivity. }
    rewrite Enth in Hk. destruct rem as [|id ids]; [discriminate|].
    destruct (set_chunk_split st k _ Ek) as (s1 & s2 & Est & Hl1 & Eset).
    assert (Hco : chunk_ok (id :: ids, p)). { destruct HI as [Hf _ _ _ _]. rewrite Forall_forall in Hf. apply Hf. eapply nth_error_In; eauto. }
    destruct Hco as (lo & c & Hlo & Hc0 & Hlc & Er & Ep). cbn [fst snd] in Er, Ep.
    assert (Hc1 : 0 < c). { destruct (Z.eq_dec c 0) as [->|]; [discriminate|lia]. }
    rewrite zrange_cons in Er by auto. cbn [map] in Er. rewrite Z.add_0_r in Er. injection Er as -> Er. subst p.
    assert (Hid : 0 <= lo < n) by lia.
    assert (Htodo : forall p', Permutation (todo st) (lo :: todo (set_chunk st k (ids, p')))).
    { intros p'. rewrite Eset, Est. unfold todo. rewrite !map_app, !concat_app. cbn [map fst concat app]. apply Permutation_sym. apply Permutation_middle. }
    assert (Hids : ids = map (Z.add (lo + 1)) (zrange (c - 1))). { rewrite Er, map_map. apply map_ext. intros. lia. }
    assert (Hin_lo : In lo (todo st)) by (eapply Permutation_in; [apply Permutation_sym, (Htodo 0)|now left]).
    (* the call *)
    assert (HFm : forall v, F (match ty with Inclusive => m | Exclusive => mem_write m (A lo) v end) lo = G lo).
    { intros v. apply HF; auto. intros a Ha Hj. destruct ty.
      - destruct (Z.eq_dec a (A lo)) as [->|Hne]; [now apply (i_todo st m HI)|].
        apply (i_frame st m HI). intros i Hi. destruct (Z.eq_dec i lo) as [->|]; auto.
      - unfold mem_write. destruct (Z.eqb_spec a (A lo)) as [->|Hne]; [now specialize (Ha eq_refl)|].
        apply (i_frame st m HI). intros i Hi. destruct (Z.eq_dec i lo) as [->|]; auto. }
    assert (Ecall : exists v, call lo (pre lo) true m = Ok (pre (lo + 1), mem_write m (A lo) v) /\ v = val lo).
    { rewrite call_final by auto. pose proof (HFm (pre lo)) as E. pose proof (pre_step lo Hlo) as Eps. unfold val. clear - E Eps. destruct ty; cbv zeta; rewrite E, <- Eps; eauto. }
    destruct Ecall as (v & Ecall & Hv).
    cbn [scan_steps]. rewrite Ek, Ecall. cbn [rbind fst snd].
    apply IH.
    + assert (Hnd : NoDup (lo :: todo (set_chunk st k (ids, pre (lo + 1))))) by (eapply Permutation_NoDup; [apply Htodo|apply HI]).
      apply NoDup_cons_iff in Hnd as [Hni Hnd].
      constructor; auto.
      * rewrite Eset. destruct HI as [Hf _ _ _ _]. rewrite Est in Hf. apply Forall_app in Hf as [Hf1 Hf2]. inversion Hf2; subst. apply Forall_app. split; auto. constructor; auto.
        exists (lo + 1), (c - 1). cbn [fst snd]. repeat split; auto; lia.
      * intros i Hi Hnot. unfold mem_write. destruct (Z.eqb_spec (A i) (A lo)) as [E|Hne].
        -- apply A_inj in E; auto. now subst i.
        -- apply (i_done st m HI); auto. intros Hin. apply Hnot. apply (Permutation_in _ (Htodo (pre (lo + 1)))) in Hin as [->|Hin]; congruence.
      * intros i Hi Hin. unfold mem_write. destruct (Z.eqb_spec (A i) (A lo)) as [E|Hne].
        -- apply A_inj in E; auto. subst i. contradiction.
        -- apply (i_todo st m HI); auto. eapply Permutation_in; [apply Permutation_sym, (Htodo (pre (lo + 1)))|now right].
      * intros a Ha. unfold mem_write. destruct (Z.eqb_spec a (A lo)) as [->|]; [exfalso; eapply Ha; eauto|]. now apply HI.
    + intros j. specialize (Hc j). cbn in Hc. rewrite Eset, map_app. cbn [map fst].
      rewrite Est, map_app in Hc. cbn [map fst] in Hc.
      destruct (Nat.eq_dec k j) as [<-|Hkj].
      * rewrite <- Hl1 in Hc |- *. rewrite <- (map_length fst s1) in Hc |- *. rewrite nth_middle in Hc. rewrite nth_middle. cbn [length] in Hc. rewrite map_length in *. lia.
      * destruct (Nat.lt_ge_cases j k) as [L|L].
        -- rewrite app_nth1 in Hc by (rewrite map_length; lia). rewrite app_nth1 by (rewrite map_length; lia). auto.
        -- rewrite app_nth2 in Hc by (rewrite map_length; lia). rewrite app_nth2 by (rewrite map_length; lia). rewrite map_length in *.
           destruct (j - length s1)%nat eqn:Ej; [lia|]. exact Hc.
Qed.

Lemma starts_run init cs : kokkos_init r = Some init -> forall before,
  before ++ concat (map fst cs) = zrange n -> starts_ok before cs ->
  exists st, map_res (fun c => rbind (scan_total call (kokkos_join r) init m0 (snd c)) (fun v => Ok (fst c, v))) cs = Ok st /\
    map fst st = map fst cs /\ Forall chunk_ok st.
Proof.
  intros Hi. induction cs as [|(ids, t) cs IH]; intros before Hcat Hs.
  - exists []. repeat split; auto.
  - cbn [starts_ok] in Hs. destruct Hs as [Ht Hs]. cbn [map fst concat] in Hcat.
    rewrite app_assoc in Hcat. destruct (IH (before ++ ids)) as (st & E & Hm & Hf); auto.
    rewrite <- app_assoc in Hcat. pose proof (split_range _ _ _ Hn Hcat) as (Eb & Er & HL).
    cbn [map_res snd fst]. rewrite total_ok; auto.
    2:{ rewrite Ht. intros i Hin. rewrite Eb in Hin. apply in_zrange in Hin. lia. }
    cbn [rbind]. rewrite E. cbn [rbind]. eexists. split; [reflexivity|]. split; [cbn; congruence|].
    constructor; auto. exists (Z.of_nat (length before)), (Z.of_nat (length ids)). cbn [fst snd].
    rewrite app_length in HL. repeat split; try lia.
    + rewrite app_length, Nat2Z.inj_add, zrange_app, map_app in Er by lia.
      apply app_inv_len in Er as [Er _]; auto. rewrite map_length, zrange_len. lia.
    + rewrite Ht. unfold pre. now rewrite <- Eb.
Qed.

Lemma scan_ok init x : kokkos_init r = Some init -> scan_contract x n ->
  exists m', run_scan call (kokkos_join r) init x m0 = Ok m' /\
    (forall i, 0 <= i < n -> m' (A i) = val i) /\ (forall a, (forall i, 0 <= i < n -> a <> A i) -> m' a = m0 a).
Proof.
  intros Hi (Hcat & Hs & Hc). destruct (starts_run init (x_chunks x) Hi []) as (st & E & Hm & Hf); auto.
  unfold run_scan. rewrite E. cbn [rbind].
  destruct (steps_ok (x_steps x) st m0) as (st' & m' & E' & H1 & H2).
  - constructor; auto; unfold todo; rewrite Hm, Hcat.
    + apply NoDup_zrange.
    + intros i Hi' Hnot. exfalso. apply Hnot, in_zrange. auto.
  - rewrite Hm. exact Hc.
  - exists m'. rewrite E'. auto.
Qed.
End Machine.
