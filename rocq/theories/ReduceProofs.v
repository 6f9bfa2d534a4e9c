From Coq Require Import Permutation.
From Verif Require Import Machine MachineProofs TypeSeqModel TaggedModel TaggedSpec TaggedProofs
  DomainModel DomainSpec DomainProofs ListAux DomainProofs2 SpanModel SpanSpec SpanProofs StorageProofs ReduceModel ReduceSpec.

(** * Sequential reductions *)
Section Serial.
Context {T : Type} (neutral : T) (reduce : T -> T -> T).
Hypothesis assoc : forall a b c, reduce a (reduce b c) = reduce (reduce a b) c.
Hypothesis neutral_l : forall a, reduce neutral a = a.
Hypothesis neutral_r : forall a, reduce a neutral = a.
Definition foldr_ (l : list T) (r : T) : T := fold_left (fun acc x => reduce x acc) l r.
Lemma fold_from l r : foldr_ l r = reduce (foldr_ l neutral) r.
Proof.
  revert r. induction l as [|x l IH]; intros r; cbn; [now rewrite neutral_l|].
  unfold foldr_ in *. rewrite IH. rewrite (IH (reduce x neutral)). rewrite neutral_r, assoc. reflexivity.
Qed.
Lemma foldr_app a b r : foldr_ (a ++ b) r = foldr_ b (foldr_ a r).
Proof. apply fold_left_app. Qed.
Lemma serial_box at_ ts (g : list Z -> tagged) (f : tagged -> T) sizes : forall is,
  (forall js, Forall2 (fun i n => 0 <= i < n) js sizes -> at_ (combine ts (is ++ js)) = Ok (g (is ++ js))) ->
  reduce_serial at_ ts sizes neutral reduce f is = Ok (foldr_ (map f (map g (map (app is) (box sizes)))) neutral).
Proof.
  induction sizes as [|n sizes IH]; intros is H.
  - cbn. rewrite <- (app_nil_r is) at 1. rewrite H by constructor. cbn. unfold foldr_. cbn. now rewrite neutral_r.
  - cbn [reduce_serial box].
    assert (G : forall l r, (forall i, In i l -> 0 <= i < n) ->
      fold_left (fun result ii => rbind result (fun result' =>
        rbind (reduce_serial at_ ts sizes neutral reduce f (is ++ [ii])) (fun x => Ok (reduce x result')))) l (Ok r) =
      Ok (foldr_ (map f (map g (map (app is) (flat_map (fun i => map (cons i) (box sizes)) l)))) r)).
    { induction l as [|i l IHl]; intros r Hl; [reflexivity|].
      cbn [fold_left rbind flat_map]. rewrite IH.
      - cbn [rbind]. rewrite IHl by (intros; apply Hl; now right). f_equal.
        rewrite !map_app, foldr_app. f_equal. rewrite <- fold_from. f_equal. f_equal. f_equal. rewrite map_map. apply map_ext. intros a. now rewrite <- app_assoc.
      - intros js Hjs. rewrite <- app_assoc. apply H. constructor; auto. apply Hl. now left. }
    apply G. intros i Hi. now apply in_zrange in Hi.
Qed.
Lemma serial_ordered d (f : tagged -> T) : dom_wf d ->
  host_transform_reduce d neutral reduce f = Ok (fold_left (fun acc e => reduce (f e) acc) (trace d) neutral).
Proof.
  intros Hw. unfold host_transform_reduce. destruct (extents_values d Hw) as (ex & E & V). rewrite E. cbn [rbind]. rewrite V.
  rewrite serial_box with (g := elem_at d).
  - f_equal. unfold foldr_, trace. rewrite map_map. rewrite (map_ext (fun x => [] ++ x) (fun x => x)) by reflexivity.
    rewrite map_id.
    generalize (box (map (fun p => snd (snd p) - fst (snd p)) d)) neutral. induction l; intros; cbn; auto.
  - intros js Hjs. cbn [app]. now apply dom_at_ok.
Qed.
End Serial.

Lemma fold_comm_perm {T A} (op : T -> T -> T) (f : A -> T) :
  (forall a b c, op a (op b c) = op (op a b) c) -> (forall a b, op a b = op b a) ->
  forall l l', Permutation l l' -> forall z, fold_right (fun e acc => op (f e) acc) z l = fold_right (fun e acc => op (f e) acc) z l'.
Proof.
  intros Ha Hc l l' Hp. induction Hp; intros z; cbn; auto.
  - now rewrite IHHp.
  - rewrite !Ha. now rewrite (Hc (f y)).
  - now rewrite IHHp1.
Qed.
Lemma fold_left_right {T A} (op : T -> T -> T) (f : A -> T) :
  (forall a b c, op a (op b c) = op (op a b) c) -> (forall a b, op a b = op b a) ->
  forall l z, fold_left (fun acc e => op (f e) acc) l z = fold_right (fun e acc => op (f e) acc) z l.
Proof.
  intros Ha Hc. induction l as [|x l IH]; intros z; cbn; auto. rewrite IH.
  clear IH. revert z. induction l as [|y l IH]; intros z; cbn; auto. rewrite IH. rewrite !Ha. now rewrite (Hc (f y)).
Qed.
Lemma enum_perm d l : dom_wf d -> enumerates d l -> Permutation l (trace d).
Proof.
  intros Hw [Hn Hi]. apply NoDup_Permutation; auto using trace_nodup. intros e. rewrite Hi, trace_in by auto. tauto.
Qed.
Lemma trace_enum d : dom_wf d -> enumerates d (trace d).
Proof. intros Hw. split; [now apply trace_nodup|]. intros. now apply trace_in. Qed.
Lemma serial_any_order {T} (neutral : T) reduce d (f : tagged -> T) l :
  (forall a b c, reduce a (reduce b c) = reduce (reduce a b) c) -> (forall a b, reduce a b = reduce b a) ->
  (forall a, reduce neutral a = a) -> dom_wf d -> enumerates d l ->
  host_transform_reduce d neutral reduce f = Ok (fold_right (fun e acc => reduce (f e) acc) neutral l).
Proof.
  intros Ha Hc Hn Hw He. rewrite serial_ordered; auto; [|intros; now rewrite Hc].
  f_equal. rewrite fold_left_right by auto. apply fold_comm_perm; auto. apply Permutation_sym. now apply enum_perm.
Qed.
Lemma serial_in_order {T} (neutral : T) reduce d (f : tagged -> T) l :
  (forall a b c, reduce a (reduce b c) = reduce (reduce a b) c) ->
  (forall a, reduce neutral a = a) -> (forall a, reduce a neutral = a) -> dom_wf d ->
  host_for_each d (fun e l => l ++ [e]) [] = Ok l ->
  host_transform_reduce d neutral reduce f = Ok (fold_left (fun acc e => reduce (f e) acc) l neutral).
Proof.
  intros Ha Hl Hr Hw He. rewrite serial_ordered by auto. f_equal.
  rewrite host_for_each_trace in He by auto. injection He as <-. f_equal. symmetry. apply (collect_all (trace d) []).
Qed.

(** * Policies *)
Lemma policy_trace d ids : dom_wf d -> In ids (policy_indices (sizes_of d)) ->
  policy_elem d ids = Ok (elem_at d (match d with [] => [] | _ => ids end)).
Proof.
  intros Hw Hin. unfold policy_elem. destruct d as [|p d].
  - reflexivity.
  - cbn [sizes_of map policy_indices] in Hin. change (md_indices _) with (box (sizes_of (p :: d))) in Hin.
    apply in_box_list in Hin. change (ddims (p :: d)) with (fst p :: ddims d). cbv iota. change (fst p :: ddims d) with (ddims (p :: d)).
    now apply dom_at_ok.
Qed.
Definition elem_of (d : domain) (ids : list Z) : tagged := elem_at d (match d with [] => [] | _ => ids end).
Lemma policy_elems d : map (elem_of d) (policy_indices (sizes_of d)) = trace d.
Proof. destruct d; reflexivity. Qed.

Section Schedules.
Context {T M : Type} (op join : T -> T -> T) (init : T) (mop : M -> M -> M) (e : M) (R : T -> M -> Prop).
Hypothesis assoc : forall a b c, mop a (mop b c) = mop (mop a b) c.
Hypothesis neutral_l : forall a, mop e a = a.
Hypothesis neutral_r : forall a, mop a e = a.
Hypothesis R_init : R init e.
Hypothesis R_join : forall a b m n, R a m -> R b n -> R (join a b) (mop m n).
Definition mfold (l : list M) : M := fold_right mop e l.
Lemma mfold_app a b : mfold (a ++ b) = mop (mfold a) (mfold b).
Proof. induction a as [|x a IH]; cbn; [now rewrite neutral_l|]. unfold mfold in *. now rewrite IH, assoc. Qed.
Lemma run_fold d (f : tagged -> T) (g : tagged -> M) s : dom_wf d -> incl (leaves s) (policy_indices (sizes_of d)) ->
  (forall el a m, R a m -> R (op a (f el)) (mop m (g el))) ->
  exists v, run_reduce op join init d f s = Ok v /\ R v (mfold (map g (map (elem_of d) (leaves s)))).
Proof.
  intros Hw Hinc Hop. induction s as [l|a IHa b IHb].
  - cbn [run_reduce leaves] in *.
    assert (G : forall l v0 m0, incl l (policy_indices (sizes_of d)) -> R v0 m0 ->
       exists v, fold_left (fun acc ids => rbind acc (fun a => rbind (policy_elem d ids) (fun e => Ok (op a (f e))))) l (Ok v0) = Ok v /\
         R v (mop m0 (mfold (map g (map (elem_of d) l))))).
    { clear l Hinc. induction l as [|ids l IH]; intros v0 m0 Hl H0.
      - exists v0. split; [reflexivity|]. cbn. now rewrite neutral_r.
      - cbn [fold_left rbind]. rewrite policy_trace by (auto; apply Hl; now left). cbn [rbind]. fold (elem_of d ids).
        destruct (IH (op v0 (f (elem_of d ids))) (mop m0 (g (elem_of d ids)))) as (v & E & HR); [intros x Hx; apply Hl; now right|now apply Hop|].
        exists v. split; auto. cbn [map mfold fold_right]. now rewrite assoc. }
    destruct (G l init e) as (v & E & HR); auto. exists v. split; auto. now rewrite neutral_l in HR.
  - cbn [leaves] in *. destruct IHa as (va & Ea & Ra); [intros x Hx; apply Hinc, in_or_app; auto|].
    destruct IHb as (vb & Eb & Rb); [intros x Hx; apply Hinc, in_or_app; auto|].
    cbn [run_reduce]. rewrite Ea. cbn [rbind]. rewrite Eb. cbn [rbind]. exists (join va vb). split; auto.
    rewrite !map_app, mfold_app. auto.
Qed.
Hypothesis comm : forall a b, mop a b = mop b a.
Lemma run_enum d (f : tagged -> T) (g : tagged -> M) s l : dom_wf d -> covers s (sizes_of d) -> enumerates d l ->
  (forall el a m, R a m -> R (op a (f el)) (mop m (g el))) ->
  exists v, run_reduce op join init d f s = Ok v /\ R v (mfold (map g l)).
Proof.
  intros Hw Hc He Hop. destruct (run_fold d f g s Hw) as (v & E & HR); auto.
  { intros x Hx. eapply Permutation_in; [exact Hc|exact Hx]. }
  exists v. split; auto.
  assert (Hp : Permutation l (map (elem_of d) (leaves s))).
  { eapply Permutation_trans; [apply enum_perm; eauto|]. rewrite <- policy_elems. apply Permutation_map. now apply Permutation_sym. }
  replace (mfold (map g l)) with (mfold (map g (map (elem_of d) (leaves s)))); auto.
  assert (G : forall k, mfold (map g k) = fold_right (fun el acc => mop (g el) acc) e k) by (induction k; cbn; unfold mfold in *; congruence).
  rewrite !G. apply fold_comm_perm; auto. now apply Permutation_sym.
Qed.
End Schedules.
