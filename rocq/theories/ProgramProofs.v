(** Reasoning about sequences of kernels, whatever the interleavings. *)
From Verif Require Import Machine LoopModel ProgramModel.

Section Outcome.
Notation L := (list (list nat)).
(** [c] gives [Ok] for some interleavings; whenever it does the result is one of [Q]; it is never undefined.
    A result is given as a function of the interleavings that are left. *)
Definition outcome {S} (c : L -> res S) (Q : (L -> S) -> Prop) : Prop :=
  (exists ss f, Q f /\ forall rest, c (ss ++ rest) = Ok (f rest)) /\
  (forall ss s, c ss = Ok s -> exists f rest, Q f /\ s = f rest) /\
  (forall ss, c ss <> Undef).
Lemma o_ret {S} (f : L -> S) (Q : (L -> S) -> Prop) : Q f -> outcome (fun ss => Ok (f ss)) Q.
Proof.
  intros H. split; [|split].
  - exists [], f. split; auto.
  - intros ss s E. exists f, ss. split; auto. congruence.
  - discriminate.
Qed.
Lemma o_bind {S T} (c : L -> res S) (k : S -> res T) Q Q' : outcome c Q ->
  (forall f, Q f -> outcome (fun ss => k (f ss)) Q') -> outcome (fun ss => rbind (c ss) k) Q'.
Proof.
  intros ((ss & f & Hf & E) & H2 & H3) K. split; [|split].
  - destruct (K f Hf) as ((ss' & f' & Hf' & E') & _). exists (ss ++ ss'), f'. split; auto. intros rest.
    rewrite <- app_assoc, E. cbn [rbind]. apply E'.
  - intros s0 t Et. destruct (c s0) as [s| |] eqn:Es; cbn [rbind] in Et; try discriminate.
    destruct (H2 _ _ Es) as (f0 & r & Hf0 & ->). now apply (proj1 (proj2 (K f0 Hf0)) r).
  - intros s0 Et. destruct (c s0) as [s| |] eqn:Es; cbn [rbind] in Et; try discriminate.
    + destruct (H2 _ _ Es) as (f0 & r & Hf0 & ->). now apply (proj2 (proj2 (K f0 Hf0)) r).
    + now apply (H3 s0).
Qed.
Lemma o_weaken {S} (c : L -> res S) (Q Q' : (L -> S) -> Prop) : (forall f, Q f -> Q' f) -> outcome c Q -> outcome c Q'.
Proof.
  intros H ((ss & f & Hf & E) & H2 & H3). split; [|split; [|exact H3]].
  - exists ss, f. auto.
  - intros s0 s E0. destruct (H2 _ _ E0) as (g & r & Hg & ->). exists g, r. auto.
Qed.
Lemma o_ext {S} (c c' : L -> res S) (Q : (L -> S) -> Prop) : (forall ss, c' ss = c ss) -> outcome c Q -> outcome c' Q.
Proof.
  intros H ((ss & f & Hf & E) & H2 & H3). split; [|split].
  - exists ss, f. split; auto. intros rest. now rewrite H.
  - intros s0 s E0. rewrite H in E0. eauto.
  - intros s0. now rewrite H.
Qed.
Lemma o_launch {V} (K : list nat -> memory V -> res (memory V)) m (Q : memory V -> Prop) :
  (exists c m', K c m = Ok m') -> (forall c m', K c m = Ok m' -> Q m') -> (forall c, K c m <> Undef) ->
  outcome (fun ss => launch K (mk_machine m ss)) (fun f => exists m', Q m' /\ f = mk_machine m').
Proof.
  intros (c & m' & E) H2 H3. split; [|split].
  - exists [c], (mk_machine m'). split; [exists m'; eauto|]. intros rest. unfold launch. cbn [p_sched app p_mem]. now rewrite E.
  - intros ss s. unfold launch. cbn [p_sched p_mem]. destruct ss as [|x r]; [discriminate|].
    destruct (K x m) as [m2| |] eqn:E2; cbn [rbind]; try discriminate. intros Es. exists (mk_machine m2), r.
    split; [exists m2; eauto|]. congruence.
  - intros ss. unfold launch. cbn [p_sched p_mem]. destruct ss as [|x r]; [discriminate|]. specialize (H3 x).
    destruct (K x m); cbn [rbind]; congruence.
Qed.
Lemma o_for_n {S} (I : Z -> (L -> S) -> Prop) (body : Z -> S -> res S) n : forall lo f0, I lo f0 ->
  (forall i f, lo <= i < lo + Z.of_nat n -> I i f -> outcome (fun ss => body i (f ss)) (I (i + 1))) ->
  outcome (fun ss => for_n n lo body (f0 ss)) (I (lo + Z.of_nat n)).
Proof.
  induction n as [|n IH]; intros lo f0 H0 H.
  - cbn [for_n]. replace (lo + Z.of_nat 0) with lo by lia. now apply o_ret.
  - cbn [for_n]. apply (o_bind _ _ (I (lo + 1))); [apply H; auto; lia|]. intros f Hf.
    replace (lo + Z.of_nat (Datatypes.S n)) with (lo + 1 + Z.of_nat n) by lia. apply IH; auto. intros i g Hi. apply H. lia.
Qed.
Lemma o_for {S} (I : Z -> (L -> S) -> Prop) (body : Z -> S -> res S) lo hi f0 : I lo f0 -> lo <= hi ->
  (forall i f, lo <= i < hi -> I i f -> outcome (fun ss => body i (f ss)) (I (i + 1))) ->
  outcome (fun ss => for_range lo hi body (f0 ss)) (I hi).
Proof.
  intros H0 Hlh H. unfold for_range. replace (I hi) with (I (lo + Z.of_nat (Z.to_nat (hi - lo)))) by (f_equal; lia).
  apply o_for_n; auto. intros i f Hi. apply H. lia.
Qed.
End Outcome.
