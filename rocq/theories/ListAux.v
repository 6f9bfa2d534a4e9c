(** Facts about lists missing from the 8.16 standard library. *)
From Coq Require Import List Lia Arith.
Import ListNotations.

Lemma NoDup_app_inv {A} (a b : list A) : NoDup (a ++ b) ->
  NoDup a /\ NoDup b /\ (forall x, In x a -> ~ In x b).
Proof.
  induction a as [|x a IH]; simpl; intros H.
  - repeat split; auto. constructor.
  - inversion H as [|? ? Hn Hd]; subst. destruct (IH Hd) as (H1 & H2 & H3). repeat split; auto.
    + constructor; auto. intros Hi. apply Hn. apply in_or_app; auto.
    + intros y [<-|Hy]; [|auto]. intros Hi. apply Hn. apply in_or_app; auto.
Qed.
Lemma NoDup_app_intro {A} (a b : list A) : NoDup a -> NoDup b -> (forall x, In x a -> ~ In x b) -> NoDup (a ++ b).
Proof.
  induction a as [|x a IH]; simpl; intros Ha Hb Hd; [auto|]. inversion Ha; subst.
  constructor; [|apply IH; auto]. rewrite in_app_iff. intros [H|H]; [auto|]. eapply Hd; eauto.
Qed.
Lemma Forall2_len {A B} (R : A -> B -> Prop) a b : Forall2 R a b -> length a = length b.
Proof. induction 1; simpl; auto. Qed.
