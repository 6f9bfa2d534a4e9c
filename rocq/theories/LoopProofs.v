(** Rules for arrays and loops. *)
From Coq Require Import Lia.
From Verif Require Export LoopModel.

Lemma aget_ok {T} (a : arr T) i : 0 <= i < a_len a -> aget a i = Ok (a_at a i).
Proof. intros H. unfold aget. destruct (0 <=? i) eqn:?, (i <? a_len a) eqn:?; try lia; reflexivity. Qed.
Lemma aset_ok {T} (a : arr T) i v : 0 <= i < a_len a -> aset a i v = Ok (mk_arr (a_len a) (upd (a_at a) i v)).
Proof. intros H. unfold aset. destruct (0 <=? i) eqn:?, (i <? a_len a) eqn:?; try lia; reflexivity. Qed.
Lemma aget2_ok {T} (a : arr2 T) i j : 0 <= i < a2_n a -> 0 <= j < a2_m a -> aget2 a i j = Ok (a2_at a i j).
Proof.
  intros H K. unfold aget2, in2.
  destruct (0 <=? i) eqn:?, (i <? a2_n a) eqn:?, (0 <=? j) eqn:?, (j <? a2_m a) eqn:?; try lia; reflexivity.
Qed.
Lemma aset2_ok {T} (a : arr2 T) i j v : 0 <= i < a2_n a -> 0 <= j < a2_m a ->
  aset2 a i j v = Ok (mk_arr2 (a2_n a) (a2_m a) (upd2 (a2_at a) i j v)).
Proof.
  intros H K. unfold aset2, in2.
  destruct (0 <=? i) eqn:?, (i <? a2_n a) eqn:?, (0 <=? j) eqn:?, (j <? a2_m a) eqn:?; try lia; reflexivity.
Qed.
Lemma upd_eq {T} (f : Z -> T) i v : upd f i v i = v.
Proof. unfold upd. now rewrite Z.eqb_refl. Qed.
Lemma upd_neq {T} (f : Z -> T) i v k : k <> i -> upd f i v k = f k.
Proof. intros H. unfold upd. destruct (k =? i) eqn:?; [lia | reflexivity]. Qed.
Lemma upd2_eq {T} (f : Z -> Z -> T) i j v : upd2 f i j v i j = v.
Proof. unfold upd2. now rewrite !Z.eqb_refl. Qed.
Lemma upd2_neq {T} (f : Z -> Z -> T) i j v k l : k <> i \/ l <> j -> upd2 f i j v k l = f k l.
Proof. intros H. unfold upd2. destruct (k =? i) eqn:?, (l =? j) eqn:?; try reflexivity. lia. Qed.

Lemma for_n_inv {S} (P : Z -> S -> Prop) (body : Z -> S -> res S) n : forall lo s,
  P lo s -> (forall i s, lo <= i < lo + Z.of_nat n -> P i s -> exists s', body i s = Ok s' /\ P (i + 1) s') ->
  exists s', for_n n lo body s = Ok s' /\ P (lo + Z.of_nat n) s'.
Proof.
  induction n as [|n IH]; intros lo s H0 Hb.
  - exists s. split; [reflexivity|]. now replace (lo + Z.of_nat 0) with lo by lia.
  - destruct (Hb lo s ltac:(lia) H0) as (s1 & E1 & H1).
    destruct (IH (lo + 1) s1 H1) as (s2 & E2 & H2). { intros i s' Hi Hp. apply Hb; [lia | exact Hp]. }
    exists s2. split. { cbn [for_n]. rewrite E1. cbn [rbind]. exact E2. }
    now replace (lo + Z.of_nat (Datatypes.S n)) with (lo + 1 + Z.of_nat n) by lia.
Qed.
Lemma for_range_inv {S} (P : Z -> S -> Prop) (body : Z -> S -> res S) lo hi s : lo <= hi ->
  P lo s -> (forall i s, lo <= i < hi -> P i s -> exists s', body i s = Ok s' /\ P (i + 1) s') ->
  exists s', for_range lo hi body s = Ok s' /\ P hi s'.
Proof.
  intros Hle H0 Hb. destruct (for_n_inv P body (Z.to_nat (hi - lo)) lo s H0) as (s' & E & H).
  { intros i s1 Hi Hp. apply Hb; [lia | exact Hp]. }
  exists s'. split; [exact E|]. now replace hi with (lo + Z.of_nat (Z.to_nat (hi - lo))) by lia.
Qed.
Lemma for_range_empty {S} (body : Z -> S -> res S) lo hi s : hi <= lo -> for_range lo hi body s = Ok s.
Proof. intros H. unfold for_range. replace (Z.to_nat (hi - lo)) with O by lia. reflexivity. Qed.
(** As [for_range_inv], also when [hi < lo]. *)
Lemma for_range_inv' {S} (P : Z -> S -> Prop) (body : Z -> S -> res S) lo hi s :
  P lo s -> (forall i s, lo <= i < hi -> P i s -> exists s', body i s = Ok s' /\ P (i + 1) s') ->
  exists s', for_range lo hi body s = Ok s' /\ P (Z.max lo hi) s'.
Proof.
  intros H0 Hb. destruct (Z_le_gt_dec lo hi) as [Hle|Hgt].
  - rewrite Z.max_r by lia. now apply for_range_inv.
  - rewrite for_range_empty by lia. rewrite Z.max_l by lia. eauto.
Qed.
