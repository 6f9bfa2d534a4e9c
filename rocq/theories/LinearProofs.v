(** Proofs for C38: storages of the matrices. *)
From Coq Require Import List Lia.
From Verif Require Import MachineProofs LinearModel LinearSpec LoopProofs SamplingProofs.
From Coq Require Import ZifyBool.
Import ListNotations.
Local Open Scope Z_scope.

Definition kin (k : kind) (i j : Z) : bool :=
  match k with
  | General => true
  | Banded kl ku => (i - j <=? kl) && (j - i <=? ku)
  | Symmetric kd => Z.abs (i - j) <=? kd
  end.
Definition ksame (k : kind) (i j i' j' : Z) : bool :=
  (i =? i') && (j =? j') || match k with Symmetric _ => (i =? j') && (j =? i') | _ => false end.

Lemma u64_id z : 0 <= z < 2 ^ 64 -> u64 z = z. Proof. intros H. apply u64_small. exact H. Qed.
Lemma i64_id z : 0 <= z < 2 ^ 63 -> i64 z = z.
Proof. intros H. unfold i64. change two63 with (2 ^ 63). change two64 with (2 ^ 64). rewrite Z.mod_small by lia. lia. Qed.

Ltac cases_lia := repeat match goal with |- context [if ?b then _ else _] => let E := fresh in destruct b eqn:E end; lia.
Section P.
Context (A : arith).
Local Notation num := (num A).

Definition small (v : num) : Prop := nltb A (nabs A v) (tol15 A) = true.

Definition wf_elem (n : Z) (k : kind) (e : elementary A) : Prop :=
  0 <= n < 2 ^ 61 /\
  match e, k with
  | Dense a, General | Sparse a, General => a2_n a = n /\ a2_m a = n
  | Band n' kl ku q, Banded kl' ku' =>
      n' = n /\ kl' = kl /\ ku' = ku /\ 0 <= kl <= n /\ 0 <= ku <= n /\ a2_n q = 2 * kl + ku + 1 /\ a2_m q = n
  | PdsBand n' q, Symmetric kd => n' = n /\ 0 <= kd < n /\ a2_n q = kd + 1 /\ a2_m q = n
  | PdsTridiag n' q, Symmetric kd => n' = n /\ kd = 1 /\ a2_n q = 2 /\ a2_m q = n
  | _, _ => False
  end.
Lemma wf_size n k e : wf_elem n k e -> elem_size e = n.
Proof. unfold wf_elem. destruct e, k; cbn [elem_size]; intuition. Qed.

Lemma in_band_kin n kl ku i j : 0 <= i < n -> 0 <= j < n -> 0 <= kl <= n -> 0 <= ku <= n -> n < 2 ^ 61 ->
  in_band n kl ku i j = kin (Banded kl ku) i j.
Proof.
  intros Hi Hj Hl Hu Hn. unfold in_band, kin, u64_add. rewrite !i64_id by lia.
  rewrite (u64_id (j + kl)), (u64_id (j + kl + 1)), (u64_id (Z.max 0 (j - ku))) by lia. lia.
Qed.
Lemma row_index_eq kl ku i j n : 0 <= i < n -> 0 <= j < n -> 0 <= kl <= n -> 0 <= ku <= n -> n < 2 ^ 61 -> j - i <= ku ->
  band_storage_row_index kl ku i j = kl + ku + (i - j).
Proof.
  intros. unfold band_storage_row_index, u64_add, u64_sub.
  rewrite (u64_id (kl + ku)), (u64_id (kl + ku + i)), u64_id by lia. lia.
Qed.

(** What is stored, as a function. *)
Definition elem_at (e : elementary A) (i j : Z) : num :=
  match e with
  | Dense a | Sparse a => a2_at a i j
  | Band n kl ku q => if kin (Banded kl ku) i j then a2_at q (kl + ku + (i - j)) j else nofz A 0
  | PdsBand n q => if Z.abs (i - j) <? a2_n q then a2_at q (Z.abs (i - j)) (Z.min i j) else nofz A 0
  | PdsTridiag n q => if Z.abs (i - j) <? 2 then a2_at q (Z.abs (i - j)) (Z.min i j) else nofz A 0
  end.
Lemma swap_pair (i j : Z) : (if j <? i then (j, i) else (i, j)) = (Z.min i j, Z.max i j).
Proof. destruct (j <? i) eqn:E; f_equal; lia. Qed.
Lemma u64_sub_minmax i j n : 0 <= i < n -> 0 <= j < n -> n < 2 ^ 61 -> u64_sub (Z.max i j) (Z.min i j) = Z.abs (i - j).
Proof. intros. unfold u64_sub. rewrite u64_id by lia. lia. Qed.

Lemma elem_get_at n k e i j : wf_elem n k e -> 0 <= i < n -> 0 <= j < n -> elem_get A e i j = Ok (elem_at e i j).
Proof.
  intros [Hn W] Hi Hj. unfold elem_get, elem_at, assert_.
  destruct e as [a | n' kl ku q | n' q | n' q | a], k; try contradiction.
  - destruct W as [W1 W2]. replace ((i <? a2_n a) && (j <? a2_n a)) with true by lia. apply aget2_ok; lia.
  - destruct W as (-> & -> & -> & Hl & Hu & Q1 & Q2). replace ((i <? n) && (j <? n)) with true by lia.
    rewrite in_band_kin by lia. destruct (kin (Banded kl ku) i j) eqn:E; [|reflexivity]. cbn [kin] in E.
    rewrite (row_index_eq _ _ _ _ n) by lia. apply aget2_ok; lia.
  - destruct W as (-> & Hk & Q1 & Q2). replace ((i <? n) && (j <? n)) with true by lia. rewrite swap_pair.
    rewrite (u64_sub_minmax i j n) by lia. destruct (_ <? a2_n q) eqn:E; [|reflexivity]. apply aget2_ok; lia.
  - destruct W as (-> & Hk & Q1 & Q2). replace ((i <? n) && (j <? n)) with true by lia. rewrite swap_pair.
    rewrite (u64_sub_minmax i j n) by lia. destruct (_ <? 2) eqn:E; [|reflexivity]. apply aget2_ok; lia.
  - destruct W as [W1 W2]. apply aget2_ok; lia.
Qed.

Lemma upd2_if {T} (f : Z -> Z -> T) i j v k l : upd2 f i j v k l = if (k =? i) && (l =? j) then v else f k l.
Proof. reflexivity. Qed.
Lemma if_eq {T} (b c : bool) (x y : T) : b = c -> (if b then x else y) = (if c then x else y).
Proof. now intros ->. Qed.

Lemma elem_set_at n k e i j v : wf_elem n k e -> 0 <= i < n -> 0 <= j < n -> (kin k i j = false -> small v) ->
  exists e', elem_set A e i j v = Ok e' /\ wf_elem n k e' /\
    forall i' j', 0 <= i' < n -> 0 <= j' < n ->
      elem_at e' i' j' = if kin k i j && ksame k i j i' j' then v else elem_at e i' j'.
Proof.
  intros [Hn W] Hi Hj Hs. unfold elem_set, assert_.
  destruct e as [a | n' kl ku q | n' q | n' q | a], k; try contradiction.
  - destruct W as [W1 W2]. replace ((i <? a2_n a) && (j <? a2_n a)) with true by lia. rewrite aset2_ok by lia.
    cbn [rbind]. eexists. split; [reflexivity|]. split; [split; [lia | cbn; lia]|].
    intros i' j' Hi' Hj'. cbn [elem_at a2_at]. rewrite upd2_if. apply if_eq. unfold kin, ksame. lia.
  - destruct W as (-> & -> & -> & Hl & Hu & Q1 & Q2). replace ((i <? n) && (j <? n)) with true by lia.
    rewrite in_band_kin by lia. destruct (kin (Banded kl ku) i j) eqn:E.
    + cbn [kin] in E. rewrite (row_index_eq _ _ _ _ n) by lia. rewrite aset2_ok by lia. cbn [rbind].
      eexists. split; [reflexivity|]. split; [split; [lia | cbn [a2_n a2_m]; repeat split; lia]|].
      intros i' j' Hi' Hj'. cbn [elem_at a2_at]. rewrite upd2_if. cbn [andb]. unfold kin, ksame.
      destruct ((i' - j' <=? kl) && (j' - i' <=? ku)) eqn:E'.
      * apply if_eq. lia.
      * replace ((i =? i') && (j =? j') || false) with false by lia. reflexivity.
    + specialize (Hs eq_refl). unfold small in Hs. rewrite Hs. eexists. split; [reflexivity|].
      split; [split; [lia | repeat split; lia]|]. intros. reflexivity.
  - destruct W as (-> & Hk & Q1 & Q2). replace ((i <? n) && (j <? n)) with true by lia. rewrite swap_pair.
    rewrite (u64_sub_minmax i j n) by lia. cbn [kin] in *. destruct (_ <? a2_n q) eqn:E.
    + rewrite aset2_ok by lia. cbn [rbind].
      eexists. split; [reflexivity|]. split; [split; [lia | cbn [a2_n a2_m]; repeat split; lia]|].
      intros i' j' Hi' Hj'. cbn [elem_at a2_at a2_n]. rewrite upd2_if. unfold ksame.
      destruct (Z.abs (i' - j') <? a2_n q) eqn:E'.
      * apply if_eq. lia.
      * replace ((Z.abs (i - j) <=? kd) && ((i =? i') && (j =? j') || (i =? j') && (j =? i'))) with false by lia. reflexivity.
    + replace (Z.abs (i - j) <=? kd) with false in * by lia. specialize (Hs eq_refl). unfold small in Hs. rewrite Hs.
      eexists. split; [reflexivity|]. split; [split; [lia | repeat split; lia]|]. intros. reflexivity.
  - destruct W as (-> & -> & Q1 & Q2). replace ((i <? n) && (j <? n)) with true by lia. rewrite swap_pair.
    rewrite (u64_sub_minmax i j n) by lia. cbn [kin] in *. destruct (_ <? 2) eqn:E.
    + rewrite aset2_ok by lia. cbn [rbind].
      eexists. split; [reflexivity|]. split; [split; [lia | cbn [a2_n a2_m]; repeat split; lia]|].
      intros i' j' Hi' Hj'. cbn [elem_at a2_at a2_n]. rewrite upd2_if. unfold ksame.
      destruct (Z.abs (i' - j') <? 2) eqn:E'.
      * apply if_eq. lia.
      * replace ((Z.abs (i - j) <=? 1) && ((i =? i') && (j =? j') || (i =? j') && (j =? i'))) with false by lia. reflexivity.
    + replace (Z.abs (i - j) <=? 1) with false in * by lia. specialize (Hs eq_refl). unfold small in Hs. rewrite Hs.
      eexists. split; [reflexivity|]. split; [split; [lia | repeat split; lia]|]. intros. reflexivity.
  - destruct W as [W1 W2]. rewrite aset2_ok by lia.
    cbn [rbind]. eexists. split; [reflexivity|]. split; [split; [lia | cbn; lia]|].
    intros i' j' Hi' Hj'. cbn [elem_at a2_at]. rewrite upd2_if. apply if_eq. unfold kin, ksame. lia.
Qed.
Lemma elem_at_out n k e i j : wf_elem n k e -> kin k i j = false -> elem_at e i j = nofz A 0.
Proof.
  intros [Hn W] H. destruct e, k; cbn [kin elem_at] in *; try contradiction; try discriminate.
  - destruct W as (-> & -> & -> & W). now rewrite H.
  - destruct (_ <? _) eqn:E; [lia | reflexivity].
  - destruct (_ <? _) eqn:E; [lia | reflexivity].
Qed.
Lemma elem_at_sym n kd e i j : wf_elem n (Symmetric kd) e -> elem_at e i j = elem_at e j i.
Proof.
  intros [Hn W]. destruct e; cbn [elem_at] in *; try contradiction;
    rewrite (Z.min_comm j i); replace (Z.abs (j - i)) with (Z.abs (i - j)) by lia; reflexivity.
Qed.

(** Blocks. *)
Definition wf_blocks (n nq : Z) (k : kind) (b : blocks A) : Prop :=
  0 <= nq <= n /\ n < 2 ^ 61 /\ bk_size b = n /\ wf_elem nq k (bk_top_left b) /\
  a2_n (bk_top_right b) = nq /\ a2_m (bk_top_right b) = n - nq /\
  a2_n (bk_bottom_left b) = n - nq /\ a2_m (bk_bottom_left b) = nq /\
  wf_elem (n - nq) General (bk_bottom_right b).
Definition blocks_at (nq : Z) (b : blocks A) (i j : Z) : num :=
  if (i <? nq) && (j <? nq) then elem_at (bk_top_left b) i j
  else if (nq <=? i) && (nq <=? j) then elem_at (bk_bottom_right b) (i - nq) (j - nq)
  else if nq <=? j then a2_at (bk_top_right b) i (j - nq)
  else a2_at (bk_bottom_left b) (i - nq) j.
Lemma blocks_get_at n nq k b i j : wf_blocks n nq k b -> 0 <= i < n -> 0 <= j < n ->
  blocks_get A b i j = Ok (blocks_at nq b i j).
Proof.
  intros (Hq & Hn & Hs & W1 & R1 & R2 & L1 & L2 & W2) Hi Hj. unfold blocks_get, blocks_at, assert_.
  rewrite Hs. replace ((i <? n) && (j <? n)) with true by lia. rewrite (wf_size _ _ _ W1). unfold u64_sub.
  destruct ((i <? nq) && (j <? nq)) eqn:E1. { apply (elem_get_at nq k); [exact W1 | lia | lia]. }
  destruct ((nq <=? i) && (nq <=? j)) eqn:E2. { rewrite !u64_id by lia. apply (elem_get_at (n - nq) General); [exact W2 | lia | lia]. }
  destruct (nq <=? j) eqn:E3; rewrite u64_id by lia; apply aget2_ok; lia.
Qed.
Lemma blocks_set_at n nq k b i j v : wf_blocks n nq k b -> 0 <= i < n -> 0 <= j < n ->
  (i < nq -> j < nq -> kin k i j = false -> small v) ->
  exists b', blocks_set A b i j v = Ok b' /\ wf_blocks n nq k b' /\
    forall i' j', 0 <= i' < n -> 0 <= j' < n ->
      blocks_at nq b' i' j' = if (i <? nq) && (j <? nq)
                              then if (i' <? nq) && (j' <? nq) && (kin k i j && ksame k i j i' j') then v else blocks_at nq b i' j'
                              else if (i =? i') && (j =? j') then v else blocks_at nq b i' j'.
Proof.
  intros (Hq & Hn & Hs & W1 & R1 & R2 & L1 & L2 & W2) Hi Hj Hv. unfold blocks_set, assert_.
  rewrite Hs. replace ((i <? n) && (j <? n)) with true by lia. rewrite (wf_size _ _ _ W1). unfold u64_sub.
  destruct b as [n' q tr bl br]. cbn [bk_size bk_top_left bk_top_right bk_bottom_left bk_bottom_right] in *. subst n'.
  destruct ((i <? nq) && (j <? nq)) eqn:E1.
  { destruct (elem_set_at nq k q i j v W1 ltac:(lia) ltac:(lia) (Hv ltac:(lia) ltac:(lia))) as (q' & Eq & Wq & Aq).
    rewrite Eq. cbn [rbind]. eexists. split; [reflexivity|].
    split. { unfold wf_blocks. cbn. tauto. }
    intros i' j' Hi' Hj'. unfold blocks_at. cbn [bk_size bk_top_left bk_top_right bk_bottom_left bk_bottom_right].
    destruct ((i' <? nq) && (j' <? nq)) eqn:E2; cbn [andb]; [|reflexivity]. rewrite Aq by lia. reflexivity. }
  destruct ((nq <=? i) && (nq <=? j)) eqn:E2.
  { rewrite !u64_id by lia.
    destruct (elem_set_at (n - nq) General br (i - nq) (j - nq) v W2 ltac:(lia) ltac:(lia) ltac:(discriminate)) as (q' & Eq & Wq & Aq).
    rewrite Eq. cbn [rbind]. eexists. split; [reflexivity|].
    split. { unfold wf_blocks. cbn. tauto. }
    intros i' j' Hi' Hj'. unfold blocks_at. cbn [bk_size bk_top_left bk_top_right bk_bottom_left bk_bottom_right].
    destruct ((i' <? nq) && (j' <? nq)) eqn:E3. { replace ((i =? i') && (j =? j')) with false by lia. reflexivity. }
    destruct ((nq <=? i') && (nq <=? j')) eqn:E4.
    - rewrite Aq by lia. apply if_eq. unfold kin, ksame. lia.
    - replace ((i =? i') && (j =? j')) with false by lia. reflexivity. }
  destruct (nq <=? j) eqn:E3.
  - rewrite u64_id by lia. rewrite aset2_ok by lia. cbn [rbind]. eexists. split; [reflexivity|].
    split. { unfold wf_blocks. cbn. tauto. }
    intros i' j' Hi' Hj'. unfold blocks_at. cbn [bk_size bk_top_left bk_top_right bk_bottom_left bk_bottom_right a2_at].
    destruct ((i' <? nq) && (j' <? nq)) eqn:E4. { replace ((i =? i') && (j =? j')) with false by lia. reflexivity. }
    destruct ((nq <=? i') && (nq <=? j')) eqn:E5. { replace ((i =? i') && (j =? j')) with false by lia. reflexivity. }
    destruct (nq <=? j') eqn:E6. { rewrite upd2_if. apply if_eq. lia. }
    replace ((i =? i') && (j =? j')) with false by lia. reflexivity.
  - rewrite u64_id by lia. rewrite aset2_ok by lia. cbn [rbind]. eexists. split; [reflexivity|].
    split. { unfold wf_blocks. cbn. tauto. }
    intros i' j' Hi' Hj'. unfold blocks_at. cbn [bk_size bk_top_left bk_top_right bk_bottom_left bk_bottom_right a2_at].
    destruct ((i' <? nq) && (j' <? nq)) eqn:E4. { replace ((i =? i') && (j =? j')) with false by lia. reflexivity. }
    destruct ((nq <=? i') && (nq <=? j')) eqn:E5. { replace ((i =? i') && (j =? j')) with false by lia. reflexivity. }
    destruct (nq <=? j') eqn:E6. { replace ((i =? i') && (j =? j')) with false by lia. reflexivity. }
    rewrite upd2_if. apply if_eq. lia.
Qed.

(** Problems. *)
Definition wf_prob (s : shape) (p : problem A) : Prop :=
  match p with
  | Elementary e => sh_top s = 0 /\ sh_main s = sh_n s /\ wf_elem (sh_n s) (sh_kind s) e
  | Blocks2 b => sh_top s = 0 /\ wf_blocks (sh_n s) (sh_main s) (sh_kind s) b
  | Blocks3 top b => sh_top s = top /\ 0 <= top /\ top + sh_main s <= sh_n s /\ wf_blocks (sh_n s) (sh_main s) (sh_kind s) b
  end.
(** The permutation of the rows and columns of the 3x3 blocks. *)
Definition perm (top nq i : Z) : Z := if i <? top then i + nq else if i <? top + nq then i - top else i.
Lemma adjust_perm top nq i n : 0 <= i < n -> 0 <= top -> 0 <= nq -> top + nq <= n -> n < 2 ^ 61 -> adjust_index top nq i = perm top nq i.
Proof.
  intros. unfold adjust_index, perm, u64_add, u64_sub. rewrite (u64_id (top + nq)) by lia.
  destruct (i <? top) eqn:E1; [rewrite u64_id; lia|]. destruct (i <? top + nq) eqn:E2; [rewrite u64_id; lia | reflexivity].
Qed.
Lemma perm_range top nq i n : 0 <= i < n -> 0 <= top -> 0 <= nq -> top + nq <= n -> 0 <= perm top nq i < n.
Proof. intros. unfold perm. destruct (i <? top) eqn:E1; [lia|]. destruct (i <? top + nq) eqn:E2; lia. Qed.
Lemma perm_cases top nq a : 0 <= nq -> (a < top /\ perm top nq a = a + nq) \/ (top <= a < top + nq /\ perm top nq a = a - top) \/ (top + nq <= a /\ top <= a /\ perm top nq a = a).
Proof. intros. unfold perm. destruct (a <? top) eqn:E1; [lia|]. destruct (a <? top + nq) eqn:E2; lia. Qed.
Ltac pcases nq a := let H := fresh in let E := fresh in
  match goal with T : sh_top _ = ?top |- _ => destruct (perm_cases top nq a ltac:(lia)) as [[H E] | [[H E] | [? [H E]]]]; rewrite ?E in * end.
Definition prob_at (s : shape) (p : problem A) (i j : Z) : num :=
  match p with
  | Elementary e => elem_at e i j
  | Blocks2 b => blocks_at (sh_main s) b i j
  | Blocks3 top b => blocks_at (sh_main s) b (perm top (sh_main s) i) (perm top (sh_main s) j)
  end.
Lemma get_element_at s p i j : wf_prob s p -> 0 <= i < sh_n s -> 0 <= j < sh_n s -> get_element A p i j = Ok (prob_at s p i j).
Proof.
  intros W Hi Hj. destruct p as [e | b | top b]; cbn [get_element prob_at wf_prob] in *.
  - apply (elem_get_at (sh_n s) (sh_kind s)); tauto.
  - destruct W as [_ W]. apply (blocks_get_at (sh_n s) _ (sh_kind s)); tauto.
  - destruct W as (Ht & H0 & H1 & W). pose proof W as W'. destruct W as (Hq & Hn & Hs & W1 & _). rewrite (wf_size _ _ _ W1).
    rewrite !(adjust_perm _ _ _ (sh_n s)) by lia. apply (blocks_get_at (sh_n s) _ (sh_kind s)); [exact W' | |]; apply perm_range; lia.
Qed.

Lemma set_element_at s p i j v : wf_prob s p -> 0 <= i < sh_n s -> 0 <= j < sh_n s -> (in_shape s i j = false -> small v) ->
  exists p', set_element A p i j v = Ok p' /\ wf_prob s p' /\
    forall i' j', 0 <= i' < sh_n s -> 0 <= j' < sh_n s ->
      prob_at s p' i' j' = if in_shape s i' j' && same_entry s i j i' j' then v else prob_at s p i' j'.
Proof.
  intros W Hi Hj Hv. destruct p as [e | b | top b]; cbn [set_element wf_prob] in *.
  - destruct W as (Ht & Hm & W).
    assert (Hin : forall i j, 0 <= i < sh_n s -> 0 <= j < sh_n s -> in_shape s i j = kin (sh_kind s) i j).
    { intros a c Ha Hc. unfold in_shape, in_main. rewrite Ht, Hm. replace ((_ && _) && _) with true by lia. destruct (sh_kind s); reflexivity. }
    destruct (elem_set_at _ _ e i j v W Hi Hj) as (e' & E & W' & G). { rewrite <- Hin by lia. exact Hv. }
    rewrite E. cbn [rbind]. eexists. split; [reflexivity|]. split; [cbn; tauto|]. intros i' j' Hi' Hj'. cbn [prob_at].
    rewrite G, Hin by lia. apply if_eq. unfold same_entry, ksame, in_main. rewrite Ht, Hm.
    destruct (sh_kind s); cbn [kin]; lia.
  - destruct W as (Ht & W). pose proof W as (Hq & _).
    assert (Hin : forall i j, 0 <= i < sh_n s -> 0 <= j < sh_n s -> in_shape s i j = if (i <? sh_main s) && (j <? sh_main s) then kin (sh_kind s) i j else true).
    { intros a c Ha Hc. unfold in_shape, in_main. rewrite Ht. replace ((_ && _) && _) with ((a <? sh_main s) && (c <? sh_main s)) by lia.
      destruct (_ && _); [|reflexivity]. destruct (sh_kind s); reflexivity. }
    destruct (blocks_set_at _ _ _ b i j v W Hi Hj) as (e' & E & W' & G).
    { intros I1 I2 I3. apply Hv. rewrite Hin by lia. replace (_ && _) with true by lia. exact I3. }
    rewrite E. cbn [rbind]. eexists. split; [reflexivity|]. split; [cbn; tauto|]. intros i' j' Hi' Hj'. cbn [prob_at].
    rewrite G, Hin by lia. unfold same_entry, ksame, in_main. rewrite Ht.
    destruct ((i <? sh_main s) && (j <? sh_main s)) eqn:E1; destruct ((i' <? sh_main s) && (j' <? sh_main s)) eqn:E2;
      apply if_eq; destruct (sh_kind s); cbn [kin]; lia.
  - destruct W as (Ht & H0 & H1 & W). pose proof W as (Hq & Hn & Hs & W1 & _). rewrite (wf_size _ _ _ W1).
    rewrite !(adjust_perm _ _ _ (sh_n s)) by lia.
    assert (Hin : forall i j, 0 <= i < sh_n s -> 0 <= j < sh_n s -> in_shape s i j =
      if (perm top (sh_main s) i <? sh_main s) && (perm top (sh_main s) j <? sh_main s)
      then kin (sh_kind s) (perm top (sh_main s) i) (perm top (sh_main s) j) else true).
    { intros a c Ha Hc. unfold in_shape, in_main. rewrite Ht. pcases (sh_main s) a; pcases (sh_main s) c; destruct (sh_kind s); unfold kin; cases_lia. }
    destruct (blocks_set_at _ _ _ b (perm top (sh_main s) i) (perm top (sh_main s) j) v W) as (e' & E & W' & G);
      [apply perm_range; lia | apply perm_range; lia | |].
    { intros I1 I2 I3. apply Hv. rewrite Hin by lia. replace (_ && _) with true by lia. exact I3. }
    rewrite E. cbn [rbind]. eexists. split; [reflexivity|]. split; [cbn; tauto|]. intros i' j' Hi' Hj'. cbn [prob_at].
    rewrite G by (apply perm_range; lia). rewrite Hin by lia. unfold same_entry, ksame, in_main. rewrite Ht.
    assert (Hinj : forall a b, 0 <= a < sh_n s -> 0 <= b < sh_n s -> (perm top (sh_main s) a =? perm top (sh_main s) b) = (a =? b)).
    { intros a c Ha Hc. pcases (sh_main s) a; pcases (sh_main s) c; lia. }
    rewrite !Hinj by lia.
    assert (Hmain : forall a, 0 <= a < sh_n s -> (perm top (sh_main s) a <? sh_main s) = ((top <=? a) && (a <? top + sh_main s))).
    { intros a Ha. pcases (sh_main s) a; lia. }
    rewrite !Hmain by lia.
    assert (Hk : forall a b c d, 0 <= a < sh_n s -> 0 <= b < sh_n s -> 0 <= c < sh_n s -> 0 <= d < sh_n s ->
      ksame (sh_kind s) a b c d = true -> kin (sh_kind s) (perm top (sh_main s) a) (perm top (sh_main s) b)
         = kin (sh_kind s) (perm top (sh_main s) c) (perm top (sh_main s) d)).
    { intros a c d f. unfold ksame. intros Ha Hc Hd Hf HH.
      assert ((a = d /\ c = f) \/ (exists kd, sh_kind s = Symmetric kd) /\ a = f /\ c = d) as [[-> ->] | [[kd ->] [-> ->]]].
      { destruct (sh_kind s); try (left; lia). destruct ((a =? d) && (c =? f)) eqn:EE; [left; lia | right]. split; [eauto | lia]. }
      - reflexivity.
      - cbn [kin]. lia. }
    specialize (Hk i j i' j' Hi Hj Hi' Hj'). unfold ksame in Hk.
    clear G Hin E Hv. revert Hk.
    generalize dependent (kin (sh_kind s) (perm top (sh_main s) i) (perm top (sh_main s) j)).
    generalize dependent (kin (sh_kind s) (perm top (sh_main s) i') (perm top (sh_main s) j')).
    intros c1 c2 Hk.
    destruct (((top <=? i) && (i <? top + sh_main s)) && ((top <=? j) && (j <? top + sh_main s))) eqn:E1;
    destruct (((top <=? i') && (i' <? top + sh_main s)) && ((top <=? j') && (j' <? top + sh_main s))) eqn:E2; cbv beta iota;
      apply if_eq; destruct (sh_kind s); try lia.
Qed.
Lemma prob_at_out s p i j : wf_prob s p -> 0 <= i < sh_n s -> 0 <= j < sh_n s -> in_shape s i j = false -> prob_at s p i j = nofz A 0.
Proof.
  intros W Hi Hj H. unfold in_shape, in_main in H. destruct (_ && _) eqn:E in H; [|discriminate].
  assert (K : kin (sh_kind s) i j = false) by (destruct (sh_kind s); exact H).
  destruct p as [e | b | top b]; cbn [wf_prob prob_at] in *.
  - apply (elem_at_out (sh_n s) (sh_kind s)); tauto.
  - destruct W as (Ht & W). pose proof W as (Hq & Hn & Hs & W1 & _). unfold blocks_at.
    replace (_ && _) with true by lia. apply (elem_at_out (sh_main s) (sh_kind s)); tauto.
  - destruct W as (Ht & H0 & H1 & W). pose proof W as (Hq & Hn & Hs & W1 & _). unfold blocks_at.
    assert (Hp : forall a, (sh_top s <=? a) && (a <? sh_top s + sh_main s) = true -> perm top (sh_main s) a = a - top) by (intros a Ha; pcases (sh_main s) a; lia).
    rewrite !Hp by lia.
    replace (_ && _) with true by lia. apply (elem_at_out (sh_main s) (sh_kind s)); [exact W1|].
    destruct (sh_kind s); cbn [kin] in *; lia.
Qed.

(** Histories. *)
Definition valid_history (s : shape) (h : list (Z * Z * num)) : Prop :=
  Forall (fun '(i, j, v) => 0 <= i < sh_n s /\ 0 <= j < sh_n s /\ (in_shape s i j = false -> small v)) h.
Lemma set_all_at s p h : wf_prob s p -> (forall i j, 0 <= i < sh_n s -> 0 <= j < sh_n s -> prob_at s p i j = nofz A 0) ->
  valid_history s h ->
  exists p', set_all A p h = Ok p' /\ wf_prob s p' /\
    forall i j, 0 <= i < sh_n s -> 0 <= j < sh_n s -> get_element A p' i j = Ok (kept (nofz A 0) s h i j).
Proof.
  intros W Hz V.
  assert (G : exists p', set_all A p h = Ok p' /\ wf_prob s p' /\
    forall i j, 0 <= i < sh_n s -> 0 <= j < sh_n s -> prob_at s p' i j = kept (nofz A 0) s h i j).
  { induction h as [| [[k l] v] h IH] using rev_ind.
    - exists p. split; [reflexivity|]. split; [exact W|]. intros i j Hi Hj. rewrite Hz by lia. unfold kept, last_value. cbn. now destruct (in_shape s i j).
    - apply Forall_app in V. destruct V as [V1 V2]. apply Forall_inv in V2. cbv beta iota in V2. destruct V2 as (Hk & Hl & Hv).
      destruct (IH V1) as (p1 & E1 & W1 & G1). clear IH.
      destruct (set_element_at s p1 k l v W1 Hk Hl Hv) as (p2 & E2 & W2 & G2).
      exists p2. split. { unfold set_all in *. rewrite fold_left_app, E1. exact E2. }
      split; [exact W2|]. intros i j Hi Hj. rewrite G2, G1 by lia. unfold kept, last_value. rewrite rev_app_distr. cbn [rev app find].
      destruct (in_shape s i j); cbn [andb]; [|reflexivity]. destruct (same_entry s k l i j); reflexivity. }
  destruct G as (p' & E & W' & G). exists p'. split; [exact E|]. split; [exact W'|]. intros i j Hi Hj. rewrite (get_element_at s) by assumption.
  now rewrite G.
Qed.

(** New problems. *)
Definition zero_prob (s : shape) (p : problem A) : Prop :=
  wf_prob s p /\ forall i j, 0 <= i < sh_n s -> 0 <= j < sh_n s -> prob_at s p i j = nofz A 0.
Definition zero_elem (n : Z) (k : kind) (e : elementary A) : Prop :=
  wf_elem n k e /\ forall i j, elem_at e i j = nofz A 0.
Definition plain (n : Z) (k : kind) : shape := mk_shape n 0 n k.
Lemma zero_elem_prob n k e : zero_elem n k e -> zero_prob (plain n k) (Elementary e).
Proof. intros [W H]. split; [cbn; tauto|]. intros. apply H. Qed.
Lemma new_dense_zero n : 0 <= n < 2 ^ 61 -> exists e, new_dense A n = Ok e /\ zero_elem n General e.
Proof. intros H. eexists. split; [reflexivity|]. split; [split; [lia | cbn; auto] | reflexivity]. Qed.
Lemma new_sparse_zero n : 0 <= n < 2 ^ 61 -> exists e, new_sparse A n = Ok e /\ zero_elem n General e.
Proof. intros H. eexists. split; [reflexivity|]. split; [split; [lia | cbn; auto] | reflexivity]. Qed.
Lemma int_ok z : - 2 ^ 31 <= z < 2 ^ 31 -> int_ z = Ok z.
Proof. intros H. unfold int_. replace (_ && _) with true by lia. reflexivity. Qed.
Lemma make_new_band_zero n kl ku pds : 0 <= n < 2 ^ 31 -> 0 <= kl -> 0 <= ku -> 2 * kl + ku + 1 < 2 ^ 31 ->
  (pds = true -> kl = ku -> kl = 1 \/ kl < n) ->
  exists e, make_new_band A n kl ku pds = Ok e /\ zero_elem n (band_kind n kl ku pds) e.
Proof.
  intros Hn Hl Hu Hb Hp. unfold make_new_band, band_kind. rewrite (u64_id n) by lia.
  destruct ((kl =? ku) && (kl =? 1) && pds) eqn:E1.
  { replace (pds && (kl =? ku)) with true by lia. eexists. split; [reflexivity|]. split.
    - split; [lia|]. cbn [new_pds_tridiag a2_n a2_m zero2]. repeat split; lia.
    - intros i j. cbn. now destruct (_ <? 2). }
  destruct ((kl =? ku) && pds) eqn:E2.
  { replace (pds && (kl =? ku)) with true by lia. unfold new_pds_band, u64_add, assert_. rewrite (u64_id kl), (u64_id (kl + 1)) by lia.
    assert (pds = true /\ kl = ku) as [I1 I2] by lia. destruct (Hp I1 I2) as [-> | Hk]; [lia|].
    replace (kl + 1 <=? n) with true by lia. eexists. split; [reflexivity|]. split.
    - split; [lia|]. cbn [a2_n a2_m zero2]. repeat split; lia.
    - intros i j. cbn. now destruct (_ <? _). }
  replace (pds && (kl =? ku)) with false by lia.
  rewrite (int_ok (2 * kl)) by lia. cbn [rbind]. rewrite (int_ok (2 * kl + ku)) by lia. cbn [rbind]. rewrite (int_ok (2 * kl + ku + 1)) by lia. cbn [rbind].
  destruct (n <=? 2 * kl + ku + 1) eqn:E3. { apply new_dense_zero. lia. }
  unfold new_band, u64_add, u64_mul, assert_. rewrite (u64_id kl), (u64_id ku), (u64_id (2 * kl)), (u64_id (2 * kl + ku)), (u64_id (2 * kl + ku + 1)) by lia.
  replace (_ && _) with true by lia. eexists. split; [reflexivity|]. split.
  - split; [lia|]. cbn [a2_n a2_m zero2]. repeat split; lia.
  - intros i j. cbn [elem_at a2_at zero2]. now destruct (kin _ _ _).
Qed.
Lemma new_blocks_zero n nq k e : 0 <= nq <= n -> n < 2 ^ 61 -> zero_elem nq k e ->
  exists b, new_blocks A n e = Ok b /\ wf_blocks n nq k b /\ forall i j, blocks_at nq b i j = nofz A 0.
Proof.
  intros Hq Hn [W Hz]. unfold new_blocks, u64_sub, assert_, new_dense. rewrite (wf_size _ _ _ W). rewrite u64_id by lia. cbn [rbind].
  replace (nq <=? n) with true by lia. eexists. split; [reflexivity|]. split.
  - unfold wf_blocks. cbn [bk_size bk_top_left bk_top_right bk_bottom_left bk_bottom_right a2_n a2_m zero2].
    do 2 (split; [lia|]). split; [reflexivity|]. split; [exact W|]. do 4 (split; [reflexivity|]). split; [lia|]. cbn. split; reflexivity.
  - intros i j. unfold blocks_at. cbn [bk_top_left bk_top_right bk_bottom_left bk_bottom_right elem_at a2_at zero2]. rewrite Hz. destruct ((i <? nq) && (j <? nq)); [reflexivity|]. destruct ((nq <=? i) && (nq <=? j)); [reflexivity|]. now destruct (nq <=? j).
Qed.
Lemma make_new_block_zero n kl ku pds bottom top : 0 <= top -> 0 <= bottom -> top + bottom <= n -> n < 2 ^ 31 ->
  0 <= kl -> 0 <= ku -> 2 * kl + ku + 1 < 2 ^ 31 -> (pds = true -> kl = ku -> kl = 1 \/ kl < n - top - bottom) ->
  exists p, make_new_block_matrix A n kl ku pds bottom top = Ok p /\
    zero_prob (mk_shape n top (n - top - bottom) (band_kind (n - top - bottom) kl ku pds)) p.
Proof.
  intros Ht Hb Hn Hm Hl Hu Hk Hp. unfold make_new_block_matrix.
  rewrite (int_ok (n - top)) by lia. cbn [rbind]. rewrite (int_ok (n - top - bottom)) by lia. cbn [rbind].
  destruct (make_new_band_zero (n - top - bottom) kl ku pds ltac:(lia) Hl Hu Hk Hp) as (e & E & Zz). rewrite E. cbn [rbind].
  rewrite (u64_id n), (u64_id top) by lia.
  destruct (new_blocks_zero n (n - top - bottom) _ e ltac:(lia) ltac:(lia) Zz) as (b & Eb & W & Hz). rewrite Eb. cbn [rbind].
  eexists. split; [reflexivity|]. destruct (top =? 0) eqn:E0; (split; [cbn; repeat split; try lia; apply W | intros i j _ _; cbn; apply Hz]).
Qed.
Lemma make_periodic_zero n kl ku pds : 0 <= kl < n -> 0 <= ku < n -> n * n < 2 ^ 31 -> periodic_storage n kl ku < 2 ^ 31 ->
  (pds = true -> kl = ku -> kl = 1 \/ kl < n - kl \/ n * n <= periodic_storage n kl ku) ->
  exists p, make_new_periodic_band_matrix A n kl ku pds = Ok p /\ zero_prob (periodic_shape n kl ku pds) p.
Proof.
  intros Hl Hu Hn Hs Hp. unfold make_new_periodic_band_matrix, periodic_shape, assert_.
  unfold periodic_storage in *. cbv zeta in *. set (b := Z.max kl ku) in *. set (t := n - b) in *.
  assert (Hb : 0 <= b < n) by (unfold b; lia). assert (Ht : 0 < t <= n) by (unfold t; lia).
  assert (H2 : n <= n * n) by (clear -Hl; nia).
  assert (H3 : 0 <= b * (n + t)) by (apply Z.mul_nonneg_nonneg; lia).
  assert (H4 : 2 * kl + ku + 1 <= (2 * kl + ku + 1) * t).
  { rewrite <- (Z.mul_1_r (2 * kl + ku + 1)) at 1. apply Z.mul_le_mono_nonneg_l; lia. }
  assert (H5 : 2 * kl + ku + 1 < 2 ^ 31) by lia.
  assert (H6 : n + t < 2 ^ 31). { destruct (Z.eq_dec n 1); [lia|]. assert (2 * n <= n * n) by (apply Z.mul_le_mono_nonneg_r; clear -Hl n0; lia). clear -H Hn Ht. lia. }
  replace ((kl <? n) && (ku <? n)) with true by lia.
  assert (H7 : n < 2 ^ 31) by lia.
  assert (Hblock : n * n <= b * (n + t) + (2 * kl + ku + 1) * t \/ exists p, make_new_block_matrix A n kl ku pds b 0 = Ok p /\
    zero_prob (mk_shape n 0 t (band_kind t kl ku pds)) p).
  { clear -Hp Hl Hu Hb Ht H7 H5. revert Hp. generalize (n * n). generalize (b * (n + t) + (2 * kl + ku + 1) * t). intros x y Hp.
    destruct (Z_le_gt_dec y x) as [I | I]; [left; exact I | right].
    destruct (make_new_block_zero n kl ku pds b 0 ltac:(lia) ltac:(lia) ltac:(lia) ltac:(lia) ltac:(lia) ltac:(lia) ltac:(lia)) as (p & Ep & Zp).
    { intros I1 I2. destruct (Hp I1 I2) as [I3 | [I3 | I3]]; [left; exact I3 | right; unfold t, b; lia | lia]. }
    exists p. split; [exact Ep|]. rewrite Z.sub_0_r in Zp. exact Zp. }
  assert (K : int_ (b * (n + t)) = Ok (b * (n + t)) /\ int_ ((2 * kl + ku + 1) * t) = Ok ((2 * kl + ku + 1) * t) /\
              int_ (b * (n + t) + (2 * kl + ku + 1) * t) = Ok (b * (n + t) + (2 * kl + ku + 1) * t) /\ int_ (n * n) = Ok (n * n)).
  { clear -Hn Hs H2 H3 H4 Hl Hu. revert Hn Hs H2 H3 H4. generalize (n * n). generalize (b * (n + t)). generalize ((2 * kl + ku + 1) * t).
    intros x y z Hn Hs H2 H3 H4. rewrite !int_ok by lia. tauto. }
  destruct K as (K1 & K2 & K3 & K4).
  rewrite (int_ok t) by (clear -Ht H7; lia). cbn [rbind]. rewrite (int_ok (n + t)) by (clear -Ht H6; lia). cbn [rbind]. rewrite K1. cbn [rbind].
  rewrite (int_ok (2 * kl)) by (clear -Hl Hu H5; lia). cbn [rbind]. rewrite (int_ok (2 * kl + ku)) by (clear -Hl Hu H5; lia). cbn [rbind].
  rewrite (int_ok (2 * kl + ku + 1)) by (clear -Hl Hu H5; lia). cbn [rbind].
  rewrite K2. cbn [rbind]. rewrite K3. cbn [rbind]. rewrite K4. cbn [rbind].
  destruct (n * n <=? _) eqn:E.
  { rewrite (u64_id n) by (clear -Hl H7; lia). eexists. split; [reflexivity|]. apply (zero_elem_prob n General).
    split; [split; [clear -Hl H7; lia | cbn; auto] | reflexivity]. }
  destruct Hblock as [I | Hblock]; [|exact Hblock]. apply Z.leb_nle in E. contradiction.
Qed.
End P.
