(** Proofs for C40: the chunks of right-hand sides given to the iterative solver. *)
From Coq Require Import List Lia.
From Verif Require Import MachineProofs LinearModel LinearSpec LoopProofs LinearProofs.
From Coq Require Import ZifyBool.
Import ListNotations.
Local Open Scope Z_scope.

Lemma consecutive_app lo mid hi l : consecutive lo mid l -> mid < hi -> consecutive lo hi (l ++ [(mid, hi)]).
Proof.
  revert lo. induction l as [|[a b] l IH]; intros lo H Hlt; cbn [consecutive app] in *.
  - subst. split; [reflexivity|]. split; [exact Hlt | reflexivity].
  - destruct H as (-> & H1 & H2). split; [reflexivity|]. split; [exact H1|]. now apply IH.
Qed.
Lemma ceil_spec c m : 1 <= m -> 1 <= c -> let q := (c + m - 1) / m in 1 <= q /\ (q - 1) * m < c <= q * m.
Proof.
  intros Hm Hc q. pose proof (Z.div_mod (c + m - 1) m ltac:(lia)). pose proof (Z.mod_pos_bound (c + m - 1) m ltac:(lia)). fold q in H. nia.
Qed.

Section C.
Context (A : arith).
Notation num := (num A).
Definition respects (P : (Z -> num) -> (Z -> num) -> Prop) : Prop :=
  forall u u' v v', (forall i, u i = u' i) -> (forall i, v i = v' i) -> P u v -> P u' v'.
Lemma sparse_solve_ok (apply : arr2 num -> res (arr2 num)) (P : (Z -> num) -> (Z -> num) -> Prop) limit (b : arr2 num) :
  respects P -> 1 <= a2_m b < 2 ^ 63 -> 1 <= limit ->
  (forall c, a2_n c = a2_n b -> 1 <= a2_m c <= limit ->
     exists x, apply c = Ok x /\ a2_m x = a2_m c /\ forall k, 0 <= k < a2_m c -> P (fun i => a2_at c i k) (fun i => a2_at x i k)) ->
  exists x chunks, sparse_solve A apply (a2_n b) limit b = Ok (x, chunks) /\
    a2_n x = a2_n b /\ a2_m x = a2_m b /\
    consecutive 0 (a2_m b) chunks /\ Forall (fun '(lo, hi) => hi - lo <= limit) chunks /\
    forall k, 0 <= k < a2_m b -> P (fun i => a2_at b i k) (fun i => a2_at x i k).
Proof.
  intros HP Hc Hl HA. unfold sparse_solve, assert_. rewrite Z.eqb_refl. set (m := Z.min limit (a2_m b)). assert (Hm : 1 <= m <= a2_m b) by lia.
  replace (m =? 0) with false by lia. unfold u64_sub, u64_add. rewrite (u64_id (a2_m b + m)) by lia. rewrite (u64_id (a2_m b + m - 1)) by lia.
  destruct (ceil_spec (a2_m b) m ltac:(lia) ltac:(lia)) as (Q1 & Q2). set (q := (a2_m b + m - 1) / m) in *. clearbody q.
  assert (Hq : q <= a2_m b) by nia.
  match goal with |- context [for_range 0 q ?f _] => set (body := f) end.
  destruct (for_range_inv (fun i (st : arr2 num * list (Z * Z)) => let lo := if i =? q then a2_m b else i * m in
      a2_n (fst st) = a2_n b /\ a2_m (fst st) = a2_m b /\ consecutive 0 lo (snd st) /\ Forall (fun '(l, h) => h - l <= limit) (snd st) /\
      forall k, 0 <= k < a2_m b -> if k <? lo then P (fun i => a2_at b i k) (fun i => a2_at (fst st) i k) else forall i, a2_at (fst st) i k = a2_at b i k)
    body 0 q (b, [])) as ((x & chunks) & E & I); [lia | | |].
  - replace (0 =? q) with false by lia. cbn [fst snd]. split; [reflexivity|]. split; [reflexivity|]. split; [reflexivity|]. split; [constructor|].
    intros k Hk. replace (k <? 0 * m) with false by lia. reflexivity.
  - intros i (t & ch) Hi. cbn [fst snd]. replace (i =? q) with false by lia. intros (T1 & T2 & T3 & T4 & T5). unfold body. clear body.
    assert (Hb : 0 <= i * m /\ i * m < a2_m b) by nia. unfold u64_mul, u64_add. rewrite (u64_id (i * m)) by lia. rewrite (u64_id (i + 1)) by lia.
    rewrite T2. assert (Hi1 : i + 1 <> q -> (i + 1) * m <= (q - 1) * m) by nia. rewrite (u64_id (i * m + m)) by lia.
    set (hi := if i + 1 =? q then a2_m b else i * m + m).
    assert (Hhi : i * m < hi <= a2_m b /\ hi - i * m <= m /\ hi = if i + 1 =? q then a2_m b else (i + 1) * m).
    { unfold hi. destruct (i + 1 =? q) eqn:Eq; [assert (q = i + 1) by lia; subst q; lia | lia]. }
    clearbody hi. destruct Hhi as (H1 & H2 & H3). unfold columns. replace (_ && _) with true by lia. cbn [rbind]. unfold u64_sub. rewrite (u64_id (hi - i * m)) by lia.
    replace (hi - i * m <=? m) with true by lia.
    destruct (HA (mk_arr2 (a2_n t) (hi - i * m) (fun i0 k => a2_at t i0 (i * m + k)))) as (x & E & X1 & X2); [exact T1 | cbn [a2_m]; lia|].
    rewrite E. cbn [rbind]. rewrite X1, Z.eqb_refl. eexists. split; [reflexivity|]. cbn [fst snd]. rewrite <- H3. cbn [put_columns a2_n a2_m a2_at].
    split; [exact T1|]. split; [exact T2|]. split; [apply consecutive_app; [exact T3 | lia]|]. split.
    { apply Forall_app. split; [exact T4|]. constructor; [lia | constructor]. }
    intros k Hk. specialize (T5 k Hk). cbn [a2_m a2_at] in X2. destruct (k <? i * m) eqn:E1.
    + replace (k <? hi) with true by lia. refine (HP _ _ _ _ (fun i => eq_refl) _ T5). intros i0. replace (_ && _) with false by lia. reflexivity.
    + destruct (k <? hi) eqn:E2.
      * specialize (X2 (k - i * m) ltac:(lia)). refine (HP _ _ _ _ _ _ X2).
        -- intros i0. cbv beta. replace (i * m + (k - i * m)) with k by lia. apply T5.
        -- intros i0. replace (_ && _) with true by lia. reflexivity.
      * intros i0. replace (_ && _) with false by lia. apply T5.
  - rewrite E. rewrite Z.eqb_refl in I. cbn [fst snd] in I. destruct I as (I1 & I2 & I3 & I4 & I5).
    exists x, chunks. split; [reflexivity|]. split; [exact I1|]. split; [exact I2|]. split; [exact I3|]. split; [exact I4|].
    intros k Hk. specialize (I5 k Hk). replace (k <? a2_m b) with true in I5 by lia. exact I5.
Qed.
Lemma sparse_solve_zero apply limit (b : arr2 num) : a2_m b = 0 -> 0 <= limit -> sparse_solve A apply (a2_n b) limit b = Undef.
Proof. intros H0 Hl. unfold sparse_solve, assert_. rewrite Z.eqb_refl, H0. replace (Z.min limit 0 =? 0) with true by lia. reflexivity. Qed.
End C.
