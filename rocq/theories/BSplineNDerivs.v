(** The loops of eval_basis_and_n_derivs. *)
From Coq Require Import Bool Reals Lia Lra ZifyBool.
From Verif Require Import BSplineModel BSplineSpec LoopProofs BSplineMath BSplineDeriv BSplineProofs SamplingProofs.
Local Open Scope bool_scope. Local Open Scope Z_scope.

Lemma zsum_extend n n' f : 0 <= n <= n' -> (forall m, n <= m < n' -> f m = 0%R) -> zsum n' f = zsum n f.
Proof.
  intros Hn H. assert (G : forall k, 0 <= k -> n + k <= n' -> zsum (n + k) f = zsum n f).
  { intros k Hk. pattern k. apply natlike_ind; [now rewrite Z.add_0_r | | exact Hk].
    clear k Hk. intros k Hk IH Hk'. replace (n + Z.succ k) with (n + k + 1) by lia. rewrite zsum_S, IH, H by lia. ring. }
  replace n' with (n + (n' - n)) by lia. apply G; lia.
Qed.

Section ND.
Context (p : Z) (factor : arr2 (num RA) -> Z -> Z -> num RA -> res (num RA)) (ndu : arr2 R) (g W : Z -> Z -> R).
Hypothesis Hn : a2_n ndu = p + 1.
Hypothesis Hm : a2_m ndu = p + 1.
Hypothesis HW : forall q m, 0 <= m <= q -> q <= p -> a2_at ndu q m = W q m.
Hypothesis Hf : forall q m y, 0 <= m <= q -> q < p -> factor ndu m q y = Ok (y * g q m : num RA)%R.
Definition D (r : Z) (k : nat) : R := zsum (p - Z.of_nat k + 1) (fun m => coef g p r k m * W (p - Z.of_nat k)%Z m)%R.

Section Step.
Context (r k : Z).
Hypothesis Hr : 0 <= r <= p.
Hypothesis Hk : 1 <= k <= p.
Let q := p - k.
Let rk := r - k.
Let b := coef g p r (Z.to_nat k).
Let b' := coef g p r (Z.to_nat (k - 1)).
Let f m := (b m * W q m)%R.
Lemma b_S m : 0 <= m <= q -> b m = ((b' (m + 1)%Z - b' m) * g q m)%R.
Proof.
  intros H. unfold b, b'. replace (Z.to_nat k) with (S (Z.to_nat (k - 1))) by lia. rewrite coef_S by lia.
  now replace (p - Z.of_nat (S (Z.to_nat (k - 1)))) with q by lia.
Qed.
Lemma b_out m : m < rk \/ r < m -> b m = 0%R.
Proof. intros H. apply coef_support. lia. Qed.
Lemma b'_out m : m < rk + 1 \/ r < m -> b' m = 0%R.
Proof. intros H. apply coef_support. lia. Qed.
Definition col_ok (s0 : Z) (kk lim : Z) (bb : Z -> R) (off : Z) (a : arr2 R) : Prop :=
  forall j, 0 <= j < kk -> 0 <= off + j <= lim -> a2_at a j s0 = bb (off + j).
Lemma nd_step_ok s1 s2 (a dv : arr2 R) :
  (s1 = 0 /\ s2 = 1) \/ (s1 = 1 /\ s2 = 0) -> a2_n a = p + 1 -> a2_m a = 2 ->
  col_ok s1 k (q + 1) b' (rk + 1) a -> a2_n dv = p + 1 -> k < a2_m dv ->
  exists a', nd_step RA p factor ndu r k (s1, s2, a, dv) =
      Ok (s2, s1, a', mk_arr2 (a2_n dv) (a2_m dv) (upd2 (a2_at dv) r k (D r (Z.to_nat k)))) /\
    a2_n a' = p + 1 /\ a2_m a' = 2 /\ col_ok s2 (k + 1) q b rk a'.
Proof.
  intros Hs Na Ma Hc Nd Md. unfold nd_step. fold q rk. change (num RA) with R in *.
  (* first entry *)
  assert (P1 : exists d1 a1,
    nd_first RA factor ndu s1 s2 r k q rk a = Ok (d1, a1) /\ a2_n a1 = p + 1 /\ a2_m a1 = 2 /\
    (forall j, a2_at a1 j s1 = a2_at a j s1) /\
    d1 = zsum (Z.max 0 (rk + 1)) f /\ (0 <= rk -> a2_at a1 0 s2 = b rk)).
  { unfold nd_first. destruct (k <=? r) eqn:Ekr.
    - rewrite (aget2_ok a) by lia. cbn [rbind]. rewrite Hf by lia. cbn [rbind]. change (num RA) with R in *.
      rewrite (aset2_ok a) by lia. cbn [rbind]. rewrite aget2_ok by (cbn [a2_n a2_m]; lia). cbn [rbind].
      rewrite (aget2_ok ndu) by lia. cbn [rbind]. cbn [a2_at]. rewrite upd2_eq. rewrite HW by lia.
      eexists _, _. split; [reflexivity|]. cbn [a2_n a2_m a2_at].
      assert (Eb : (a2_at a 0 s1 * g q rk = b rk)%R).
      { rewrite (Hc 0) by lia. rewrite b_S by lia. rewrite (b'_out rk) by lia. rewrite Z.add_0_r. ring. }
      split; [exact Na|]. split; [exact Ma|]. split; [intros; apply upd2_neq; lia|]. split.
      + rewrite Z.max_r by lia. rewrite zsum_S by lia. rewrite zsum_zero. { cbn [nmul RA]. rewrite Eb. unfold f. ring. }
        intros m Hm'. unfold f. rewrite b_out by lia. ring.
      + intros _. rewrite upd2_eq. exact Eb.
    - eexists _, _. split; [reflexivity|]. split; [exact Na|]. split; [exact Ma|]. split; [reflexivity|].
      split; [rewrite Z.max_l by lia; reflexivity | lia]. }
  destruct P1 as (d1 & a1 & E1 & Na1 & Ma1 & H1 & Hd1 & H10). rewrite E1. cbn [rbind]. clear E1.
  set (j1 := if -1 <? rk then 1 else - rk). set (j2 := if r - 1 <=? q then k else p - r + 1).
  assert (Hj1 : rk + j1 = Z.max 0 (rk + 1)) by (unfold j1; destruct (-1 <? rk) eqn:E; lia).
  assert (Hj12 : 1 <= j1 <= j2) by (unfold j1, j2; destruct (-1 <? rk) eqn:E, (r - 1 <=? q) eqn:E'; lia).
  assert (Hj2 : j2 <= k /\ rk + j2 <= q + 1) by (unfold j2; destruct (r - 1 <=? q) eqn:E'; lia).
  (* middle entries *)
  destruct (for_range_inv
    (fun j (st : num RA * arr2 (num RA)) => fst st = zsum (rk + j) f /\ a2_n (snd st) = p + 1 /\ a2_m (snd st) = 2 /\
       (forall i, a2_at (snd st) i s1 = a2_at a i s1) /\ (forall i, 0 <= i < j -> 0 <= rk + i -> a2_at (snd st) i s2 = b (rk + i)))
    (nd_inner RA factor ndu s1 s2 q rk) j1 j2 (d1, a1)) as ((d2 & a2) & E2 & G1 & G2 & G3 & G4 & G5).
  - lia.
  - cbn [fst snd]. split; [rewrite Hj1; exact Hd1|]. split; [exact Na1|]. split; [exact Ma1|]. split; [exact H1|].
    intros i Hi Hi'. replace i with 0 in * by lia. rewrite Z.add_0_r in *. now apply H10.
  - intros j (d0, a0) Hj (G1 & G2 & G3 & G4 & G5). change (num RA) with R in *. cbn [fst snd] in *. unfold nd_inner.
    rewrite (aget2_ok a0) by lia. cbn [rbind]. rewrite (aget2_ok a0) by lia. cbn [rbind]. rewrite Hf by lia. cbn [rbind].
    change (num RA) with R in *. rewrite (aset2_ok a0) by lia. cbn [rbind]. rewrite (aget2_ok ndu) by lia. cbn [rbind].
    rewrite aget2_ok by (cbn [a2_n a2_m]; lia). cbn [rbind a2_at]. rewrite upd2_eq. rewrite (HW q) by lia.
    eexists. split; [reflexivity|]. cbn [fst snd a2_n a2_m a2_at nadd nsub nmul RA].
    rewrite !G4. rewrite (Hc j), (Hc (j - 1)) by lia.
    replace (rk + 1 + j) with (rk + j + 1) by ring. replace (rk + 1 + (j - 1)) with (rk + j) by ring.
    rewrite <- b_S by lia.
    split; [rewrite Z.add_assoc, zsum_S by lia; rewrite G1; reflexivity|]. split; [exact G2|]. split; [exact G3|]. split.
    + intros i. rewrite upd2_neq by lia. apply G4.
    + intros i Hi Hi'. destruct (Z.eq_dec i j) as [->|]; [apply upd2_eq | rewrite upd2_neq by lia; apply G5; lia].
  - cbn [fst snd] in *. change (num RA) with R in *. rewrite E2. cbn [rbind]. clear E2.
    (* last entry *)
    assert (P3 : exists d3 a3,
      nd_last RA factor ndu s1 s2 r k q d2 a2 = Ok (d3, a3) /\ a2_n a3 = p + 1 /\ a2_m a3 = 2 /\ d3 = zsum (q + 1) f /\ col_ok s2 (k + 1) q b rk a3).
    { unfold nd_last. destruct (r <=? q) eqn:Erq.
      - assert (E2 : j2 = k) by (unfold j2; destruct (r - 1 <=? q) eqn:E'; lia).
        rewrite (aget2_ok a2) by lia. cbn [rbind]. rewrite Hf by lia. cbn [rbind]. change (num RA) with R in *.
        rewrite (aset2_ok a2) by lia. cbn [rbind]. rewrite aget2_ok by (cbn [a2_n a2_m]; lia). cbn [rbind].
        rewrite (aget2_ok ndu) by lia. cbn [rbind]. cbn [a2_at]. rewrite upd2_eq. rewrite HW by lia.
        eexists _, _. split; [reflexivity|]. cbn [a2_n a2_m a2_at nadd nmul nopp RA].
        assert (Eb : (- a2_at a2 (k - 1) s1 * g q r = b r)%R).
        { rewrite G4, (Hc (k - 1)) by lia. rewrite b_S by lia. rewrite (b'_out (r + 1)) by lia.
          replace (rk + 1 + (k - 1)) with r by lia. ring. }
        split; [exact G2|]. split; [exact G3|]. split.
        + rewrite Eb, G1, E2. replace (rk + k) with r by lia. rewrite (zsum_extend (r + 1) (q + 1)); [|lia|].
          * rewrite zsum_S by lia. reflexivity.
          * intros m Hm'. unfold f. rewrite b_out by lia. ring.
        + intros j Hj Hj'. cbn [a2_at]. destruct (Z.eq_dec j k) as [->|].
          * rewrite upd2_eq, Eb. f_equal. lia.
          * rewrite upd2_neq by lia. apply G5; lia.
      - eexists _, _. split; [reflexivity|]. split; [exact G2|]. split; [exact G3|].
        assert (E2 : rk + j2 = q + 1) by (unfold j2; destruct (r - 1 <=? q) eqn:E'; lia).
        split; [rewrite G1, E2; reflexivity|]. intros j Hj Hj'. apply G5; lia. }
    destruct P3 as (d3 & a3 & E3 & Na3 & Ma3 & Hd3 & Hc3). rewrite E3. cbn [rbind]. rewrite (aset2_ok dv) by lia. cbn [rbind].
    exists a3. split; [|split; [exact Na3 | split; [exact Ma3 | exact Hc3]]].
    rewrite Hd3. unfold D. replace (p - Z.of_nat (Z.to_nat k)) with q by lia. reflexivity.
Qed.
End Step.

Lemma nd_row_ok (n r : Z) (a dv : arr2 R) : 0 <= r <= p -> 0 <= n <= p -> a2_n a = p + 1 -> a2_m a = 2 -> a2_at a 0 0 = 1%R ->
  a2_n dv = p + 1 -> a2_m dv = n + 1 ->
  exists s1 s2 a' dv', for_range 1 (n + 1) (nd_step RA p factor ndu r) (0, 1, a, dv) = Ok (s1, s2, a', dv') /\
    a2_n a' = p + 1 /\ a2_m a' = 2 /\ a2_n dv' = p + 1 /\ a2_m dv' = n + 1 /\
    (forall k, 1 <= k <= n -> a2_at dv' r k = D r (Z.to_nat k)) /\
    (forall i k, i <> r \/ k < 1 -> a2_at dv' i k = a2_at dv i k).
Proof.
  intros Hr Hn' Na Ma Ha Nd Md.
  destruct (for_range_inv
    (fun k (st : Z * Z * arr2 (num RA) * arr2 (num RA)) => let '(s1, s2, a', dv') := st in
      ((s1 = 0 /\ s2 = 1) \/ (s1 = 1 /\ s2 = 0)) /\ a2_n a' = p + 1 /\ a2_m a' = 2 /\
      col_ok s1 k (p - k + 1) (coef g p r (Z.to_nat (k - 1))) (r - k + 1) a' /\ a2_n dv' = p + 1 /\ a2_m dv' = n + 1 /\
      (forall i, 1 <= i < k -> a2_at dv' r i = D r (Z.to_nat i)) /\
      (forall i j, i <> r \/ j < 1 -> a2_at dv' i j = a2_at dv i j))
    (nd_step RA p factor ndu r) 1 (n + 1) (0, 1, a, dv)) as ((((s1 & s2) & a') & dv') & E & H1 & H2 & H3 & H4 & H5 & H6 & H7 & H8).
  - lia.
  - split; [lia|]. split; [exact Na|]. split; [exact Ma|]. split.
    + intros j Hj Hj'. replace j with 0 by lia. rewrite Ha. cbn. destruct (r - 1 + 1 + 0 =? r) eqn:E; [reflexivity | lia].
    + split; [exact Nd|]. split; [exact Md|]. split; [intros; lia | reflexivity].
  - intros k (((s1, s2), a0), dv0) Hk (H1 & H2 & H3 & H4 & H5 & H6 & H7 & H8). change (num RA) with R in *.
    destruct (nd_step_ok r k ltac:(lia) ltac:(lia) s1 s2 a0 dv0 H1 H2 H3 H4 H5 ltac:(lia)) as (a1 & E & N1 & M1 & C1).
    eexists. split; [exact E|]. cbn [a2_n a2_m a2_at]. split; [lia|]. split; [exact N1|]. split; [exact M1|]. split.
    + replace (p - (k + 1) + 1) with (p - k) by ring. replace (k + 1 - 1) with k by ring. replace (r - (k + 1) + 1) with (r - k) by ring. exact C1.
    + split; [exact H5|]. split; [exact H6|]. split.
      * intros i Hi. destruct (Z.eq_dec i k) as [->|]; [apply upd2_eq | rewrite upd2_neq by lia; apply H7; lia].
      * intros i j Hij. rewrite upd2_neq by lia. now apply H8.
  - exists s1, s2, a', dv'. split; [exact E|]. repeat (split; [assumption|]). split; [intros k Hk; apply H7; lia | exact H8].
Qed.

Lemma nd_loop_ok (n : Z) (a dv : arr2 R) : 0 <= n <= p -> a2_n a = p + 1 -> a2_m a = 2 -> a2_n dv = p + 1 -> a2_m dv = n + 1 ->
  exists dv', nd_loop RA p factor ndu a dv n = Ok dv' /\ a2_n dv' = p + 1 /\ a2_m dv' = n + 1 /\
    (forall r k, 0 <= r <= p -> 1 <= k <= n -> a2_at dv' r k = D r (Z.to_nat k)) /\
    (forall r k, k < 1 -> a2_at dv' r k = a2_at dv r k).
Proof.
  intros Hn' Na Ma Nd Md. unfold nd_loop.
  destruct (for_range_inv
    (fun r (st : arr2 (num RA) * arr2 (num RA)) => let '(a', dv') := st in
       a2_n a' = p + 1 /\ a2_m a' = 2 /\ a2_n dv' = p + 1 /\ a2_m dv' = n + 1 /\
       (forall i k, 0 <= i < r -> 1 <= k <= n -> a2_at dv' i k = D i (Z.to_nat k)) /\
       (forall i k, k < 1 -> a2_at dv' i k = a2_at dv i k))
    (fun r st => let '(a, derivs) := st in
      a <- aset2 a 0 0 (nofz RA 1) ;;
      ' (_, _, a, derivs) <- for_range 1 (n + 1) (nd_step RA p factor ndu r) (0, 1, a, derivs) ;;
      Ok (a, derivs)) 0 (p + 1) (a, dv)) as ((a' & dv') & E & H1 & H2 & H3 & H4 & H5 & H6).
  - lia.
  - repeat (split; [assumption|]). split; [intros; lia | reflexivity].
  - intros r (a0, dv0) Hr (H1 & H2 & H3 & H4 & H5 & H6). change (num RA) with R in *. rewrite (aset2_ok a0) by lia. cbn [rbind].
    destruct (nd_row_ok n r (mk_arr2 (a2_n a0) (a2_m a0) (upd2 (a2_at a0) 0 0 1%R)) dv0) as (s1 & s2 & a1 & dv1 & E & K1 & K2 & K3 & K4 & K5 & K6);
      [lia | lia | exact H1 | exact H2 | cbn [a2_at]; apply upd2_eq | exact H3 | exact H4 |].
    change (num RA) with R in *. cbn [nofz RA]. rewrite E. cbn [rbind]. eexists. split; [reflexivity|]. repeat (split; [assumption|]). split.
    + intros i k Hi Hk. destruct (Z.eq_dec i r) as [->|]; [now apply K5 | rewrite K6 by lia; apply H5; lia].
    + intros i k Hk. rewrite K6 by lia. now apply H6.
  - change (num RA) with R in *. rewrite E. cbn [rbind]. exists dv'. split; [reflexivity|]. repeat (split; [assumption|]). split.
    + intros r k Hr Hk. apply H5; lia.
    + exact H6.
Qed.
End ND.

Lemma nd_column0_ok p (ndu dv : arr2 R) : 0 <= p -> a2_n ndu = p + 1 -> a2_m ndu = p + 1 -> a2_n dv = p + 1 -> 1 <= a2_m dv ->
  exists dv', nd_column0 RA p ndu dv = Ok dv' /\ a2_n dv' = a2_n dv /\ a2_m dv' = a2_m dv /\
    (forall i, 0 <= i <= p -> a2_at dv' i 0 = a2_at ndu p i).
Proof.
  intros Hp N1 M1 N2 M2. unfold nd_column0.
  destruct (for_range_inv
    (fun i (dv' : arr2 (num RA)) => a2_n dv' = a2_n dv /\ a2_m dv' = a2_m dv /\ (forall j, 0 <= j < i -> a2_at dv' j 0 = a2_at ndu p j))
    (fun i derivs => v <- aget2 (ndu : arr2 (num RA)) p i ;; aset2 derivs i 0 v) 0 (p + 1) dv) as (dv' & E & H1 & H2 & H3).
  - lia.
  - split; [reflexivity|]. split; [reflexivity | intros; lia].
  - intros i dv0 Hi (H1 & H2 & H3). change (num RA) with R in *. rewrite (aget2_ok ndu) by lia. cbn [rbind]. rewrite (aset2_ok dv0) by lia.
    eexists. split; [reflexivity|]. cbn [a2_n a2_m a2_at]. split; [exact H1|]. split; [exact H2|].
    intros j Hj. destruct (Z.eq_dec j i) as [->|]; [apply upd2_eq | rewrite upd2_neq by lia; apply H3; lia].
  - change (num RA) with R in *. exists dv'. split; [exact E|]. split; [exact H1|]. split; [exact H2|]. intros i Hi. apply H3. lia.
Qed.
(** Multiplication of a column by a factor. *)
Lemma scale_column (dv : arr2 R) k (fct : R) : 0 <= k < a2_m dv -> 0 <= a2_n dv ->
  exists dv', for_range 0 (a2_n dv) (fun i (derivs : arr2 (num RA)) => v <- aget2 derivs i k ;; aset2 derivs i k (nmul RA v fct)) dv = Ok dv' /\
    a2_n dv' = a2_n dv /\ a2_m dv' = a2_m dv /\ (forall i, 0 <= i < a2_n dv -> a2_at dv' i k = (a2_at dv i k * fct)%R) /\
    (forall i l, l <> k -> a2_at dv' i l = a2_at dv i l).
Proof.
  intros Hk Hn.
  destruct (for_range_inv
    (fun i (dv' : arr2 (num RA)) => a2_n dv' = a2_n dv /\ a2_m dv' = a2_m dv /\ (forall j, 0 <= j < i -> a2_at dv' j k = (a2_at dv j k * fct)%R) /\
      (forall j, i <= j -> a2_at dv' j k = a2_at dv j k) /\ (forall i l, l <> k -> a2_at dv' i l = a2_at dv i l))
    (fun i (derivs : arr2 (num RA)) => v <- aget2 derivs i k ;; aset2 derivs i k (nmul RA v fct)) 0 (a2_n dv) dv) as (dv' & E & H1 & H2 & H3 & H4 & H5).
  - lia.
  - split; [reflexivity|]. split; [reflexivity|]. split; [intros; lia|]. split; reflexivity.
  - intros i dv0 Hi (H1 & H2 & H3 & H4 & H5). change (num RA) with R in *. rewrite (aget2_ok dv0) by lia. cbn [rbind]. rewrite (aset2_ok dv0) by lia.
    eexists. split; [reflexivity|]. cbn [a2_n a2_m a2_at nmul RA]. split; [exact H1|]. split; [exact H2|]. split; [|split].
    + intros j Hj. destruct (Z.eq_dec j i) as [->|]; [rewrite upd2_eq, H4 by lia; reflexivity | rewrite upd2_neq by lia; apply H3; lia].
    + intros j Hj. rewrite upd2_neq by lia. apply H4. lia.
    + intros j l Hl. rewrite upd2_neq by lia. now apply H5.
  - change (num RA) with R in *. exists dv'. split; [exact E|]. repeat (split; [assumption|]). exact H5.
Qed.
