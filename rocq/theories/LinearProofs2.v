(** Proofs for C39: block solvers. *)
From Coq Require Import List Lia Lra.
From Verif Require Import MachineProofs LinearModel LinearSpec LinearContract LoopProofs SamplingProofs BSplineDeriv LinearProofs.
From Coq Require Import ZifyBool.
Import ListNotations.
Local Open Scope Z_scope.

(** Sums. *)
Lemma rsum_zsum n f : rsum n f = zsum n f.
Proof.
  unfold rsum, zsum. induction (Z.to_nat n) as [|k IH]; [reflexivity|].
  rewrite seq_S, map_app, fold_right_app. cbn [nsum map fold_right Nat.add]. rewrite <- IH. clear IH.
  set (l := map _ _). set (v := f (Z.of_nat k)). clearbody l v. induction l as [|w l IH]; cbn; [ring | rewrite IH; ring].
Qed.
Lemma zsum_split a b f : 0 <= a -> 0 <= b -> zsum (a + b) f = (zsum a f + zsum b (fun j => f (a + j)%Z))%R.
Proof.
  intros Ha Hb. pattern b. apply natlike_ind; [| | exact Hb].
  - rewrite Z.add_0_r, zsum_0. ring.
  - clear b Hb. intros b Hb IH. rewrite <- Z.add_1_r, Z.add_assoc, !zsum_S by lia. rewrite IH. ring.
Qed.
Lemma zsum_minus n f g : zsum n (fun m => f m - g m)%R = (zsum n f - zsum n g)%R.
Proof. unfold zsum. induction (Z.to_nat n); cbn [nsum]; [ring | rewrite IHn0; ring]. Qed.
Lemma zsum_swap n m (f : Z -> Z -> R) : zsum n (fun i => zsum m (fun j => f i j)) = zsum m (fun j => zsum n (fun i => f i j)).
Proof.
  unfold zsum. induction (Z.to_nat n) as [|k IH]; cbn [nsum].
  - symmetry. apply (zsum_zero m). reflexivity.
  - rewrite IH. symmetry. apply (zsum_plus m).
Qed.
Lemma zsum_scal_r n a f : zsum n (fun m => f m * a)%R = (zsum n f * a)%R.
Proof. rewrite <- (Rmult_comm a), <- zsum_scal. apply zsum_ext. intros; ring. Qed.

(** The dropping of small entries. *)
Definition cut (v : R) : R := if R_leb (tol14 RA) (nabs RA v) then v else 0%R.
Lemma nabs_Rabs v : nabs RA v = Rabs v.
Proof.
  unfold nabs. cbn [nltb nofz nopp RA]. unfold R_ltb. destruct (Rlt_dec v 0).
  - symmetry. now apply Rabs_left.
  - symmetry. apply Rabs_right. lra.
Qed.
Lemma cut_spec v : cut v = v \/ (cut v = 0%R /\ (Rabs v < / 10 ^ 14)%R).
Proof.
  unfold cut. rewrite nabs_Rabs. unfold R_leb. destruct (Rle_dec _ _) as [H | H]; [left; reflexivity | right]. split; [reflexivity|].
  apply Rnot_le_lt in H. unfold tol14 in H. cbn [ndiv nofz RA] in H.
  replace (/ 10 ^ 14)%R with (1 / IZR (10 ^ 14))%R; [exact H|]. rewrite (pow_IZR 10 14). change (Z.of_nat 14) with 14. unfold Rdiv. ring.
Qed.
Lemma cut_error v : (Rabs (v - cut v) <= / 10 ^ 14)%R.
Proof.
  assert (P : (0 < / 10 ^ 14)%R) by (apply Rinv_0_lt_compat, pow_lt; lra).
  destruct (cut_spec v) as [-> | [-> H]].
  - replace (v - v)%R with 0%R by ring. rewrite Rabs_R0. lra.
  - rewrite Rminus_0_r. lra.
Qed.

(** Entries in coordinate format. *)
Definition coo_step (tr : bool) (x : arr R) (y : res (arr R)) (e : Z * Z * R) : res (arr R) :=
  let '(i, k, v) := e in
  rbind y (fun y => let '(yi, xi) := if tr then (k, i) else (i, k) in
    rbind (aget y yi) (fun a => rbind (aget x xi) (fun c => aset y yi (nsub RA a (nmul RA v c))))).
Lemma coo_step_ok (tr : bool) x y i k v : 0 <= (if tr then k else i) < a_len y -> 0 <= (if tr then i else k) < a_len x ->
  coo_step tr x (Ok y) (i, k, v) = Ok (mk_arr (a_len y) (upd (a_at y) (if tr then k else i)
     (a_at y (if tr then k else i) - v * a_at x (if tr then i else k))%R)).
Proof.
  intros Hy Hx. unfold coo_step. cbn [rbind]. destruct tr; rewrite aget_ok by lia; cbn [rbind]; rewrite aget_ok by lia; cbn [rbind];
    rewrite aset_ok by lia; reflexivity.
Qed.
(** What subtracting the first [r] rows and the first [c] entries of row [r] of [m] does. *)
Definition coo_effect (m : arr2 R) (tr : bool) (x : arr R) (r c : Z) (k : Z) : R :=
  (if tr then zsum (if (k <? c)%Z then (r + 1)%Z else r) (fun i => cut (a2_at m i k) * a_at x i)
   else if (k <? r)%Z then zsum (a2_m m) (fun j => cut (a2_at m k j) * a_at x j)
   else if (k =? r)%Z then zsum c (fun j => cut (a2_at m k j) * a_at x j) else 0)%R.
Definition coo_inv (m : arr2 R) (r c : Z) (l : list (Z * Z * R)) : Prop :=
  forall (tr : bool) (x y : arr R), a_len y = (if tr then a2_m m else a2_n m) -> a_len x = (if tr then a2_n m else a2_m m) ->
  exists y', fold_left (coo_step tr x) l (Ok y) = Ok y' /\ a_len y' = a_len y /\
    forall k, 0 <= k < a_len y -> a_at y' k = (a_at y k - coo_effect m tr x r c k)%R.
Lemma dense2coo_ok (m : arr2 R) : 0 <= a2_n m -> 0 <= a2_m m ->
  exists l, dense2coo RA m = Ok (@mk_coo RA (a2_n m) (a2_m m) l) /\ coo_inv m (a2_n m) 0 l.
Proof.
  intros Hn Hm. unfold dense2coo.
  destruct (for_range_inv (fun r l => coo_inv m r 0 l) (fun i l =>
         for_range 0 (a2_m m) (fun j l =>
           aij <- aget2 m i j ;;
           Ok (if nleb RA (tol14 RA) (nabs RA aij) then l ++ [(i, j, aij)] else l)) l) 0 (a2_n m) ([] : list (Z * Z * num RA)) Hn) as (l & E & I).
  - intros tr x y Hy Hx. exists y. split; [reflexivity|]. split; [reflexivity|]. intros k Hk. unfold coo_effect.
    destruct tr. { destruct (k <? 0) eqn:E; [lia|]. rewrite zsum_0. ring. }
    destruct (k <? 0) eqn:E; [lia|]. destruct (k =? 0); [rewrite zsum_0|]; ring.
  - intros r l Hr I.
    destruct (for_range_inv (fun c l => coo_inv m r c l) (fun j l =>
           aij <- aget2 m r j ;;
           Ok (if nleb RA (tol14 RA) (nabs RA aij) then l ++ [(r, j, aij)] else l)) 0 (a2_m m) l Hm) as (l' & E' & I').
    + exact I.
    + intros c l1 Hc I1. rewrite aget2_ok by lia. cbn [rbind].
      set (v := a2_at m r c). change (nleb RA (tol14 RA) (nabs RA v)) with (R_leb (tol14 RA) (nabs RA v)).
      assert (Hcut : cut v = if R_leb (tol14 RA) (nabs RA v) then v else 0%R) by reflexivity.
      assert (Heff : forall (tr : bool) x k, coo_effect m tr x r (c + 1) k = (coo_effect m tr x r c k +
          (if (k =? (if tr then c else r))%Z then cut v * a_at x (if tr then r else c) else 0))%R).
      { intros tr x k. unfold coo_effect. destruct tr.
        - destruct (k <? c) eqn:E1.
          + replace (k <? c + 1) with true by lia. replace (k =? c) with false by lia. ring.
          + destruct (k <? c + 1) eqn:E2.
            * replace (k =? c) with true by lia. assert (k = c) as -> by lia. rewrite zsum_S by lia. fold v. ring.
            * replace (k =? c) with false by lia. ring.
        - destruct (k <? r) eqn:E1. { replace (k =? r) with false by lia. ring. }
          destruct (k =? r) eqn:E2; [|ring]. assert (k = r) as -> by lia. rewrite zsum_S by lia. fold v. ring. }
      destruct (R_leb (tol14 RA) (nabs RA v)).
      * eexists. split; [reflexivity|]. intros tr x y Hy Hx. destruct (I1 tr x y Hy Hx) as (y1 & E1 & L1 & G1).
        rewrite fold_left_app, E1. cbn [fold_left].
        rewrite coo_step_ok by (destruct tr; lia). eexists. split; [reflexivity|]. split; [cbn [a_len]; lia|].
        intros k Hk. cbn [a_at]. rewrite Heff, Hcut. unfold upd. destruct (k =? _) eqn:Ek.
        { assert (k = (if tr then c else r)) as <- by lia. rewrite G1 by lia. ring. }
        rewrite G1 by lia. ring.
      * eexists. split; [reflexivity|]. intros tr x y Hy Hx. destruct (I1 tr x y Hy Hx) as (y1 & E1 & L1 & G1).
        exists y1. split; [exact E1|]. split; [exact L1|]. intros k Hk. rewrite G1, Heff, Hcut by lia. destruct (k =? _); ring.
    + exists l'. split; [exact E'|]. intros tr x y Hy Hx. destruct (I' tr x y Hy Hx) as (y' & E1 & L1 & G1).
      exists y'. split; [exact E1|]. split; [exact L1|]. intros k Hk. rewrite G1 by lia. f_equal. unfold coo_effect. destruct tr.
      * replace (k <? a2_m m) with true by lia. destruct (k <? 0) eqn:E0; [lia|]. reflexivity.
      * destruct (k <? r) eqn:E2. { replace (k <? r + 1) with true by lia. reflexivity. }
        destruct (k =? r) eqn:E3. { replace (k <? r + 1) with true by lia. reflexivity. }
        replace (k <? r + 1) with false by lia. destruct (k =? r + 1); [now rewrite zsum_0 | reflexivity].
  - exists l. split; [|exact I]. exact (f_equal (fun r => rbind r (fun l => Ok (@mk_coo RA (a2_n m) (a2_m m) l))) E).
Qed.
(** [spdm_minus1_1] on such a matrix *)
Lemma spdm_ok (m : arr2 R) l (tr : bool) (x y : arr R) : 0 <= a2_n m -> 0 <= a2_m m -> coo_inv m (a2_n m) 0 l ->
  a_len y = (if tr then a2_m m else a2_n m) -> a_len x = (if tr then a2_n m else a2_m m) ->
  exists y', spdm_minus1_1 RA (@mk_coo RA (a2_n m) (a2_m m) l) x y tr = Ok y' /\ a_len y' = a_len y /\
    forall k, 0 <= k < a_len y -> a_at y' k = (a_at y k - zsum (a_len x) (fun j => (if tr then cut (a2_at m j k) else cut (a2_at m k j)) * a_at x j))%R.
Proof.
  intros Hn Hm I Hy Hx. destruct (I tr x y Hy Hx) as (y' & E & L & G). exists y'. split.
  - unfold spdm_minus1_1, assert_. cbn [coo_ncols coo_nrows coo_entries]. 
    match goal with |- (if ?c then _ else _) = _ => replace c with true end; [exact E|].
    symmetry. apply andb_true_intro. split; apply Z.eqb_eq; [exact Hy | exact Hx].
  - split; [exact L|]. intros k Hk. rewrite G by lia. f_equal. unfold coo_effect. rewrite Hx. destruct tr.
    + destruct (k <? 0) eqn:E0; [lia|]. reflexivity.
    + replace (k <? a2_n m) with true by lia. reflexivity.
Qed.

Section S.
Context (X : solvers RA) (HX : exact_solvers X).

Lemma elem_solve_exact n k (e : elementary RA) b x tr : wf_elem RA n k e -> elem_solve RA X e b tr = Ok x ->
  a_len b = n /\ a_len x = n /\ solves n (elem_at RA e) tr (a_at x) (a_at b).
Proof.
  destruct HX as (X1 & X2 & X3 & X4 & X5). intros W E. pose proof (wf_size _ _ _ _ W) as Hs. destruct W as [Hn W].
  unfold elem_solve, assert_ in E. rewrite Hs in E. destruct (a_len b =? n) eqn:Eb; [|discriminate]. assert (a_len b = n) as Hb by lia.
  split; [exact Hb|].
  assert (Conv : forall M M', (forall i j, 0 <= i < n -> 0 <= j < n -> M i j = M' i j) -> solves n M tr (a_at x) (a_at b) -> solves n M' tr (a_at x) (a_at b)).
  { intros M M' HM HS i Hi. specialize (HS i Hi). rewrite <- HS. rewrite !rsum_zsum. apply zsum_ext. intros j Hj. destruct tr; rewrite HM by lia; reflexivity. }
  assert (Sym : forall M, (forall i j, M i j = M j i) -> solves n M false (a_at x) (a_at b) -> solves n M tr (a_at x) (a_at b)).
  { intros M HM HS i Hi. rewrite <- (HS i Hi). rewrite !rsum_zsum. apply zsum_ext. intros j Hj. destruct tr; [now rewrite (HM j i) | reflexivity]. }
  destruct e as [a | n' kl ku q | n' q | n' q | a], k; try contradiction; change (num RA) with R in *.
  - destruct W as [W1 W2]. cbn [elem_size] in Hs. destruct (a2_n a =? 0) eqn:E0.
    { assert (Hinj : forall u v : arr R, Ok u = Ok v -> u = v) by congruence. apply Hinj in E. subst x. split; [exact Hb|]. intros i Hi. lia. }
    specialize (X1 a tr ltac:(lia) b x ltac:(lia) E). rewrite W1 in X1. exact X1.
  - destruct W as (-> & -> & -> & Hl & Hu & Q1 & Q2). specialize (X2 kl ku q tr Q1 b x ltac:(lia) E). rewrite Q2 in X2. destruct X2 as [L S2].
    split; [exact L|]. revert S2. apply Conv. intros i j Hi Hj. reflexivity.
  - destruct W as (-> & Hk & Q1 & Q2). specialize (X3 q b x ltac:(lia) E). rewrite Q2 in X3. destruct X3 as [L S3].
    split; [exact L|]. apply Sym. { intros i j. cbn [elem_at]. rewrite (Z.min_comm j i). replace (Z.abs (j - i)) with (Z.abs (i - j)) by lia. reflexivity. }
    intros i Hi. rewrite <- (S3 i Hi). rewrite !rsum_zsum. apply zsum_ext. intros j Hj. f_equal. cbn [elem_at]. unfold pb_matrix. change (num RA) with R. apply if_eq. lia.
  - destruct W as (-> & -> & Q1 & Q2). destruct (1 <=? a2_m q) eqn:E1; [|discriminate].
    match type of E with pttrs X ?d ?e' b = Ok x => specialize (X4 d e' ltac:(cbn; lia) b x ltac:(cbn; lia) E) end. cbn [a_len a_at] in X4. rewrite Q2 in X4. destruct X4 as [L S4].
    split; [exact L|]. apply Sym. { intros i j. cbn [elem_at]. rewrite (Z.min_comm j i). replace (Z.abs (j - i)) with (Z.abs (i - j)) by lia. reflexivity. }
    intros i Hi. rewrite <- (S4 i Hi). rewrite !rsum_zsum. apply zsum_ext. intros j Hj. f_equal. cbn [elem_at]. unfold pt_matrix.
    destruct (i =? j) eqn:Eij. { assert (i = j) as -> by lia. replace (Z.abs (j - j)) with 0 by lia. cbn [Z.ltb Z.compare]. rewrite Z.min_id. reflexivity. }
    destruct (Z.abs (i - j) =? 1) eqn:E2. { replace (Z.abs (i - j)) with 1 by lia. reflexivity. }
    destruct (Z.abs (i - j) <? 2) eqn:E3; [lia | reflexivity].
  - destruct W as [W1 W2]. specialize (X5 a tr ltac:(lia) b x ltac:(lia) E). rewrite W1 in X5. exact X5.
Qed.

(** A loop that returns, returned at every step. *)
Lemma for_n_hoare {T} (P : Z -> T -> Prop) (body : Z -> T -> res T) n : forall lo s s',
  P lo s -> (forall i t t', lo <= i < lo + Z.of_nat n -> P i t -> body i t = Ok t' -> P (i + 1) t') ->
  for_n n lo body s = Ok s' -> P (lo + Z.of_nat n) s'.
Proof.
  induction n as [|n IH]; intros lo s s' H0 Hb E.
  - cbn [for_n] in E. assert (Hinj : forall x y : T, Ok x = Ok y -> x = y) by congruence. apply Hinj in E. subst s'. now rewrite Z.add_0_r.
  - cbn [for_n] in E. destruct (body lo s) as [t | |] eqn:Eb; cbn [rbind] in E; try discriminate.
    replace (lo + Z.of_nat (S n)) with (lo + 1 + Z.of_nat n) by lia. apply (IH (lo + 1) t s'); [| |exact E].
    + apply (Hb lo s t); [lia | exact H0 | exact Eb].
    + intros i u u' Hi. apply Hb. lia.
Qed.
Lemma for_range_hoare {T} (P : Z -> T -> Prop) (body : Z -> T -> res T) lo hi s s' : lo <= hi ->
  P lo s -> (forall i t t', lo <= i < hi -> P i t -> body i t = Ok t' -> P (i + 1) t') ->
  for_range lo hi body s = Ok s' -> P hi s'.
Proof.
  intros H H0 Hb E. unfold for_range in E. replace hi with (lo + Z.of_nat (Z.to_nat (hi - lo))) by lia.
  apply (for_n_hoare P body _ lo s s'); [exact H0 | | exact E]. intros i t t' Hi. apply Hb. lia.
Qed.

Lemma solve_all_exact n k (e : elementary RA) (m m' : arr2 R) : wf_elem RA n k e -> 0 <= a2_m m ->
  elem_solve_all RA X e m false = Ok m' ->
  a2_n m' = a2_n m /\ a2_m m' = a2_m m /\ (0 < a2_m m -> a2_n m = n) /\
  forall i j, 0 <= i < n -> 0 <= j < a2_m m -> zsum n (fun l => elem_at RA e i l * a2_at m' l j)%R = a2_at m i j.
Proof.
  intros W Hm E. unfold elem_solve_all in E.
  revert E. match goal with |- for_range 0 ?h ?f ?z = _ -> _ => set (body := f) end. intros E.
  apply (for_range_hoare (fun c (t : arr2 R) => a2_n t = a2_n m /\ a2_m t = a2_m m /\ (0 < c -> a2_n m = n) /\
    forall j, 0 <= j < a2_m m -> if j <? c then forall i, 0 <= i < n -> zsum n (fun l => elem_at RA e i l * a2_at t l j)%R = a2_at m i j
                                 else forall i, a2_at t i j = a2_at m i j)) in E; [| exact Hm | |].
  - destruct E as (L1 & L2 & L3 & G).
    split; [exact L1|]. split; [exact L2|]. split; [exact L3|]. intros i j Hi Hj. specialize (G j Hj). change (num RA) with R in G. replace (j <? a2_m m) with true in G by lia. now apply G.
  - split; [reflexivity|]. split; [reflexivity|]. split; [lia|]. intros j Hj. destruct (j <? 0) eqn:E0; [lia|]. reflexivity.
  - clear E. intros c t t' Hc (L1 & L2 & L3 & G) Et. unfold body in Et. destruct (elem_solve RA X e (column RA t c) false) as [x | |] eqn:Ex; cbn [rbind] in Et; try discriminate.
    assert (Hinj : forall u v : arr2 R, Ok u = Ok v -> u = v) by congruence. apply Hinj in Et. subst t'.
    destruct (elem_solve_exact n k e _ _ _ W Ex) as (B1 & B2 & B3). cbn [column a_len] in B1. change (num RA) with R in *.
    split; [exact L1|]. split; [exact L2|]. split; [lia|]. intros j Hj. specialize (G j Hj). cbn [put_column a2_at].
    destruct (j <? c + 1) eqn:E1.
    + destruct (j =? c) eqn:E2.
      * assert (j = c) as -> by lia. rewrite Z.ltb_irrefl in G. intros i Hi. specialize (B3 i Hi). cbn [column a_at] in B3. rewrite rsum_zsum, G in B3. exact B3.
      * replace (j <? c) with true in G by lia. exact G.
    + replace (j =? c) with false by lia. replace (j <? c) with false in G by lia. exact G.
Qed.
End S.
