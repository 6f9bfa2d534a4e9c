(** Batched evaluation and integration of splines. *)
From Coq Require Import Bool Reals Lia Lra ZifyBool List.
From Coquelicot Require Import Coquelicot.
From Verif Require Import EvaluatorSpec EvaluatorSpace EvaluatorProofs LoopProofs BSplineMath BSplineDeriv IntegralMath IntegralMath2 IntegralProofs SamplingProofs LinearProofs2.
Import ListNotations.
Local Open Scope bool_scope. Local Open Scope Z_scope.

(** *** batches *)
Lemma eval_batched_ok (f : R -> chunk_1d RA -> res R) (w : Z -> Z -> R) nbatch n (coords : Z -> Z -> R) (coef : Z -> chunk_1d RA) (out : arr2 R) :
  0 <= nbatch -> 0 <= n -> a2_n out = nbatch -> a2_m out = n ->
  (forall j i, 0 <= j < nbatch -> 0 <= i < n -> f (coords j i) (coef j) = Ok (w j i)) ->
  exists out', eval_batched RA f nbatch n coords coef out = Ok out' /\ a2_n out' = nbatch /\ a2_m out' = n /\
    (forall j i, 0 <= j < nbatch -> 0 <= i < n -> a2_at out' j i = w j i).
Proof.
  intros Hb Hn H1 H2 Hf. unfold eval_batched. change (num RA) with R.
  destruct (for_range_inv (fun j (o : arr2 R) => a2_n o = nbatch /\ a2_m o = n /\ forall j' i, 0 <= j' < j -> 0 <= i < n -> a2_at o j' i = w j' i)
    (fun j (out : arr2 R) => for_range 0 n (fun i (out : arr2 R) => v <- f (coords j i) (coef j) ;; aset2 out j i v) out) 0 nbatch out) as (o & E & O1 & O2 & O3).
  - lia.
  - repeat split; try assumption. lia.
  - intros j o Hj (O1 & O2 & O3).
    destruct (for_range_inv (fun i (o' : arr2 R) => a2_n o' = nbatch /\ a2_m o' = n /\ (forall j' i', 0 <= j' < j -> 0 <= i' < n -> a2_at o' j' i' = w j' i') /\
        (forall i', 0 <= i' < i -> a2_at o' j i' = w j i'))
      (fun i (out : arr2 R) => v <- f (coords j i) (coef j) ;; aset2 out j i v) 0 n o) as (o' & E' & P1 & P2 & P3 & P4).
    + lia.
    + repeat split; try assumption. lia.
    + intros i o' Hi (P1 & P2 & P3 & P4). rewrite Hf by lia. cbn [rbind]. rewrite aset2_ok by lia. eexists. split; [reflexivity|]. cbn [a2_n a2_m a2_at]. repeat split; try assumption.
      * intros j' i' Hj' Hi'. rewrite upd2_neq by lia. now apply P3.
      * intros i' Hi'. destruct (Z.eq_dec i' i) as [->|N]; [now rewrite upd2_eq | rewrite upd2_neq by lia; apply P4; lia].
    + exists o'. split; [exact E'|]. repeat split; try assumption. intros j' i Hj' Hi. destruct (Z.eq_dec j' j) as [->|N]; [now apply P4 | apply P3; lia].
  - exists o. repeat split; assumption.
Qed.

Section Facts.
Context (s : bspline_space RA) (d : Z) (periodic : bool) (ncells : Z) (t : Z -> R) (a b : R).
Hypothesis F : facts s d periodic ncells t a b.
Let Hd : 1 <= d := f_d _ _ _ _ _ _ _ F.
Let Hn : 1 <= ncells := f_n _ _ _ _ _ _ _ F.
Let Hbig := f_big _ _ _ _ _ _ _ F.

(** *** integrals *)
Lemma coef_mod v : periodic_coefficients v d ncells -> forall k : nat, forall j, 0 <= j < ncells + d -> j < Z.of_nat k * ncells -> v j = v (j mod ncells).
Proof.
  intros Hv. induction k as [|k IH]; intros j Hj Hk; [lia|].
  destruct (Z_lt_ge_dec j ncells) as [L|L]; [now rewrite Z.mod_small by lia|].
  replace j with (ncells + (j - ncells)) at 1 by lia. rewrite Hv by lia. rewrite IH by lia. f_equal.
  replace j with (j - ncells + 1 * ncells) at 2 by lia. now rewrite Z.mod_add by lia.
Qed.
Lemma zsum_integral N (v w : Z -> R) (f : Z -> R -> R) : 0 <= N -> (forall i, 0 <= i < N -> integral (f i) a b (w i)) ->
  is_RInt (fun x => zsum N (fun i => v i * f i x)%R) a b (zsum N (fun i => v i * w i)%R).
Proof.
  intros HN H. apply (is_RInt_zsum N (fun i x => v i * f i x)%R (fun i => v i * w i)%R); [exact HN|].
  intros i Hi. apply (is_RInt_scal (V := R_NormedModule)). apply H. exact Hi.
Qed.
Lemma spline_integral (v w : Z -> R) : (periodic = true -> periodic_coefficients v d ncells) ->
  (forall i, 0 <= i < (if periodic then ncells else ncells + d) ->
     integral (if periodic then periodic_bspline t b d ncells i else bspline t b (Z.to_nat d) i) a b (w i)) ->
  integral (spline t b d ncells v) a b (zsum (if periodic then ncells else ncells + d) (fun i => v i * w i)%R).
Proof.
  intros Hv Hw. unfold integral. destruct (bool_dec periodic true) as [Ep|Ep%not_true_is_false]; rewrite Ep in Hw |- *.
  - specialize (Hv Ep). eapply is_RInt_ext; [|apply (zsum_integral ncells v w (fun i => periodic_bspline t b d ncells i)); [lia | exact Hw]].
    intros x _. cbn beta. unfold spline, periodic_bspline. rewrite sum_first_zsum.
    rewrite (zsum_ext ncells _ (fun i => zsum (ncells + d) (fun j => if j mod ncells =? i then v j * bspline t b (Z.to_nat d) j x else 0)%R)).
    2:{ intros i Hi. rewrite sum_first_zsum, <- zsum_scal. apply zsum_ext. intros j Hj. destruct (Z.eqb_spec (j mod ncells) i) as [E|N]; [|ring].
        rewrite (coef_mod v Hv (Z.to_nat (j + 1)) j) by nia. now rewrite E. }
    rewrite zsum_exchange by lia. apply zsum_ext. intros j Hj. pose proof (Z.mod_pos_bound j ncells ltac:(lia)).
    rewrite (zsum_ext ncells _ (fun i => if i =? j mod ncells then v j * bspline t b (Z.to_nat d) j x else 0)%R).
    + apply zsum_delta. lia.
    + intros i _. now rewrite Z.eqb_sym.
  - eapply is_RInt_ext; [|apply (zsum_integral (ncells + d) v w (fun i => bspline t b (Z.to_nat d) i)); [lia | exact Hw]].
    intros x _. cbn beta. unfold spline. now rewrite sum_first_zsum.
Qed.
Lemma integrate_ok m q junk nbatch (coef : Z -> chunk_1d RA) (out : arr R) : 0 <= nbatch -> a_len out = nbatch ->
  (bs_uniform RA s = true -> periodic = false -> d <= ncells) ->
  (forall j, 0 <= j < nbatch -> has_coefficients (coef j) (ncells + d) /\ (periodic = true -> periodic_coefficients (coefficient (coef j)) d ncells)) ->
  exists w out', integrate RA s m q junk 0 (ncells + d) nbatch coef out = Ok out' /\ a_len out' = nbatch /\
    (forall i, 0 <= i < (if periodic then ncells else ncells + d) ->
       integral (if periodic then periodic_bspline t b d ncells i else bspline t b (Z.to_nat d) i) a b (w i)) /\
    (forall j, 0 <= j < nbatch -> a_at out' j = sum_first (Z.to_nat (if periodic then ncells else ncells + d)) (fun i => coefficient (coef j) i * w i)%R /\
       integral (spline t b d ncells (coefficient (coef j))) a b (a_at out' j)).
Proof.
  intros Hb Hout Hfew Hc.
  destruct (f_integrals _ _ _ _ _ _ _ F q m (mk_chunk_1d RA 0 (mk_arr (ncells + d) junk)) eq_refl) as (c & E & C1 & C2 & C3 & C4).
  { unfold c1_size. cbn [c1_vals a_len]. destruct periodic; [right; split; reflexivity | left; reflexivity]. }
  { exact Hfew. }
  change (c1_size RA (mk_chunk_1d RA 0 (mk_arr (ncells + d) junk))) with (ncells + d) in C2, C4. change (num RA) with R in *.
  exists (a_at (c1_vals RA c)). unfold integrate. change (num RA) with R in *.
  set (nb := if periodic then ncells else ncells + d) in *. assert (Hnb : 0 <= nb <= ncells + d) by (unfold nb; destruct periodic; lia).
  assert (Hw : forall k, 0 <= k < ncells + d -> c1_get RA c k = Ok (a_at (c1_vals RA c) k : num RA)).
  { intros k Hk. unfold c1_get. rewrite C1. replace (elem_minus k 0) with k by (unfold elem_minus, u64_sub; rewrite u64_small, i64_small; lia). apply aget_ok. unfold c1_size in C2. lia. }
  destruct (for_range_inv (fun j (o : arr R) => a_len o = nbatch /\ forall j', 0 <= j' < j -> a_at o j' = zsum (ncells + d) (fun i => coefficient (coef j') i * a_at (c1_vals RA c) i)%R)
    (fun j (out : arr R) => out <- aset out j 0%R ;;
      for_range 0 (ncells + d) (fun k (out : arr R) => let i := u64_add 0 k in o <- aget out j ;; c0 <- c1_get RA (coef j) i ;; v <- c1_get RA c i ;; aset out j (nadd RA o (nmul RA c0 v))) out)
    0 nbatch out) as (o & E' & O1 & O2).
  - lia.
  - split; [exact Hout | lia].
  - intros j o Hj (O1 & O2). rewrite aset_ok by lia. cbn [rbind].
    destruct (for_range_inv (fun k (o' : arr R) => a_len o' = nbatch /\ (forall j', 0 <= j' < j -> a_at o' j' = a_at o j') /\ a_at o' j = zsum k (fun i => coefficient (coef j) i * a_at (c1_vals RA c) i)%R)
      (fun k (out : arr R) => let i := u64_add 0 k in o <- aget out j ;; c0 <- c1_get RA (coef j) i ;; v <- c1_get RA c i ;; aset out j (nadd RA o (nmul RA c0 v)))
      0 (ncells + d) (mk_arr (a_len o) (upd (a_at o) j 0%R))) as (o' & E2 & P1 & P2 & P3).
    + lia.
    + cbn [a_len a_at]. split; [exact O1|]. split; [intros j' Hj'; now rewrite upd_neq by lia | now rewrite upd_eq].
    + intros k o' Hk (P1 & P2 & P3). cbn zeta. replace (u64_add 0 k) with k by (unfold u64_add; rewrite u64_small; lia).
      rewrite aget_ok by lia. cbn [rbind]. pose proof (proj1 (Hc j Hj)) as Hcj. rewrite (c1_get_ok s d periodic ncells t a b F) by (try assumption; lia). cbn [rbind]. rewrite Hw by lia. cbn [rbind].
      rewrite aset_ok by lia. eexists. split; [reflexivity|]. cbn [a_len a_at]. split; [exact P1|]. split; [intros j' Hj'; rewrite upd_neq by lia; now apply P2|].
      rewrite upd_eq, zsum_S by lia. rewrite P3. reflexivity.
    + exists o'. split; [exact E2|]. split; [exact P1|]. intros j' Hj'. destruct (Z.eq_dec j' j) as [->|N]; [exact P3 | rewrite P2 by lia; apply O2; lia].
  - exists o. split; [|split; [exact O1|split; [exact C3|]]].
    + etransitivity; [apply (f_equal (fun r => rbind r _) E)|]. cbn [rbind]. exact E'.
    + intros j Hj. assert (S : a_at o j = zsum nb (fun i => coefficient (coef j) i * a_at (c1_vals RA c) i)%R).
      { rewrite O2 by lia. rewrite (zsum_part (ncells + d) 0 nb); [reflexivity | lia | lia | lia|]. intros i Hi Ho. rewrite C4 by (fold nb; lia). ring. }
      rewrite sum_first_zsum. split; [exact S|]. rewrite S. apply spline_integral; [apply (Hc j Hj) | exact C3].
Qed.
End Facts.
