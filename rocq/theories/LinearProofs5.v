(** Proofs for C39: the solve succeeds when the external solvers do; the effect of the dropped entries. *)
From Coq Require Import List Lia Lra.
From Verif Require Import MachineProofs LinearModel LinearSpec LinearContract LoopProofs SamplingProofs BSplineDeriv LinearProofs LinearProofs2 LinearProofs3 LinearProofs4.
From Coq Require Import ZifyBool.
Import ListNotations.
Local Open Scope Z_scope.

Section T.
Context (X : solvers RA).
Definition solvable (n : Z) (e : elementary RA) : Prop := forall (b : arr R) tr, a_len b = n -> exists x, elem_solve RA X e b tr = Ok x /\ a_len x = n.

Lemma elem_solve_total (HX : total_solvers X) n k (e : elementary RA) (b : arr R) tr : wf_elem RA n k e -> 1 <= n \/ k = General -> a_len b = n ->
  exists x, elem_solve RA X e b tr = Ok x /\ a_len x = n.
Proof.
  intros W H1 Hb. destruct HX as (X1 & X2 & X3 & X4 & X5). unfold elem_solve, assert_. rewrite (wf_size _ _ _ _ W).
  change (num RA) with R in *. replace (a_len b =? n) with true by lia.
  destruct W as [Hn W]. destruct e as [a | n' kl ku q | n' q | n' q | a]; destruct k as [|kl' ku'|kd]; try contradiction; change (num RA) with R in *.
  - destruct W as [W1 W2]. destruct (a2_n a =? 0) eqn:E0; [eauto|]. destruct (X1 a tr b) as (x & E & L); [lia|]. exists x. split; [exact E | lia].
  - destruct W as (W1 & W2 & W3 & W4 & W5 & W6 & W7). destruct (X2 kl ku q tr b) as (x & E & L); [lia|]. exists x. split; [exact E | lia].
  - destruct W as (W1 & W2 & W3 & W4). destruct (X3 q b) as (x & E & L); [lia|]. exists x. split; [exact E | lia].
  - destruct W as (W1 & W2 & W3 & W4). assert (1 <= n) by (destruct H1; [lia | discriminate]). replace (1 <=? a2_m q) with true by lia.
    destruct (X4 (mk_arr (a2_m q) (fun i => a2_at q 0 i)) (mk_arr (a2_m q - 1) (fun i => a2_at q 1 i)) b) as (x & E & L); [cbn [a_len]; lia|].
    exists x. split; [exact E | cbn [a_len] in L; lia].
  - destruct W as [W1 W2]. destruct (X5 a tr b) as (x & E & L); [lia|]. exists x. split; [exact E | lia].
Qed.
Lemma solve_all_total n (e : elementary RA) (m : arr2 R) : solvable n e -> a2_n m = n -> 0 <= a2_m m ->
  exists m', elem_solve_all RA X e m false = Ok m' /\ a2_n m' = n /\ a2_m m' = a2_m m.
Proof.
  intros H1 Hn Hm. unfold elem_solve_all.
  apply (for_range_inv (fun c (t : arr2 R) => a2_n t = n /\ a2_m t = a2_m m)); [exact Hm | split; [exact Hn | reflexivity] |].
  intros j t Hj [T1 T2]. destruct (H1 (column RA t j) false T1) as (x & E & L). rewrite E. cbn [rbind].
  eexists. split; [reflexivity|]. split; [exact T1 | exact T2].
Qed.

Lemma setup_total n nq k b : wf_blocks RA n nq k b -> solvable nq (bk_top_left b) ->
  exists st G lG lB, setup_solver RA X b = Ok st /\ pr_size st = n /\ pr_top_left st = bk_top_left b /\ a2_n G = nq /\ a2_m G = n - nq /\
   pr_top_right st = @mk_coo RA (a2_n G) (a2_m G) lG /\ coo_inv G (a2_n G) 0 lG /\
   pr_bottom_left st = @mk_coo RA (a2_n (bk_bottom_left b)) (a2_m (bk_bottom_left b)) lB /\ coo_inv (bk_bottom_left b) (a2_n (bk_bottom_left b)) 0 lB /\
   wf_elem RA (n - nq) General (pr_bottom_right st).
Proof.
  intros (Hq & Hn & Hs & W1 & R1 & R2 & L1 & L2 & W2) H1. unfold setup_solver. change (num RA) with R in *.
  destruct (solve_all_total nq (bk_top_left b) (bk_top_right b) H1 R1) as (G & EG & G1 & G2); [change (num RA) with R; lia|].
  change (num RA) with R in *. rewrite EG. cbn [rbind].
  destruct (dense2coo_ok G ltac:(lia) ltac:(lia)) as (lG & EG' & IG).
  destruct (dense2coo_ok (bk_bottom_left b) ltac:(change (num RA) with R; lia) ltac:(change (num RA) with R; lia)) as (lB & EB & IB).
  change (num RA) with R in *. rewrite EG'. cbn [rbind]. rewrite EB. cbn [rbind]. rewrite (wf_size _ _ _ _ W1).
  destruct (schur_ok nq (n - nq) (bk_bottom_left b) G (bk_bottom_right b) ltac:(lia) ltac:(lia) L1 L2 G1 ltac:(lia) W2) as (br & Ebr & Wbr & Sbr).
  change (num RA) with R in *. rewrite Ebr. cbn [rbind].
  eexists _, G, lG, lB. split; [reflexivity|]. cbn [pr_size pr_top_left pr_top_right pr_bottom_left pr_bottom_right].
  do 8 (split; [first [assumption | reflexivity | lia]|]). exact Wbr.
Qed.

Lemma setup_solve_2x2_total n nq k b st G lG lB : wf_blocks RA n nq k b -> solvable nq (bk_top_left b) -> solvable (n - nq) (pr_bottom_right st) ->
   pr_size st = n -> pr_top_left st = bk_top_left b -> a2_n G = nq -> a2_m G = n - nq ->
   pr_top_right st = @mk_coo RA (a2_n G) (a2_m G) lG -> coo_inv G (a2_n G) 0 lG ->
   pr_bottom_left st = @mk_coo RA (a2_n (bk_bottom_left b)) (a2_m (bk_bottom_left b)) lB -> coo_inv (bk_bottom_left b) (a2_n (bk_bottom_left b)) 0 lB ->
   wf_elem RA (n - nq) General (pr_bottom_right st) ->
   forall (c : arr R) tr, a_len c = n -> exists x, solve_2x2 RA X st c tr = Ok x /\ a_len x = n.
Proof.
  intros (Hq & Hn & Hs & W1 & R1 & R2 & L1 & L2 & W2) H1 H2 U1 U2 U3 U4 U5 IG U6 IB U7 c tr Hc. change (num RA) with R in *.
  unfold solve_2x2, assert_. rewrite U1, U2, (wf_size _ _ _ _ W1). change (num RA) with R in *. replace (a_len c =? n) with true by lia.
  rewrite rows_ok by lia. cbn [rbind]. rewrite rows_ok by lia. cbn [rbind]. rewrite U5, U6.
  assert (SG := fun (tr : bool) (x y : arr R) => spdm_ok G lG tr x y ltac:(lia) ltac:(lia) IG).
  assert (SB := fun (tr : bool) (x y : arr R) => spdm_ok (bk_bottom_left b) lB tr x y ltac:(change (num RA) with R; lia) ltac:(change (num RA) with R; lia) IB).
  change (num RA) with R in *.
  destruct tr; cbn [negb].
  - destruct (SG true (mk_arr (nq - 0) (fun k : Z => a_at c (0 + k))) (mk_arr (a_len c - nq) (fun k : Z => a_at c (nq + k))) ltac:(cbv iota; cbn [a_len]; change (num RA) with R in *; lia) ltac:(cbv iota; cbn [a_len]; change (num RA) with R in *; lia)) as (y2 & E1 & Ly2 & _).
    cbn [a_len] in Ly2. rewrite E1. cbn [rbind].
    destruct (H2 y2 true ltac:(lia)) as (x2 & E2 & Lx2). change (num RA) with R in *. rewrite E2. cbn [rbind].
    destruct (SB true x2 (mk_arr (nq - 0) (fun k : Z => a_at c (0 + k))) ltac:(cbv iota; cbn [a_len]; change (num RA) with R in *; lia) ltac:(cbv iota; change (num RA) with R in *; lia)) as (y1 & E3 & Ly1 & _).
    cbn [a_len] in Ly1. rewrite E3. cbn [rbind].
    destruct (H1 y1 true ltac:(lia)) as (x1 & E4 & Lx1). change (num RA) with R in *. rewrite E4. cbn [rbind].
    eexists. split; [reflexivity|]. exact Hc.
  - destruct (H1 (mk_arr (nq - 0) (fun k : Z => a_at c (0 + k))) false ltac:(cbn [a_len]; lia)) as (y1 & E1 & Ly1). change (num RA) with R in *. rewrite E1. cbn [rbind].
    destruct (SB false y1 (mk_arr (a_len c - nq) (fun k : Z => a_at c (nq + k))) ltac:(cbv iota; cbn [a_len]; change (num RA) with R in *; lia) ltac:(cbv iota; change (num RA) with R in *; lia)) as (y2 & E2 & Ly2 & _).
    cbn [a_len] in Ly2. rewrite E2. cbn [rbind].
    destruct (H2 y2 false ltac:(lia)) as (x2 & E3 & Lx2). change (num RA) with R in *. rewrite E3. cbn [rbind].
    destruct (SG false x2 y1 ltac:(cbv iota; change (num RA) with R in *; lia) ltac:(cbv iota; change (num RA) with R in *; lia)) as (x1 & E4 & Lx1 & _). rewrite E4. cbn [rbind].
    eexists. split; [reflexivity|]. exact Hc.
Qed.

Lemma setup_and_solve_total (HX : total_solvers X) (s : shape) (p : problem RA) (b : arr R) tr : wf_prob RA s p -> 1 <= sh_main s \/ sh_kind s = General ->
  a_len b = required_rows p -> exists x, setup_and_solve RA X p b tr = Ok x /\ a_len x = a_len b.
Proof.
  intros W H1 Hb. destruct p as [e | bk | top bk]; cbn [wf_prob setup_and_solve required_rows prob_size] in *.
  - destruct W as (Ht & Hm & W). rewrite (wf_size _ _ _ _ W) in Hb. rewrite Hm in H1. destruct (elem_solve_total HX _ _ _ b tr W H1 Hb) as (x & E & L). exists x. split; [exact E | congruence].
  - destruct W as (Ht & W). pose proof W as (Hq & Hn & Hs & W1 & _). assert (V1 : solvable (sh_main s) (bk_top_left bk)) by (intros c t Hc; now apply (elem_solve_total HX _ _ _ c t W1)).
    destruct (setup_total _ _ _ _ W V1) as (st & G & lG & lB & Es & U1 & U2 & U3 & U4 & U5 & IG & U6 & IB & U7). rewrite Es. cbn [rbind].
    assert (V2 : solvable (sh_n s - sh_main s) (pr_bottom_right st)) by (intros c t Hc; apply (elem_solve_total HX _ _ _ c t U7 (or_intror eq_refl) Hc)).
    destruct (setup_solve_2x2_total _ _ _ _ st G lG lB W V1 V2 U1 U2 U3 U4 U5 IG U6 IB U7 b tr) as (x & E & L); [congruence|]. exists x. split; [exact E | congruence].
  - destruct W as (Ht & H0 & H2 & W). pose proof W as (Hq & Hn & Hs & W1 & _). assert (V1 : solvable (sh_main s) (bk_top_left bk)) by (intros c t Hc; now apply (elem_solve_total HX _ _ _ c t W1)).
    destruct (setup_total _ _ _ _ W V1) as (st & G & lG & lB & Es & U1 & U2 & U3 & U4 & U5 & IG & U6 & IB & U7). rewrite Es. cbn [rbind].
    assert (V2 : solvable (sh_n s - sh_main s) (pr_bottom_right st)) by (intros c t Hc; apply (elem_solve_total HX _ _ _ c t U7 (or_intror eq_refl) Hc)).
    unfold u64_add in Hb. rewrite Hs, u64_id in Hb by lia.
    unfold solve_3x3, assert_. rewrite U1, U2, (wf_size _ _ _ _ W1). unfold u64_add. rewrite u64_id by lia. change (num RA) with R in *.
    replace (a_len b =? sh_n s + top) with true by lia.
    destruct (to_2_ok top (sh_main s) (sh_n s) b ltac:(lia) ltac:(lia) ltac:(lia) Hb) as (b' & E1 & L1 & _). change (num RA) with R in *. rewrite E1. cbn [rbind].
    rewrite rows_ok by lia. cbn [rbind].
    destruct (setup_solve_2x2_total _ _ _ _ st G lG lB W V1 V2 U1 U2 U3 U4 U5 IG U6 IB U7 (mk_arr (top + sh_n s - top) (fun k => a_at b' (top + k))) tr) as (x & E & L); [cbn [a_len]; lia|].
    change (num RA) with R in *. rewrite E. cbn [rbind].
    destruct (to_3_ok top (sh_main s) (sh_n s) (put_rows RA b' top (top + sh_n s) x) ltac:(lia) ltac:(lia) ltac:(lia) L1) as (x' & E3 & L3 & _). change (num RA) with R in *. rewrite E3.
    exists x'. split; [reflexivity | lia].
Qed.
End T.

(** The residual left by the dropped entries. *)
Section R.
Context (X : solvers RA) (HX : exact_solvers X).
Context (n top nq : Z) (k : kind) (b : blocks RA) (st : prepared RA) (G : arr2 R).
Context (W : wf_blocks RA n nq k b) (SU : set_up n nq k b st G) (Ht : 0 <= top) (Htn : top + nq <= n).
Notation M := (bmat top nq b).
Notation s := (mk_shape n top nq k).
Definition eps14 : R := (/ 10 ^ 14)%R.
Lemma eps14_pos : (0 < eps14)%R. Proof. unfold eps14. apply Rinv_0_lt_compat. apply pow_lt. lra. Qed.

Lemma others_sum (f : Z -> R) : zsum n (fun j => if in_main s j then 0 else f (perm top nq j))%R = zsum (n - nq) (fun j => f (nq + j)%Z).
Proof.
  pose proof W as (Hq & _). transitivity (zsum n (fun j => (fun j' => if (j' <? nq)%Z then 0 else f j')%R (perm top nq j))).
  { apply zsum_ext. intros j Hj. rewrite (main_perm n top nq k b W Ht j Hj). reflexivity. }
  rewrite (zsum_perm top nq n (fun j' => if (j' <? nq)%Z then 0 else f j')%R) by lia. replace n with (nq + (n - nq)) at 1 by lia. rewrite zsum_split by lia.
  rewrite (zsum_zero nq). 2: { intros m Hm. replace (m <? nq) with true by lia. reflexivity. }
  rewrite Rplus_0_l. apply zsum_ext. intros m Hm. replace (nq + m <? nq) with false by lia. reflexivity.
Qed.
Lemma dot_bound m (e v : Z -> R) : (forall j, 0 <= j < m -> (Rabs (e j) <= eps14)%R) -> (Rabs (zsum m (fun j => e j * v j)) <= eps14 * zsum m (fun j => Rabs (v j)))%R.
Proof.
  intros H. eapply Rle_trans; [apply zsum_abs|]. rewrite <- zsum_scal. apply zsum_le. intros j Hj. rewrite Rabs_mult.
  apply Rmult_le_compat_r; [apply Rabs_pos|]. now apply H.
Qed.
Lemma dot_bound2 m (q w : Z -> R) D : (forall j, 0 <= j < m -> (Rabs (w j) <= D)%R) -> (Rabs (zsum m (fun j => q j * w j)) <= zsum m (fun j => Rabs (q j)) * D)%R.
Proof.
  intros H. eapply Rle_trans; [apply zsum_abs|]. rewrite <- zsum_scal_r. apply zsum_le. intros j Hj. rewrite Rabs_mult.
  apply Rmult_le_compat_l; [apply Rabs_pos|]. now apply H.
Qed.

Lemma residual_2x2 (c x : arr R) tr : solve_2x2 RA X st c tr = Ok x ->
  let xu := fun j => a_at x (perm top nq j) in let bu := fun i => a_at c (perm top nq i) in
  let others := zsum n (fun j => if in_main s j then 0 else Rabs (xu j))%R in
  a_len c = n /\ a_len x = n /\
  if tr then
    forall j, 0 <= j < n -> exists g, (in_main s j = false -> forall i, 0 <= i < nq -> zsum nq (fun l => M (top + i)%Z (top + l)%Z * g l)%R = M (top + i)%Z j) /\
      (Rabs (lhs n top nq b true (a_at x) j - bu j) <=
       eps14 * (if in_main s j then others else zsum nq (fun l => Rabs (bu (top + l)%Z)) + zsum nq (fun l => Rabs (g l)) * others))%R
  else
    exists y, (forall i, 0 <= i < nq -> zsum nq (fun l => M (top + i)%Z (top + l)%Z * y l)%R = bu (top + i)%Z) /\
    forall i, 0 <= i < n ->
      (Rabs (lhs n top nq b false (a_at x) i - bu i) <=
       eps14 * ((if in_main s i then 0 else zsum nq (fun l => Rabs (y l))) + zsum nq (fun l => Rabs (M i (top + l)%Z)) * others))%R.
Proof.
  intros E. cbv zeta. pose proof W as (Hq & _). pose proof (solve_2x2_ok X HX n nq k b st G c x tr W SU E) as S. cbv zeta in S. destruct S as (Lc & Lx & x1 & x2 & A1 & A2 & S).
  split; [exact Lc|]. split; [exact Lx|].
  assert (Z1 : forall (P : Z -> R), zsum nq (fun j => P j * a_at x j)%R = zsum nq (fun j => P j * x1 j)%R).
  { intros P. apply zsum_ext. intros m Hm. change (num RA) with R in *. now rewrite A1. }
  assert (Z2 : forall (P : Z -> R), zsum (n - nq) (fun j => P j * a_at x (nq + j)%Z)%R = zsum (n - nq) (fun j => P j * x2 j)%R).
  { intros P. apply zsum_ext. intros m Hm. change (num RA) with R in *. now rewrite A2. }
  assert (EO : zsum n (fun j => if in_main s j then 0 else Rabs (a_at x (perm top nq j)))%R = zsum (n - nq) (fun j => Rabs (x2 j))).
  { rewrite (others_sum (fun j => Rabs (a_at x j))). apply zsum_ext. intros m Hm. change (num RA) with R in *. now rewrite A2. }
  assert (DL : forall i l, (Rabs (a2_at (bk_bottom_left b) i l - cut (a2_at (bk_bottom_left b) i l)) <= eps14)%R) by (intros; apply cut_error).
  assert (DG : forall i l, (Rabs (a2_at G i l - cut (a2_at G i l)) <= eps14)%R) by (intros; apply cut_error).
  change (num RA) with R in *. rewrite EO. set (O := zsum (n - nq) (fun j => Rabs (x2 j))).
  destruct tr.
  - destruct S as [S1 S2]. intros j Hj. rewrite (lhs_perm n top nq k b W Ht Htn) by exact Hj. rewrite (main_perm n top nq k b W Ht j Hj).
    assert (Hp : 0 <= perm top nq j < n) by (apply perm_range; lia). set (j' := perm top nq j) in *.
    rewrite (col_sum n nq k b W) by exact Hp. destruct (j' <? nq) eqn:E1.
    + exists (fun _ => 0%R). split; [discriminate|]. rewrite Z1, Z2. rewrite S1 by lia.
      match goal with |- (Rabs (?u + ?v - ?u) <= _)%R => replace (u + v - u)%R with v by ring end.
      apply dot_bound. auto.
    + exists (fun l => a2_at G l (j' - nq)). split.
      { intros _ i Hi. destruct SU as [U1 U2 U3 U4 U5 _ _ _ _]. transitivity (a2_at (bk_top_right b) i (j' - nq)).
        - rewrite <- U5 by lia. apply zsum_ext. intros l Hl. now rewrite (Q_bmat top nq b Ht) by lia.
        - rewrite (gam_bmat n top nq b Ht) by lia. f_equal. replace (nq + (j' - nq)) with j' by lia. unfold j'. apply iperm_perm; lia. }
      rewrite Z1, Z2, S2 by lia. replace (nq + (j' - nq)) with j' by lia.
      rewrite (zsum_ext nq (fun l => Rabs (a_at c (perm top nq (top + l)))) (fun l => Rabs (a_at c l))).
      2: { intros l Hl. now rewrite (perm_main top nq Ht) by lia. }
      match goal with |- (Rabs (?u + ?v + ?w - ?u) <= _)%R => replace (u + v + w - u)%R with (v + w)%R by ring end.
      eapply Rle_trans; [apply Rabs_triang|]. rewrite Rmult_plus_distr_l. apply Rplus_le_compat.
      * apply dot_bound. auto.
      * replace (eps14 * _)%R with (zsum nq (fun l => Rabs (a2_at G l (j' - nq))) * (eps14 * O))%R by ring.
        apply dot_bound2. intros l Hl. apply dot_bound. auto.
  - destruct S as (y1 & S0 & S1 & S2). exists y1. split.
    { intros i Hi. rewrite (perm_main top nq Ht) by lia. rewrite <- S0 by lia. apply zsum_ext. intros l Hl. now rewrite (Q_bmat top nq b Ht) by lia. }
    intros i Hi. rewrite (lhs_perm n top nq k b W Ht Htn) by exact Hi. rewrite (main_perm n top nq k b W Ht i Hi).
    assert (Hp : 0 <= perm top nq i < n) by (apply perm_range; lia). set (i' := perm top nq i) in *.
    rewrite (zsum_ext nq (fun l => Rabs (M i (top + l))) (fun l => Rabs (blocks_at RA nq b i' l))).
    2: { intros l Hl. unfold bmat. now rewrite (perm_main top nq Ht) by lia. }
    assert (GX : forall l, 0 <= l < nq -> (Rabs (zsum (n - nq) (fun j => (a2_at G l j - cut (a2_at G l j)) * x2 j)) <= eps14 * O)%R).
    { intros l Hl. apply dot_bound. auto. }
    rewrite (row_sum n nq k b W) by exact Hp. destruct (i' <? nq) eqn:E1.
    + rewrite Z1, Z2, S1 by lia. rewrite Rplus_0_l.
      match goal with |- (Rabs (?u + ?v - ?u) <= _)%R => replace (u + v - u)%R with v by ring end.
      replace (eps14 * _)%R with (zsum nq (fun l => Rabs (blocks_at RA nq b i' l)) * (eps14 * O))%R by ring.
      rewrite (zsum_ext nq (fun l => Rabs (blocks_at RA nq b i' l)) (fun l => Rabs (elem_at RA (bk_top_left b) i' l))).
      2: { intros l Hl. unfold blocks_at. replace (_ && _) with true by lia. reflexivity. }
      apply dot_bound2. exact GX.
    + rewrite Z1, Z2, S2 by lia. replace (nq + (i' - nq)) with i' by lia.
      match goal with |- (Rabs (?u + ?v + ?w - ?u) <= _)%R => replace (u + v + w - u)%R with (v + w)%R by ring end.
      eapply Rle_trans; [apply Rabs_triang|]. rewrite Rmult_plus_distr_l. apply Rplus_le_compat.
      * apply dot_bound. auto.
      * replace (eps14 * _)%R with (zsum nq (fun l => Rabs (blocks_at RA nq b i' l)) * (eps14 * O))%R by ring.
        rewrite (zsum_ext nq (fun l => Rabs (blocks_at RA nq b i' l)) (fun l => Rabs (a2_at (bk_bottom_left b) (i' - nq) l))).
        2: { intros l Hl. unfold blocks_at. rewrite E1. cbn [andb]. replace (nq <=? l) with false by lia. rewrite andb_false_r. reflexivity. }
        apply dot_bound2. exact GX.
Qed.
End R.

(** For every problem.  [residual] is the left-hand side minus the right-hand side of equation [i]. *)
Definition residual (n : Z) (M : Z -> Z -> R) (tr : bool) (x b : Z -> R) (i : Z) : R :=
  (rsum n (fun j => (if tr then M j i else M i j) * x j) - b i)%R.
Lemma setup_and_solve_residual (X : solvers RA) (HX : exact_solvers X) (s : shape) (p : problem RA) (M : Z -> Z -> R) (b x : arr R) tr :
  wf_prob RA s p -> (forall i j, 0 <= i < sh_n s -> 0 <= j < sh_n s -> get_element RA p i j = Ok (M i j)) ->
  setup_and_solve RA X p b tr = Ok x ->
  let others := rsum (sh_n s) (fun j => if in_main s j then 0 else Rabs (a_at x j))%R in
  if tr then
    forall j, 0 <= j < sh_n s -> exists g,
      (in_main s j = false -> forall i, 0 <= i < sh_main s -> rsum (sh_main s) (fun l => M (sh_top s + i)%Z (sh_top s + l)%Z * g l)%R = M (sh_top s + i)%Z j) /\
      (Rabs (residual (sh_n s) M true (a_at x) (a_at b) j) <=
       / 10 ^ 14 * (if in_main s j then others else rsum (sh_main s) (fun l => Rabs (a_at b (sh_top s + l)%Z)) + rsum (sh_main s) (fun l => Rabs (g l)) * others))%R
  else
    exists y, (forall i, 0 <= i < sh_main s -> rsum (sh_main s) (fun l => M (sh_top s + i)%Z (sh_top s + l)%Z * y l)%R = a_at b (sh_top s + i)%Z) /\
    forall i, 0 <= i < sh_n s ->
      (Rabs (residual (sh_n s) M false (a_at x) (a_at b) i) <=
       / 10 ^ 14 * ((if in_main s i then 0 else rsum (sh_main s) (fun l => Rabs (y l))) + rsum (sh_main s) (fun l => Rabs (M i (sh_top s + l)%Z)) * others))%R.
Proof.
  intros W HM E.
  assert (HM' : forall i j, 0 <= i < sh_n s -> 0 <= j < sh_n s -> M i j = prob_at RA s p i j).
  { intros i j Hi Hj. specialize (HM i j Hi Hj). rewrite (get_element_at RA s) in HM by assumption. congruence. }
  cbv zeta. pose proof eps14_pos as Hpos. unfold eps14 in Hpos.
  destruct p as [e | bk | top bk]; cbn [wf_prob setup_and_solve prob_at] in *.
  - destruct W as (Ht & Hm & W). destruct (elem_solve_exact X HX _ _ _ _ _ _ W E) as (Lb & Lx & S). change (num RA) with R in *.
    assert (MA : forall j, 0 <= j < sh_n s -> in_main s j = true) by (intros j Hj; unfold in_main; lia).
    assert (Ss : forall i, 0 <= i < sh_n s -> residual (sh_n s) M tr (a_at x) (a_at b) i = 0%R).
    { intros i Hi. unfold residual. rewrite <- (S i Hi). rewrite !rsum_zsum.
      rewrite (zsum_ext (sh_n s) _ (fun j => (if tr then elem_at RA e j i else elem_at RA e i j) * a_at x j)%R). { ring. }
      intros j Hj. destruct tr; now rewrite HM' by lia. }
    assert (EO : rsum (sh_n s) (fun j => if in_main s j then 0 else Rabs (a_at x j))%R = 0%R).
    { rewrite rsum_zsum. apply zsum_zero. intros j Hj. now rewrite MA. }
    rewrite EO. destruct tr.
    + intros j Hj. exists (fun _ => 0%R). rewrite MA by exact Hj. split; [discriminate|]. rewrite Ss, Rabs_R0 by exact Hj. lra.
    + exists (a_at x). split.
      * intros i Hi. rewrite Hm, Ht in *. rewrite Z.add_0_l. rewrite <- (S i Hi), !rsum_zsum. apply zsum_ext. intros j Hj. now rewrite HM' by lia.
      * intros i Hi. rewrite MA by exact Hi. rewrite Ss, Rabs_R0 by exact Hi. lra.
  - destruct W as (Ht & W). pose proof W as (Hq & Hn & Hs & _). destruct (setup_solver RA X bk) as [st | |] eqn:Es; cbn [rbind] in E; try discriminate.
    destruct (setup_ok X HX _ _ _ _ _ W Es) as (G & SU).
    assert (Eq : s = mk_shape (sh_n s) 0 (sh_main s) (sh_kind s)) by (destruct s; cbn in *; congruence).
    assert (HP : forall i j, 0 <= i < sh_n s -> 0 <= j < sh_n s -> M i j = bmat 0 (sh_main s) bk i j).
    { intros i j Hi Hj. rewrite HM' by lia. unfold bmat. now rewrite !perm_zero by lia. }
    pose proof (residual_2x2 X HX _ 0 _ _ _ _ _ W SU ltac:(lia) ltac:(lia) b x tr E) as S. cbv zeta in S. destruct S as (Lb & Lx & S). rewrite <- Eq in S.
    assert (EL : forall tr i, 0 <= i < sh_n s -> residual (sh_n s) M tr (a_at x) (a_at b) i = (lhs (sh_n s) 0 (sh_main s) bk tr (a_at x) i - a_at b (perm 0 (sh_main s) i))%R).
    { intros tr' i Hi. unfold residual, lhs. rewrite rsum_zsum, perm_zero by lia. f_equal. apply zsum_ext. intros j Hj. rewrite perm_zero by lia. destruct tr'; now rewrite HP by lia. }
    assert (EO : rsum (sh_n s) (fun j => if in_main s j then 0 else Rabs (a_at x j))%R = zsum (sh_n s) (fun j => if in_main s j then 0 else Rabs (a_at x (perm 0 (sh_main s) j)))%R).
    { rewrite rsum_zsum. apply zsum_ext. intros j Hj. now rewrite perm_zero by lia. }
    rewrite EO, Ht. change (num RA) with R in *. destruct tr.
    + intros j Hj. destruct (S j Hj) as (g & Sg & Sr). exists g. split.
      { intros Hmj i Hi. rewrite rsum_zsum, HP by lia. rewrite <- (Sg Hmj i Hi). apply zsum_ext. intros l Hl. now rewrite HP by lia. }
      rewrite EL by exact Hj. unfold eps14 in Sr. eapply Rle_trans; [exact Sr|]. rewrite !rsum_zsum. right. f_equal. destruct (in_main s j); [reflexivity|]. f_equal.
      apply zsum_ext. intros l Hl. now rewrite perm_zero by lia.
    + destruct S as (y & Sy & Sr). exists y. split.
      { intros i Hi. rewrite rsum_zsum. specialize (Sy i Hi). rewrite perm_zero in Sy by lia. rewrite <- Sy. apply zsum_ext. intros l Hl. now rewrite HP by lia. }
      intros i Hi. rewrite EL by exact Hi. specialize (Sr i Hi). unfold eps14 in Sr. eapply Rle_trans; [exact Sr|]. rewrite !rsum_zsum. right. f_equal. f_equal. f_equal.
      apply zsum_ext. intros l Hl. now rewrite HP by lia.
  - destruct W as (Ht & H0 & H1 & W). pose proof W as (Hq & Hn & Hs & W1 & _). destruct (setup_solver RA X bk) as [st | |] eqn:Es; cbn [rbind] in E; try discriminate.
    destruct (setup_ok X HX _ _ _ _ _ W Es) as (G & SU). pose proof SU as [U1 U2 _ _ _ _ _ _ _].
    assert (Eq : s = mk_shape (sh_n s) top (sh_main s) (sh_kind s)) by (destruct s; cbn in *; congruence).
    destruct (solve_3x3_ok X (sh_n s) top (sh_main s) st b x tr U1) as (Lb & Lx & c & d & E2 & Lc & Gc & Gx); try assumption; try lia.
    { rewrite U2. now apply (wf_size _ _ (sh_kind s)). }
    { intros c d Ed. apply (residual_2x2 X HX _ top _ _ _ _ _ W SU ltac:(lia) ltac:(lia) c d tr Ed). }
    pose proof (residual_2x2 X HX _ top _ _ _ _ _ W SU ltac:(lia) ltac:(lia) c d tr E2) as S. cbv zeta in S. destruct S as (_ & Ld & S). rewrite <- Eq in S.
    assert (Gc' : forall i, 0 <= i < sh_n s -> a_at c (perm top (sh_main s) i) = a_at b i).
    { intros i Hi. assert (Hp := perm_range top (sh_main s) i (sh_n s) Hi ltac:(lia) ltac:(lia) ltac:(lia)). rewrite Gc, iperm_perm by lia. reflexivity. }
    assert (EL : forall tr i, 0 <= i < sh_n s -> residual (sh_n s) M tr (a_at x) (a_at b) i = (lhs (sh_n s) top (sh_main s) bk tr (a_at d) i - a_at c (perm top (sh_main s) i))%R).
    { intros tr' i Hi. unfold residual, lhs. rewrite rsum_zsum, Gc' by lia. f_equal. apply zsum_ext. intros j Hj. rewrite Gx by lia. destruct tr'; now rewrite HM' by lia. }
    assert (EO : rsum (sh_n s) (fun j => if in_main s j then 0 else Rabs (a_at x j))%R = zsum (sh_n s) (fun j => if in_main s j then 0 else Rabs (a_at d (perm top (sh_main s) j)))%R).
    { rewrite rsum_zsum. apply zsum_ext. intros j Hj. now rewrite Gx by lia. }
    rewrite EO, Ht. change (num RA) with R in *. destruct tr.
    + intros j Hj. destruct (S j Hj) as (g & Sg & Sr). exists g. split.
      { intros Hmj i Hi. rewrite rsum_zsum, HM' by lia. unfold bmat in Sg. rewrite <- (Sg Hmj i Hi). apply zsum_ext. intros l Hl. now rewrite HM' by lia. }
      rewrite EL by exact Hj. unfold eps14 in Sr. eapply Rle_trans; [exact Sr|]. rewrite !rsum_zsum. right. f_equal. destruct (in_main s j); [reflexivity|]. f_equal.
      apply zsum_ext. intros l Hl. now rewrite Gc' by lia.
    + destruct S as (y & Sy & Sr). exists y. split.
      { intros i Hi. rewrite rsum_zsum. specialize (Sy i Hi). rewrite Gc' in Sy by lia. rewrite <- Sy. apply zsum_ext. intros l Hl. now rewrite HM' by lia. }
      intros i Hi. rewrite EL by exact Hi. specialize (Sr i Hi). unfold eps14 in Sr. eapply Rle_trans; [exact Sr|]. rewrite !rsum_zsum. right. f_equal. f_equal. f_equal.
      apply zsum_ext. intros l Hl. now rewrite HM' by lia.
Qed.
