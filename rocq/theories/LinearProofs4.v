(** Proofs for C39: from the blocks to the whole system; 3x3 blocks. *)
From Coq Require Import List Lia Lra.
From Verif Require Import MachineProofs LinearModel LinearSpec LinearContract LoopProofs SamplingProofs BSplineDeriv LinearProofs LinearProofs2 LinearProofs3.
From Coq Require Import ZifyBool.
Import ListNotations.
Local Open Scope Z_scope.

Definition iperm (top nq k : Z) : Z := if k <? nq then k + top else if k <? nq + top then k - nq else k.
Lemma iperm_cases top nq k : 0 <= top -> (k < nq /\ iperm top nq k = k + top) \/ (nq <= k < nq + top /\ iperm top nq k = k - nq) \/ (nq <= k /\ nq + top <= k /\ iperm top nq k = k).
Proof. intros. unfold iperm. destruct (k <? nq) eqn:E1; [lia|]. destruct (k <? nq + top) eqn:E2; lia. Qed.
Lemma perm_iperm top nq k : 0 <= top -> 0 <= nq -> 0 <= k -> perm top nq (iperm top nq k) = k.
Proof.
  intros. destruct (iperm_cases top nq k ltac:(lia)) as [[H2 ->] | [[H2 ->] | (H2 & H3 & ->)]];
    match goal with |- perm _ _ ?a = _ => destruct (perm_cases top nq a ltac:(lia)) as [[? ->] | [[? ->] | (? & ? & ->)]]; lia end.
Qed.
Lemma iperm_perm top nq k : 0 <= top -> 0 <= nq -> 0 <= k -> iperm top nq (perm top nq k) = k.
Proof.
  intros. destruct (perm_cases top nq k ltac:(lia)) as [[H2 ->] | [[H2 ->] | (H2 & H3 & ->)]];
    match goal with |- iperm _ _ ?a = _ => destruct (iperm_cases top nq a ltac:(lia)) as [[? ->] | [[? ->] | (? & ? & ->)]]; lia end.
Qed.
Lemma iperm_range top nq k n : 0 <= k < n -> 0 <= top -> 0 <= nq -> top + nq <= n -> 0 <= iperm top nq k < n.
Proof. intros. destruct (iperm_cases top nq k ltac:(lia)) as [[H3 ->] | [[H3 ->] | (H3 & H4 & ->)]]; lia. Qed.
Lemma perm_zero nq k : 0 <= k -> perm 0 nq k = k.
Proof. intros. unfold perm. destruct (k <? 0) eqn:E; [lia|]. destruct (k <? 0 + nq); lia. Qed.

Lemma zsum_perm top nq n f : 0 <= top -> 0 <= nq -> top + nq <= n -> zsum n (fun j => f (perm top nq j)) = zsum n f.
Proof.
  intros Ht Hq Hn. replace n with ((top + nq) + (n - top - nq)) by lia.
  rewrite !(zsum_split (top + nq) (n - top - nq)) by lia. f_equal.
  - rewrite (zsum_split top nq) by lia. rewrite (Z.add_comm top nq), (zsum_split nq top) by lia. rewrite Rplus_comm. f_equal.
    + apply zsum_ext. intros m Hm. f_equal. destruct (perm_cases top nq (top + m) ltac:(lia)) as [[H2 ->] | [[H2 ->] | (H2 & H3 & ->)]]; lia.
    + apply zsum_ext. intros m Hm. f_equal. destruct (perm_cases top nq m ltac:(lia)) as [[H2 ->] | [[H2 ->] | (H2 & H3 & ->)]]; lia.
  - apply zsum_ext. intros m Hm. f_equal. destruct (perm_cases top nq (top + nq + m) ltac:(lia)) as [[H2 ->] | [[H2 ->] | (H2 & H3 & ->)]]; lia.
Qed.
Lemma zsum_abs n f : (Rabs (zsum n f) <= zsum n (fun m => Rabs (f m)))%R.
Proof.
  unfold zsum. induction (Z.to_nat n) as [|k IH]; cbn [nsum]. { rewrite Rabs_R0. lra. }
  eapply Rle_trans; [apply Rabs_triang|]. lra.
Qed.
Lemma zsum_le n f g : (forall m, 0 <= m < n -> (f m <= g m)%R) -> (zsum n f <= zsum n g)%R.
Proof.
  intros H. unfold zsum. assert (G : forall k, (k <= Z.to_nat n)%nat -> (nsum k f <= nsum k g)%R); [|apply G; lia].
  induction k as [|k IH]; intros Hk; cbn [nsum]; [lra|]. specialize (H (Z.of_nat k) ltac:(lia)). specialize (IH ltac:(lia)). lra.
Qed.
Lemma zsum_nonneg n f : (forall m, 0 <= m < n -> (0 <= f m)%R) -> (0 <= zsum n f)%R.
Proof. intros H. rewrite <- (zsum_zero n (fun _ => 0%R)) by reflexivity. now apply zsum_le. Qed.

(** The matrix kept by blocks, in the order of the user. *)
Section B.
Context (X : solvers RA) (HX : exact_solvers X).
Context (n top nq : Z) (k : kind) (b : blocks RA) (st : prepared RA) (G : arr2 R).
Context (W : wf_blocks RA n nq k b) (SU : set_up n nq k b st G) (Ht : 0 <= top) (Htn : top + nq <= n).
Definition bmat (top nq : Z) (b : blocks RA) (i j : Z) : R := blocks_at RA nq b (perm top nq i) (perm top nq j).

Lemma main_perm i : 0 <= i < n -> in_main (mk_shape n top nq k) i = (perm top nq i <? nq).
Proof.
  intros Hi. pose proof W as (Hq & _). unfold in_main. cbn [sh_top sh_main].
  destruct (perm_cases top nq i ltac:(lia)) as [[? ->] | [[? ->] | (? & ? & ->)]]; lia.
Qed.
Lemma perm_main l : 0 <= l < nq -> perm top nq (top + l) = l.
Proof. intros Hl. destruct (perm_cases top nq (top + l) ltac:(lia)) as [[? ->] | [[? ->] | (? & ? & ->)]]; lia. Qed.

(** The sums of the system, split along the blocks. *)
Lemma row_sum i' x : 0 <= i' < n ->
  zsum n (fun j => blocks_at RA nq b i' j * x j)%R =
  (if i' <? nq then zsum nq (fun j => elem_at RA (bk_top_left b) i' j * x j) + zsum (n - nq) (fun j => a2_at (bk_top_right b) i' j * x (nq + j)%Z)
   else zsum nq (fun j => a2_at (bk_bottom_left b) (i' - nq) j * x j) + zsum (n - nq) (fun j => elem_at RA (bk_bottom_right b) (i' - nq) j * x (nq + j)%Z))%R.
Proof.
  intros Hi. pose proof W as (Hq & _). replace n with (nq + (n - nq)) at 1 by lia. rewrite zsum_split by lia. unfold blocks_at.
  destruct (i' <? nq) eqn:E; f_equal; apply zsum_ext; intros j Hj; cbn [andb].
  - replace (j <? nq) with true by lia. reflexivity.
  - replace (nq + j <? nq) with false by lia. replace (nq <=? i') with false by lia. cbn [andb]. replace (nq <=? nq + j) with true by lia. now replace (nq + j - nq) with j by lia.
  - replace (nq <=? j) with false by lia. rewrite andb_false_r. reflexivity.
  - replace (nq <=? i') with true by lia. cbn [andb]. replace (nq <=? nq + j) with true by lia. now replace (nq + j - nq) with j by lia.
Qed.
Lemma col_sum i' x : 0 <= i' < n ->
  zsum n (fun j => blocks_at RA nq b j i' * x j)%R =
  (if i' <? nq then zsum nq (fun j => elem_at RA (bk_top_left b) j i' * x j) + zsum (n - nq) (fun j => a2_at (bk_bottom_left b) j i' * x (nq + j)%Z)
   else zsum nq (fun j => a2_at (bk_top_right b) j (i' - nq) * x j) + zsum (n - nq) (fun j => elem_at RA (bk_bottom_right b) j (i' - nq) * x (nq + j)%Z))%R.
Proof.
  intros Hi. pose proof W as (Hq & _). replace n with (nq + (n - nq)) at 1 by lia. rewrite zsum_split by lia. unfold blocks_at.
  destruct (i' <? nq) eqn:E; f_equal; apply zsum_ext; intros j Hj; rewrite ?andb_true_r, ?andb_false_r.
  - replace (j <? nq) with true by lia. reflexivity.
  - replace (nq + j <? nq) with false by lia. replace (nq <=? i') with false by lia. rewrite andb_false_r. now replace (nq + j - nq) with j by lia.
  - replace (nq <=? j) with false by lia. replace (nq <=? i') with true by lia. reflexivity.
  - replace (nq <=? i') with true by lia. replace (nq <=? nq + j) with true by lia. now replace (nq + j - nq) with j by lia.
Qed.

Lemma lam_bmat i l : 0 <= i < n - nq -> 0 <= l < nq -> a2_at (bk_bottom_left b) i l = bmat top nq b (iperm top nq (nq + i)) (top + l).
Proof.
  intros Hi Hl. unfold bmat. rewrite perm_main, perm_iperm by lia. unfold blocks_at.
  replace (nq + i <? nq) with false by lia. replace (nq <=? l) with false by lia. rewrite andb_false_r. cbn [andb]. now replace (nq + i - nq) with i by lia.
Qed.
Lemma gam_bmat i j : 0 <= i < nq -> 0 <= j < n - nq -> a2_at (bk_top_right b) i j = bmat top nq b (top + i) (iperm top nq (nq + j)).
Proof.
  intros Hi Hl. unfold bmat. rewrite perm_main, perm_iperm by lia. unfold blocks_at.
  replace (nq + j <? nq) with false by lia. replace (nq <=? i) with false by lia. rewrite andb_false_r. cbn [andb].
  replace (nq <=? nq + j) with true by lia. now replace (nq + j - nq) with j by lia.
Qed.
Lemma Q_bmat i l : 0 <= i < nq -> 0 <= l < nq -> elem_at RA (bk_top_left b) i l = bmat top nq b (top + i) (top + l).
Proof.
  intros Hi Hl. unfold bmat. rewrite !perm_main by lia. unfold blocks_at. replace (_ && _) with true by lia. reflexivity.
Qed.
Lemma other_main j : 0 <= j < n - nq -> in_main (mk_shape n top nq k) (iperm top nq (nq + j)) = false.
Proof.
  intros Hj. pose proof W as (Hq & _). rewrite main_perm. { rewrite perm_iperm by lia. lia. }
  apply iperm_range; lia.
Qed.

Lemma not_negligible_cut v : ~ negligible v -> (v - cut v = 0)%R.
Proof.
  intros H. destruct (cut_spec v) as [-> | [-> C]]; [ring|]. destruct (Req_dec v 0) as [-> | Hv]; [ring|].
  exfalso. apply H. split; assumption.
Qed.
Lemma dl_zero : none_negligible (mk_shape n top nq k) (bmat top nq b) -> forall i l, 0 <= i < n - nq -> 0 <= l < nq ->
  (a2_at (bk_bottom_left b) i l - cut (a2_at (bk_bottom_left b) i l) = 0)%R.
Proof.
  intros [N1 _] i l Hi Hl. pose proof W as (Hq & _). apply not_negligible_cut. rewrite (lam_bmat i l) by lia. apply (N1 _ l).
  - cbn. apply iperm_range; lia.
  - now apply other_main.
  - exact Hl.
Qed.
Lemma dG_zero : none_negligible (mk_shape n top nq k) (bmat top nq b) -> forall l j, 0 <= l < nq -> 0 <= j < n - nq ->
  (a2_at G l j - cut (a2_at G l j) = 0)%R.
Proof.
  intros [_ N2] l j Hl Hj. pose proof W as (Hq & _). destruct SU as [U1 U2 U3 U4 U5 _ _ _ _]. apply not_negligible_cut.
  apply (N2 (iperm top nq (nq + j)) (fun l => a2_at G l j)); cbn [sh_n sh_main sh_top].
  - apply iperm_range; lia.
  - now apply other_main.
  - intros i Hi. rewrite <- (gam_bmat i j) by lia. rewrite <- (U5 i j) by lia. rewrite rsum_zsum. apply zsum_ext. intros m Hm. now rewrite (Q_bmat i m) by lia.
  - exact Hl.
Qed.

(** The residual of a solution [x] of the permuted system with right-hand side [c]. *)
Definition lhs (tr : bool) (x : Z -> R) (i : Z) : R :=
  zsum n (fun j => (if tr then bmat top nq b j i else bmat top nq b i j) * x (perm top nq j))%R.
Lemma lhs_perm tr x i : 0 <= i < n -> lhs tr x i = zsum n (fun j => (if tr then blocks_at RA nq b j (perm top nq i) else blocks_at RA nq b (perm top nq i) j) * x j)%R.
Proof.
  intros Hi. pose proof W as (Hq & _). unfold lhs, bmat.
  exact (zsum_perm top nq n (fun j => (if tr then blocks_at RA nq b j (perm top nq i) else blocks_at RA nq b (perm top nq i) j) * x j)%R Ht ltac:(lia) Htn).
Qed.

Lemma exact_2x2 c x tr : none_negligible (mk_shape n top nq k) (bmat top nq b) -> solve_2x2 RA X st c tr = Ok x ->
  a_len c = n /\ a_len x = n /\ forall i, 0 <= i < n -> lhs tr (a_at x) i = a_at c (perm top nq i).
Proof.
  intros N E. pose proof W as (Hq & _). pose proof (solve_2x2_ok X HX n nq k b st G c x tr W SU E) as S. cbv zeta in S. destruct S as (Lc & Lx & x1 & x2 & A1 & A2 & S).
  split; [exact Lc|]. split; [exact Lx|]. intros i Hi. rewrite lhs_perm by exact Hi.
  assert (Hp : 0 <= perm top nq i < n) by (apply perm_range; lia). set (i' := perm top nq i) in *.
  assert (Z1 : forall (P : Z -> R), zsum nq (fun j => P j * a_at x j)%R = zsum nq (fun j => P j * x1 j)%R).
  { intros P. apply zsum_ext. intros m Hm. change (num RA) with R in *. now rewrite A1. }
  assert (Z2 : forall (P : Z -> R), zsum (n - nq) (fun j => P j * a_at x (nq + j)%Z)%R = zsum (n - nq) (fun j => P j * x2 j)%R).
  { intros P. apply zsum_ext. intros m Hm. change (num RA) with R in *. now rewrite A2. }
  change (num RA) with R in *.
  destruct tr.
  - destruct S as [S1 S2]. rewrite col_sum by exact Hp. destruct (i' <? nq) eqn:E1.
    + rewrite Z1, Z2. rewrite S1 by lia. rewrite (zsum_zero (n - nq)). { ring. }
      intros m Hm. rewrite (dl_zero N) by lia. ring.
    + rewrite Z1, Z2. rewrite S2 by lia. rewrite (zsum_zero nq (fun k0 => (_ - _) * _)%R). 2: { intros m Hm. rewrite (dG_zero N) by lia. ring. }
      rewrite (zsum_zero nq). 2: { intros m Hm. rewrite (zsum_zero (n - nq)). { ring. } intros m' Hm'. rewrite (dl_zero N) by lia. ring. }
      replace (nq + (i' - nq)) with i' by lia. ring.
  - destruct S as (y1 & S0 & S1 & S2). rewrite row_sum by exact Hp. destruct (i' <? nq) eqn:E1.
    + rewrite Z1, Z2. rewrite S1 by lia. rewrite (zsum_zero nq). { ring. }
      intros m Hm. rewrite (zsum_zero (n - nq)). { ring. } intros m' Hm'. rewrite (dG_zero N) by lia. ring.
    + rewrite Z1, Z2. rewrite S2 by lia. rewrite (zsum_zero nq (fun k0 => (_ - _) * _)%R). 2: { intros m Hm. rewrite (dl_zero N) by lia. ring. }
      rewrite (zsum_zero nq). 2: { intros m Hm. rewrite (zsum_zero (n - nq)). { ring. } intros m' Hm'. rewrite (dG_zero N) by lia. ring. }
      replace (nq + (i' - nq)) with i' by lia. ring.
Qed.
End B.

(** The interchanges of rows of 3x3 blocks. *)
Lemma copy_rows_ok (b : arr R) dl dh sl sh : 0 <= dl -> dl <= dh -> dh <= a_len b -> 0 <= sl -> sl <= sh -> sh <= a_len b -> dh - dl = sh - sl ->
  (dh <= sl \/ sh <= dl) -> copy_rows RA b dl dh sl sh = Ok (mk_arr (a_len b) (fun k => if (dl <=? k) && (k <? dh) then a_at b (sl + (k - dl)) else a_at b k)).
Proof.
  intros. unfold copy_rows. rewrite !rows_ok by lia. cbn [rbind]. unfold assert_. cbn [a_len].
  match goal with |- (if ?c then _ else _) = _ => replace c with true by lia end. reflexivity.
Qed.
Lemma copy_buffer_ok (b : arr R) dl dh sl sh : 0 <= dl -> dl <= dh -> dh <= a_len b -> 0 <= sl -> sl <= sh -> sh <= a_len b -> dh - dl = sh - sl ->
  copy_rows_buffer RA b dl dh sl sh = Ok (mk_arr (a_len b) (fun k => if (dl <=? k) && (k <? dh) then a_at b (sl + (k - dl)) else a_at b k)).
Proof.
  intros. unfold copy_rows_buffer. rewrite !rows_ok by lia. cbn [rbind]. unfold assert_. cbn [a_len].
  match goal with |- (if ?c then _ else _) = _ => replace c with true by lia end. reflexivity.
Qed.
Lemma to_2_ok top nq n (b : arr R) : 0 <= top -> 0 <= nq -> top + nq <= n -> a_len b = n + top ->
  exists b', interchange_3_to_2 RA top nq n b = Ok b' /\ a_len b' = n + top /\ forall k, 0 <= k < n -> a_at b' (top + k) = a_at b (iperm top nq k).
Proof.
  intros Ht Hq Hn Hb. unfold interchange_3_to_2.
  assert (E : (if top <? n - (top + nq) then copy_rows_buffer RA b (2 * top + nq) (top + n) (top + nq) n else copy_rows RA b (2 * top + nq) (top + n) (top + nq) n)
    = Ok (mk_arr (a_len b) (fun k => if (2 * top + nq <=? k) && (k <? top + n) then a_at b (top + nq + (k - (2 * top + nq))) else a_at b k))).
  { destruct (top <? n - (top + nq)) eqn:E1; [apply copy_buffer_ok | apply copy_rows_ok]; lia. }
  change (num RA) with R in *. rewrite E. cbn [rbind]. rewrite copy_rows_ok by (cbn [a_len]; lia). cbn [a_len a_at].
  eexists. split; [reflexivity|]. split; [exact Hb|]. intros k Hk. cbn [a_at].
  destruct (iperm_cases top nq k ltac:(lia)) as [[H2 ->] | [[H2 ->] | (H2 & H3 & ->)]].
  - replace ((top + nq <=? top + k) && (top + k <? 2 * top + nq)) with false by lia. replace (_ && _) with false by lia. f_equal. lia.
  - replace ((top + nq <=? top + k) && (top + k <? 2 * top + nq)) with true by lia. replace (_ && _) with false by lia. f_equal. lia.
  - replace ((top + nq <=? top + k) && (top + k <? 2 * top + nq)) with false by lia. replace (_ && _) with true by lia. f_equal. lia.
Qed.
Lemma to_3_ok top nq n (b : arr R) : 0 <= top -> 0 <= nq -> top + nq <= n -> a_len b = n + top ->
  exists b', interchange_2_to_3 RA top nq n b = Ok b' /\ a_len b' = n + top /\ forall k, 0 <= k < n -> a_at b' k = a_at b (top + perm top nq k).
Proof.
  intros Ht Hq Hn Hb. unfold interchange_2_to_3. rewrite copy_rows_ok by lia. cbn [rbind].
  set (b1 := mk_arr _ _).
  assert (E : (if top <? n - (top + nq) then copy_rows_buffer RA b1 (top + nq) n (2 * top + nq) (top + n) else copy_rows RA b1 (top + nq) n (2 * top + nq) (top + n))
    = Ok (mk_arr (a_len b1) (fun k => if (top + nq <=? k) && (k <? n) then a_at b1 (2 * top + nq + (k - (top + nq))) else a_at b1 k))).
  { destruct (top <? n - (top + nq)) eqn:E1; [apply copy_buffer_ok | apply copy_rows_ok]; unfold b1; cbn [a_len]; lia. }
  rewrite E. eexists. split; [reflexivity|]. split; [exact Hb|]. intros k Hk. cbn [a_at]. unfold b1. cbn [a_at].
  destruct (perm_cases top nq k ltac:(lia)) as [[H2 ->] | [[H2 ->] | (H2 & H3 & ->)]].
  - replace ((top + nq <=? k) && (k <? n)) with false by lia. replace (_ && _) with true by lia. f_equal. lia.
  - replace ((top + nq <=? k) && (k <? n)) with false by lia. replace (_ && _) with false by lia. f_equal. lia.
  - replace ((top + nq <=? k) && (k <? n)) with true by lia. replace (_ && _) with false by lia. f_equal. lia.
Qed.

(** What a call of [solve] with 3x3 blocks asks of the 2x2 blocks. *)
Lemma solve_3x3_ok (X : solvers RA) n top nq st (b x : arr R) tr : pr_size st = n -> elem_size (pr_top_left st) = nq -> 0 <= top -> 0 <= nq -> top + nq <= n -> n < 2 ^ 61 ->
  (forall c d, solve_2x2 RA X st c tr = Ok d -> a_len d = n) ->
  solve_3x3 RA X top st b tr = Ok x ->
  a_len b = n + top /\ a_len x = n + top /\
  exists c d, solve_2x2 RA X st c tr = Ok d /\ a_len c = n /\ (forall k, 0 <= k < n -> a_at c k = a_at b (iperm top nq k)) /\
    (forall k, 0 <= k < n -> a_at x k = a_at d (perm top nq k)).
Proof.
  intros Hs He Ht Hq Hn Hm HL E. unfold solve_3x3, assert_ in E. rewrite Hs, He in E. unfold u64_add in E. rewrite u64_id in E by lia.
  change (num RA) with R in *.
  destruct (a_len b =? n + top) eqn:Eb; [|discriminate]. assert (Lb : a_len b = n + top) by lia. split; [exact Lb|].
  destruct (to_2_ok top nq n b Ht Hq Hn Lb) as (b' & E1 & L1 & G1). change (num RA) with R in *. rewrite E1 in E. cbn [rbind] in E.
  rewrite rows_ok in E by lia. cbn [rbind] in E.
  destruct (solve_2x2 RA X st _ tr) as [d | |] eqn:E2; cbn [rbind] in E; try discriminate.
  destruct (to_3_ok top nq n (put_rows RA b' top (top + n) d) Ht Hq Hn L1) as (x' & E3 & L3 & G3). change (num RA) with R in *. rewrite E3 in E.
  assert (Hinj : forall x y : arr R, Ok x = Ok y -> x = y) by congruence. apply Hinj in E. subst x'. split; [exact L3|].
  eexists. exists d. split; [exact E2|]. split; [cbn [a_len]; lia|]. split.
  - intros k Hk. cbn [a_at]. now apply G1.
  - intros k Hk. rewrite G3 by exact Hk. cbn [put_rows a_at]. pose proof (perm_range top nq k n Hk Ht Hq Hn).
    replace (_ && _) with true by lia. f_equal. lia.
Qed.

(** The exact solution, for every problem. *)
Lemma setup_and_solve_exact (X : solvers RA) (HX : exact_solvers X) (s : shape) (p : problem RA) (M : Z -> Z -> R) (b x : arr R) tr :
  wf_prob RA s p -> (forall i j, 0 <= i < sh_n s -> 0 <= j < sh_n s -> get_element RA p i j = Ok (M i j)) ->
  none_negligible s M -> setup_and_solve RA X p b tr = Ok x ->
  a_len b = required_rows p /\ a_len x = a_len b /\ solves (sh_n s) M tr (a_at x) (a_at b).
Proof.
  intros W HM N E.
  assert (HM' : forall i j, 0 <= i < sh_n s -> 0 <= j < sh_n s -> M i j = prob_at RA s p i j).
  { intros i j Hi Hj. specialize (HM i j Hi Hj). rewrite (get_element_at RA s) in HM by assumption. congruence. }
  assert (NP : forall M', (forall i j, 0 <= i < sh_n s -> 0 <= j < sh_n s -> M i j = M' i j) -> 0 <= sh_top s -> sh_top s + sh_main s <= sh_n s -> none_negligible s M').
  { intros M' HMM H0 H1. destruct N as [N1 N2]. split.
    - intros i l Hi Hmi Hl. rewrite <- HMM by lia. now apply N1.
    - intros j y Hj Hmj Hy. apply (N2 j y Hj Hmj). intros i Hi. rewrite HMM by lia. rewrite <- (Hy i Hi). rewrite !rsum_zsum. apply zsum_ext. intros l Hl. now rewrite HMM by lia. }
  destruct p as [e | bk | top bk]; cbn [wf_prob setup_and_solve prob_at required_rows prob_size] in *.
  - destruct W as (Ht & Hm & W). destruct (elem_solve_exact X HX _ _ _ _ _ _ W E) as (Lb & Lx & S). rewrite (wf_size _ _ _ _ W). change (num RA) with R in *.
    split; [exact Lb|]. split; [congruence|]. intros i Hi. rewrite <- (S i Hi). rewrite !rsum_zsum. apply zsum_ext. intros j Hj. destruct tr; rewrite HM' by lia; reflexivity.
  - destruct W as (Ht & W). pose proof W as (Hq & Hn & Hs & _). destruct (setup_solver RA X bk) as [st | |] eqn:Es; cbn [rbind] in E; try discriminate.
    destruct (setup_ok X HX _ _ _ _ _ W Es) as (G & SU). rewrite Hs.
    assert (Eq : s = mk_shape (sh_n s) 0 (sh_main s) (sh_kind s)) by (destruct s; cbn in *; congruence).
    assert (HP : forall i j, 0 <= i < sh_n s -> 0 <= j < sh_n s -> M i j = bmat 0 (sh_main s) bk i j).
    { intros i j Hi Hj. rewrite HM' by lia. unfold bmat. now rewrite !perm_zero by lia. }
    destruct (exact_2x2 X HX _ 0 _ _ _ _ _ W SU ltac:(lia) ltac:(lia) b x tr) as (Lb & Lx & S); [|exact E|].
    { rewrite <- Eq. apply NP; [exact HP | lia | lia]. }
    change (num RA) with R in *. split; [lia|]. split; [lia|]. intros i Hi. specialize (S i Hi). rewrite perm_zero in S by lia. rewrite <- S. unfold lhs. rewrite rsum_zsum.
    apply zsum_ext. intros j Hj. rewrite perm_zero by lia. destruct tr; rewrite HP by lia; reflexivity.
  - destruct W as (Ht & H0 & H1 & W). pose proof W as (Hq & Hn & Hs & W1 & _). destruct (setup_solver RA X bk) as [st | |] eqn:Es; cbn [rbind] in E; try discriminate.
    destruct (setup_ok X HX _ _ _ _ _ W Es) as (G & SU). rewrite Hs. pose proof SU as [U1 U2 _ _ _ _ _ _ _].
    assert (Eq : s = mk_shape (sh_n s) top (sh_main s) (sh_kind s)) by (destruct s; cbn in *; congruence).
    assert (NB : none_negligible (mk_shape (sh_n s) top (sh_main s) (sh_kind s)) (bmat top (sh_main s) bk)).
    { rewrite <- Eq. apply NP; [exact HM' | lia | lia]. }
    destruct (solve_3x3_ok X (sh_n s) top (sh_main s) st b x tr U1) as (Lb & Lx & c & d & E2 & Lc & Gc & Gx); try assumption; try lia.
    { rewrite U2. now apply (wf_size _ _ (sh_kind s)). }
    { intros c d Ed. apply (exact_2x2 X HX _ top _ _ _ _ _ W SU ltac:(lia) ltac:(lia) c d tr NB Ed). }
    destruct (exact_2x2 X HX _ top _ _ _ _ _ W SU ltac:(lia) ltac:(lia) c d tr NB E2) as (_ & Ld & S).
    unfold u64_add. rewrite u64_id by lia. change (num RA) with R in *. split; [lia|]. split; [lia|].
    intros i Hi. specialize (S i Hi). assert (Hp := perm_range top (sh_main s) i (sh_n s) Hi ltac:(lia) ltac:(lia) ltac:(lia)).
    rewrite Gc, iperm_perm in S by lia. rewrite <- S. unfold lhs. rewrite rsum_zsum.
    apply zsum_ext. intros j Hj. rewrite Gx by lia. destruct tr; rewrite HM' by lia; reflexivity.
Qed.
