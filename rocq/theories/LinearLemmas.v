(** C38 to C40, in the form of the properties. *)
From Coq Require Import List Lia Lra.
From Verif Require Import MachineProofs LinearModel LinearSpec LinearContract LoopProofs SamplingProofs BSplineDeriv LinearProofs LinearProofs2 LinearProofs3 LinearProofs4 LinearProofs5 LinearProofs6.
From Coq Require Import ZifyBool.
Import ListNotations.
Local Open Scope Z_scope.

Lemma create_zero A c : sensible c -> exists p, create A c = Ok p /\ zero_prob A (shape_of c) p.
Proof.
  destruct c as [n | n | n kl ku pds | n kl ku pds bottom top | n kl ku pds]; cbn [sensible create shape_of]; intros H.
  - destruct (new_dense_zero A n H) as (e & -> & Z). eexists. split; [reflexivity|]. now apply zero_elem_prob.
  - destruct (new_sparse_zero A n H) as (e & -> & Z). eexists. split; [reflexivity|]. now apply zero_elem_prob.
  - destruct H as (H1 & H2 & H3 & H4 & H5). destruct (make_new_band_zero A n kl ku pds H1 H2 H3 H4 H5) as (e & -> & Z). eexists. split; [reflexivity|]. now apply zero_elem_prob.
  - destruct H as (H1 & H2 & H3 & H4 & H5 & H6 & H7 & H8). exact (make_new_block_zero A n kl ku pds bottom top H1 H2 H3 H4 H5 H6 H7 H8).
  - destruct H as (H1 & H2 & H3 & H4 & H5). exact (make_periodic_zero A n kl ku pds H1 H2 H3 H4 H5).
Qed.
Lemma store_ok A c h : sensible c -> assignments A (shape_of c) h ->
  exists p0 p, create A c = Ok p0 /\ set_all A p0 h = Ok p /\ wf_prob A (shape_of c) p /\
    forall i j, 0 <= i < sh_n (shape_of c) -> 0 <= j < sh_n (shape_of c) -> get_element A p i j = Ok (kept (nofz A 0) (shape_of c) h i j).
Proof.
  intros Hs Hh. destruct (create_zero A c Hs) as (p0 & E & W & Z). destruct (set_all_at A (shape_of c) p0 h W Z Hh) as (p & E2 & W2 & G).
  exists p0, p. auto.
Qed.
Lemma st_round_trip : forall A c h, sensible c -> assignments A (shape_of c) h ->
  exists p0 p, create A c = Ok p0 /\ set_all A p0 h = Ok p /\
    forall i j, 0 <= i < sh_n (shape_of c) -> 0 <= j < sh_n (shape_of c) -> get_element A p i j = Ok (kept (nofz A 0) (shape_of c) h i j).
Proof. intros A c h Hs Hh. destruct (store_ok A c h Hs Hh) as (p0 & p & H1 & H2 & _ & H3). eauto. Qed.

Lemma st_exact : forall X c h p0 p tr b x, exact_solvers X -> sensible c -> assignments RA (shape_of c) h ->
  create RA c = Ok p0 -> set_all RA p0 h = Ok p -> let M := kept 0%R (shape_of c) h in
  none_negligible (shape_of c) M -> setup_and_solve RA X p b tr = Ok x ->
  a_len b = required_rows p /\ a_len x = a_len b /\ solves (sh_n (shape_of c)) M tr (a_at x) (a_at b).
Proof.
  intros X c h p0 p tr b x HX Hs Hh E1 E2 M N E. destruct (store_ok RA c h Hs Hh) as (q0 & q & F1 & F2 & W & G). rewrite E1 in F1.
  assert (q0 = p0) as -> by congruence. rewrite E2 in F2. assert (q = p) as -> by congruence.
  exact (setup_and_solve_exact X HX (shape_of c) p M b x tr W G N E).
Qed.
Lemma st_total : forall X c h p0 p tr b, total_solvers X -> sensible c -> assignments RA (shape_of c) h ->
  create RA c = Ok p0 -> set_all RA p0 h = Ok p -> 1 <= sh_main (shape_of c) \/ sh_kind (shape_of c) = General -> a_len b = required_rows p ->
  exists x, setup_and_solve RA X p b tr = Ok x /\ a_len x = a_len b.
Proof.
  intros X c h p0 p tr b HX Hs Hh E1 E2 Hm Hb. destruct (store_ok RA c h Hs Hh) as (q0 & q & F1 & F2 & W & G). rewrite E1 in F1.
  assert (q0 = p0) as -> by congruence. rewrite E2 in F2. assert (q = p) as -> by congruence.
  exact (setup_and_solve_total X HX (shape_of c) p b tr W Hm Hb).
Qed.
Lemma st_residual : forall X c h p0 p tr b x, exact_solvers X -> sensible c -> assignments RA (shape_of c) h ->
  create RA c = Ok p0 -> set_all RA p0 h = Ok p -> setup_and_solve RA X p b tr = Ok x ->
  let s := shape_of c in let n := sh_n s in let top := sh_top s in let m := sh_main s in let M := kept 0%R s h in
  let others := rsum n (fun j => if in_main s j then 0 else Rabs (a_at x j))%R in
  if tr then
    forall j, 0 <= j < n -> exists g,
      (in_main s j = false -> forall i, 0 <= i < m -> rsum m (fun l => M (top + i)%Z (top + l)%Z * g l)%R = M (top + i)%Z j) /\
      (Rabs (rsum n (fun i => M i j * a_at x i) - a_at b j) <=
       / 10 ^ 14 * (if in_main s j then others else rsum m (fun l => Rabs (a_at b (top + l)%Z)) + rsum m (fun l => Rabs (g l)) * others))%R
  else
    exists y, (forall i, 0 <= i < m -> rsum m (fun l => M (top + i)%Z (top + l)%Z * y l)%R = a_at b (top + i)%Z) /\
    forall i, 0 <= i < n ->
      (Rabs (rsum n (fun j => M i j * a_at x j) - a_at b i) <=
       / 10 ^ 14 * ((if in_main s i then 0 else rsum m (fun l => Rabs (y l))) + rsum m (fun l => Rabs (M i (top + l)%Z)) * others))%R.
Proof.
  intros X c h p0 p tr b x HX Hs Hh E1 E2 E. destruct (store_ok RA c h Hs Hh) as (q0 & q & F1 & F2 & W & G). rewrite E1 in F1.
  assert (q0 = p0) as -> by congruence. rewrite E2 in F2. assert (q = p) as -> by congruence.
  cbv zeta. pose proof (setup_and_solve_residual X HX (shape_of c) p _ b x tr W G E) as S. cbv zeta in S. unfold residual in S. destruct tr; exact S.
Qed.

(** A solver that is exact: it solves dense systems of one equation. *)
Definition solve_one (a : arr2 R) (tr : bool) (b : arr R) : res (arr R) :=
  if (a2_n a =? 1) && (a2_m a =? 1)
  then if Req_EM_T (a2_at a 0 0) 0 then Rejected else Ok (mk_arr 1 (fun _ => a_at b 0 / a2_at a 0 0)%R)
  else Rejected.
Definition one_unknown : solvers RA :=
  @mk_solvers RA solve_one (fun _ _ _ _ _ => Rejected) (fun _ _ => Rejected) (fun _ _ _ => Rejected) solve_one.
Lemma solve_one_exact a tr : exact_for (a2_n a) (a2_at a) tr (solve_one a tr).
Proof.
  intros b x Hb E. unfold solve_one in E.
  destruct ((a2_n a =? 1) && (a2_m a =? 1)) eqn:E1; [|discriminate]. destruct (Req_EM_T (a2_at a 0 0) 0) as [|Hz]; [discriminate|].
  assert (Hinj : forall u v : arr R, Ok u = Ok v -> u = v) by congruence. apply Hinj in E. subst x. cbn [a_len a_at]. split; [lia|].
  assert (a2_n a = 1) as -> by lia. intros i Hi. assert (i = 0) as -> by lia. unfold rsum. change (Z.to_nat 1) with 1%nat. cbn [seq map fold_right]. change (Z.of_nat 0) with 0.
  destruct tr; field; exact Hz.
Qed.
Lemma one_unknown_exact : exact_solvers one_unknown.
Proof.
  split; [|split; [|split; [|split]]]; try discriminate; intros a tr Ha; apply solve_one_exact.
Qed.
(** The 2 x 2 matrix with rows (1, v), (0, 1). *)
Definition pair_history (v : R) : list (Z * Z * R) := [(0, 0, 1%R); (0, 1, v); (1, 1, 1%R)].
Definition pair_creation : creation := Some_blocks 2 0 0 false 1 0.
Lemma pair_sensible : sensible pair_creation. Proof. cbn. lia. Qed.
Lemma pair_assignments v : assignments RA (shape_of pair_creation) (pair_history v).
Proof.
  assert (K : forall i j, 0 <= i < 2 -> 0 <= j < 2 -> in_shape (shape_of pair_creation) i j = true).
  { intros i j Hi Hj. unfold in_shape. destruct (in_main _ i && in_main _ j); reflexivity. }
  apply Forall_forall. intros ((i & j) & w) [H | [H | [H | []]]]; injection H as <- <- _; (split; [cbn; lia|]; split; [cbn; lia|]); intros C; rewrite K in C by lia; discriminate.
Qed.
Definition pair_rhs : arr R := mk_arr 2 (fun k => if k =? 0 then 0%R else 1%R).
Definition pair_blocks (v : R) : blocks RA :=
  @mk_blocks RA 2 (@Dense RA (mk_arr2 1 1 (upd2 (fun _ _ => 0%R) 0 0 1%R))) (mk_arr2 1 1 (upd2 (fun _ _ => 0%R) 0 0 v))
    (mk_arr2 1 1 (fun _ _ => 0%R)) (@Dense RA (mk_arr2 1 1 (upd2 (fun _ _ => 0%R) 0 0 1%R))).
Lemma pair_built v : rbind (create RA pair_creation) (fun p0 => set_all RA p0 (pair_history v)) = Ok (Blocks2 (pair_blocks v)).
Proof. reflexivity. Qed.
Lemma one_solvable (a : arr2 R) e : e = @Dense RA a \/ e = @Sparse RA a -> a2_n a = 1 -> a2_m a = 1 -> a2_at a 0 0 <> 0%R -> solvable one_unknown 1 e.
Proof.
  intros He H1 H2 Hz b tr Hb. unfold elem_solve, assert_. destruct He as [-> | ->];
  cbn [elem_size one_unknown getrs bicgstab]; unfold solve_one; change (num RA) with R in *; rewrite H1, ?H2, Hb; cbn [Z.eqb Pos.eqb andb];
  (destruct (Req_EM_T (a2_at a 0 0) 0) as [C|_]; [contradiction|]; eexists; split; [reflexivity|]; reflexivity).
Qed.
Lemma pair_run v : exists p0 p x, create RA pair_creation = Ok p0 /\ set_all RA p0 (pair_history v) = Ok p /\
  setup_and_solve RA one_unknown p pair_rhs false = Ok x.
Proof.
  destruct (store_ok RA pair_creation (pair_history v) pair_sensible (pair_assignments v)) as (p0 & p & E0 & E & W & _).
  pose proof (pair_built v) as B. rewrite E0 in B. cbn [rbind] in B. rewrite E in B. assert (p = Blocks2 (pair_blocks v)) by congruence. subst p.
  exists p0, (Blocks2 (pair_blocks v)). cbn [wf_prob setup_and_solve] in *. destruct W as (_ & W). cbn in W.
  assert (V1 : solvable one_unknown 1 (bk_top_left (pair_blocks v))) by (eapply one_solvable; [left; reflexivity | reflexivity | reflexivity | cbn; lra]).
  destruct (setup_total one_unknown _ _ _ _ W V1) as (st & G & lG & lB & Es & U1 & U2 & U3 & U4 & U5 & IG & U6 & IB & U7).
  destruct (setup_ok one_unknown one_unknown_exact _ _ _ _ _ W Es) as (G' & SU). pose proof SU as [_ _ _ _ _ _ _ _ S9].
  assert (V2 : solvable one_unknown (2 - 1) (pr_bottom_right st)).
  { specialize (S9 0 0 ltac:(lia) ltac:(lia)). unfold zsum in S9. change (Z.to_nat 1) with 1%nat in S9. cbn in S9.
    destruct (pr_bottom_right st) as [a | | | | a]; destruct U7 as (_ & U7); try contradiction; change (num RA) with R in *.
    - apply (one_solvable a); try tauto. cbn in S9. rewrite S9. unfold upd2. cbn. lra.
    - apply (one_solvable a); try tauto. cbn in S9. rewrite S9. unfold upd2. cbn. lra. }
  destruct (setup_solve_2x2_total one_unknown _ _ _ _ st G lG lB W V1 V2 U1 U2 U3 U4 U5 IG U6 IB U7 pair_rhs false eq_refl) as (x & Ex & _).
  exists x. rewrite Es. cbn [rbind]. auto.
Qed.
Lemma cut_zero : cut 0 = 0%R. Proof. destruct (cut_spec 0) as [H | [H _]]; exact H. Qed.
Lemma cut_small v : (Rabs v < / 10 ^ 14)%R -> cut v = 0%R.
Proof.
  intros H. unfold cut. rewrite nabs_Rabs. unfold R_leb. destruct (Rle_dec (tol14 RA) (Rabs v)) as [C|]; [|reflexivity]. exfalso.
  replace (tol14 RA) with (/ 10 ^ 14)%R in C. { lra. }
  unfold tol14. cbn [ndiv nofz RA]. rewrite (pow_IZR 10 14). change (Z.of_nat 14) with 14. unfold Rdiv. ring.
Qed.
Lemma st_dropped : exists X c h p0 p b x, exact_solvers X /\ sensible c /\ assignments RA (shape_of c) h /\
  create RA c = Ok p0 /\ set_all RA p0 h = Ok p /\ setup_and_solve RA X p b false = Ok x /\
  ~ solves (sh_n (shape_of c)) (kept 0%R (shape_of c) h) false (a_at x) (a_at b).
Proof.
  set (v := (/ 10 ^ 15)%R). destruct (pair_run v) as (p0 & p & x & E0 & E & Ex).
  exists one_unknown, pair_creation, (pair_history v), p0, p, pair_rhs, x.
  split; [exact one_unknown_exact|]. split; [exact pair_sensible|]. split; [apply pair_assignments|]. split; [exact E0|]. split; [exact E|]. split; [exact Ex|].
  intros S. specialize (S 0 ltac:(cbn; lia)). revert S. cbn [shape_of pair_creation sh_n]. unfold rsum. change (Z.to_nat 2) with 2%nat. cbn [seq map fold_right].
  change (Z.of_nat 0) with 0. change (Z.of_nat 1) with 1. 
  replace (kept 0%R _ (pair_history v) 0 0) with 1%R by reflexivity. replace (kept 0%R _ (pair_history v) 0 1) with v by reflexivity.
  cbn [pair_rhs a_at]. replace (if 0 =? 0 then 0%R else 1%R) with 0%R by reflexivity. intros S.
  destruct (store_ok RA pair_creation (pair_history v) pair_sensible (pair_assignments v)) as (q0 & q & F0 & F & W & _).
  assert (q0 = p0) by congruence. subst q0. assert (q = p) by congruence. subst q.
  pose proof (pair_built v) as B. rewrite E0 in B. cbn [rbind] in B. rewrite E in B. assert (p = Blocks2 (pair_blocks v)) by congruence. subst p.
  cbn [wf_prob setup_and_solve] in *. destruct W as (_ & W). cbn [shape_of pair_creation sh_n sh_main sh_kind] in W. change (2 - 0 - 1) with 1 in W.
  destruct (setup_solver RA one_unknown (pair_blocks v)) as [st | |] eqn:Es; cbn [rbind] in Ex; try discriminate.
  destruct (setup_ok one_unknown one_unknown_exact _ _ _ _ _ W Es) as (G & SU). pose proof SU as [_ _ _ _ U5 _ _ _ _].
  pose proof (solve_2x2_ok one_unknown one_unknown_exact _ _ _ _ _ _ _ _ _ W SU Ex) as Sx. cbv zeta in Sx. destruct Sx as (_ & _ & x1 & x2 & A1 & A2 & y1 & _ & S1 & S2).
  specialize (U5 0 0 ltac:(lia) ltac:(lia)). specialize (A1 0 ltac:(lia)). specialize (A2 0 ltac:(lia)). specialize (S1 0 ltac:(lia)). specialize (S2 0 ltac:(lia)).
  change (2 - 1) with 1 in *. change (1 + 0) with 1 in *. unfold zsum in *. change (Z.to_nat 1) with 1%nat in *. cbn [nsum] in *. change (Z.of_nat 0) with 0 in *.
  change (elem_at RA (bk_top_left (pair_blocks v)) 0 0) with 1%R in *. change (a2_at (bk_top_right (pair_blocks v)) 0 0) with v in *.
  change (elem_at RA (bk_bottom_right (pair_blocks v)) 0 0) with 1%R in *. change (a2_at (bk_bottom_left (pair_blocks v)) 0 0) with 0%R in *.
  change (a_at pair_rhs 0) with 0%R in *. change (a_at pair_rhs 1) with 1%R in *. rewrite cut_zero in S2.
  assert (EG : a2_at G 0 0 = v) by lra. rewrite EG in *.
  assert (Hv : (0 < v < / 10 ^ 14)%R). { unfold v. split; [apply Rinv_0_lt_compat; apply pow_lt; lra|]. apply Rinv_lt_contravar; [apply Rmult_lt_0_compat; apply pow_lt; lra|]. lra. }
  rewrite cut_small in S1, S2 by (rewrite Rabs_pos_eq by lra; lra). rewrite A1, A2 in S.
  assert (Hx : x2 0 = 1%R) by lra. rewrite Hx in *. lra.
Qed.
(** The hypotheses of [st_exact] are met. *)
Lemma pair_not_negligible : none_negligible (shape_of pair_creation) (kept 0%R (shape_of pair_creation) (pair_history 1)).
Proof.
  assert (H1 : ~ negligible 1). { intros [_ H]. rewrite Rabs_R1 in H. apply (Rlt_irrefl 1). eapply Rlt_trans; [exact H|]. apply (Rmult_lt_reg_l (10 ^ 14)); [apply pow_lt; lra|]. rewrite Rinv_r by (apply pow_nonzero; lra). lra. }
  assert (H0 : ~ negligible 0) by (intros [H _]; now apply H).
  split; cbn [shape_of pair_creation sh_n sh_main sh_top].
  - intros i l Hi Hmi Hl. assert (i = 1). { unfold in_main in Hmi. cbn in Hmi. lia. } assert (l = 0) by lia. subst. exact H0.
  - intros j y Hj Hmj Hy l Hl. assert (j = 1). { unfold in_main in Hmj. cbn in Hmj. lia. } assert (l = 0) by lia. subst. specialize (Hy 0 ltac:(lia)).
    unfold rsum in Hy. change (Z.to_nat (2 - 0 - 1)) with 1%nat in Hy. cbn [seq map fold_right] in Hy. change (Z.of_nat 0) with 0 in Hy. change (0 + 0) with 0 in Hy.
    replace (kept 0%R _ (pair_history 1) 0 0) with 1%R in Hy by reflexivity. replace (kept 0%R _ (pair_history 1) 0 1) with 1%R in Hy by reflexivity.
    replace (y 0) with 1%R by lra. exact H1.
Qed.

(** C40 *)
Lemma sp_chunks : forall A (apply : arr2 (num A) -> res (arr2 (num A))) (P : (Z -> num A) -> (Z -> num A) -> Prop) limit (b : arr2 (num A)),
  (forall u u' v v', (forall i, u i = u' i) -> (forall i, v i = v' i) -> P u v -> P u' v') ->
  1 <= a2_m b < 2 ^ 63 -> 1 <= limit ->
  (forall c, a2_n c = a2_n b -> 1 <= a2_m c <= limit ->
     exists x, apply c = Ok x /\ a2_m x = a2_m c /\ forall k, 0 <= k < a2_m c -> P (fun i => a2_at c i k) (fun i => a2_at x i k)) ->
  exists x chunks, sparse_solve A apply (a2_n b) limit b = Ok (x, chunks) /\ a2_n x = a2_n b /\ a2_m x = a2_m b /\
    consecutive 0 (a2_m b) chunks /\ Forall (fun '(lo, hi) => hi - lo <= limit) chunks /\
    forall k, 0 <= k < a2_m b -> P (fun i => a2_at b i k) (fun i => a2_at x i k).
Proof. intros A apply P limit b HP. now apply sparse_solve_ok. Qed.
Lemma sp_solves : forall (apply : arr2 R -> res (arr2 R)) M tr limit (b : arr2 R), 1 <= a2_m b < 2 ^ 63 -> 1 <= limit ->
  (forall c, a2_n c = a2_n b -> 1 <= a2_m c <= limit ->
     exists x, apply c = Ok x /\ a2_m x = a2_m c /\ forall k, 0 <= k < a2_m c -> solves (a2_n b) M tr (fun i => a2_at x i k) (fun i => a2_at c i k)) ->
  exists x chunks, sparse_solve RA apply (a2_n b) limit b = Ok (x, chunks) /\
    forall k, 0 <= k < a2_m b -> solves (a2_n b) M tr (fun i => a2_at x i k) (fun i => a2_at b i k).
Proof.
  intros apply M tr limit b Hb Hl HA.
  destruct (sparse_solve_ok RA apply (fun u v => solves (a2_n b) M tr v u) limit b) as (x & ch & E & _ & _ & _ & _ & S); try assumption.
  - intros u u' v v' Hu Hv S i Hi. rewrite <- Hu, <- (S i Hi). rewrite !rsum_zsum. apply zsum_ext. intros j Hj. now rewrite Hv.
  - eauto.
Qed.
(** A solver that fails on a chunk makes the whole call fail. *)
Lemma sp_rejected : forall A (apply : arr2 (num A) -> res (arr2 (num A))) limit (b : arr2 (num A)), 1 <= a2_m b < 2 ^ 63 -> 1 <= limit ->
  (forall c, apply c = Rejected) -> sparse_solve A apply (a2_n b) limit b = Rejected.
Proof.
  intros A apply limit b Hb Hl HA. unfold sparse_solve, assert_. rewrite Z.eqb_refl. set (m := Z.min limit (a2_m b)). assert (Hm : 1 <= m <= a2_m b) by lia.
  replace (m =? 0) with false by lia. unfold u64_sub, u64_add. rewrite (u64_id (a2_m b + m)) by lia. rewrite (u64_id (a2_m b + m - 1)) by lia.
  destruct (ceil_spec (a2_m b) m ltac:(lia) ltac:(lia)) as (Q1 & Q2). set (q := (a2_m b + m - 1) / m) in *. clearbody q.
  unfold for_range. replace (Z.to_nat (q - 0)) with (S (Z.to_nat (q - 1))) by lia. cbn [for_n].
  unfold columns, u64_mul. rewrite (u64_id (0 * m)) by lia. rewrite (u64_id (0 + 1)) by lia. rewrite (u64_id (0 * m + m)) by lia.
  assert (H1 : (0 * m < if 0 + 1 =? q then a2_m b else 0 * m + m) /\ ((if 0 + 1 =? q then a2_m b else 0 * m + m) <= m) /\ (if 0 + 1 =? q then a2_m b else 0 * m + m) <= a2_m b).
  { destruct (0 + 1 =? q) eqn:E; [assert (q = 1) by lia; subst; lia | lia]. }
  replace (_ && _) with true by lia. cbn [rbind]. rewrite (u64_id (_ - 0 * m)) by lia. replace (_ <=? m) with true by lia. rewrite HA. reflexivity.
Qed.
