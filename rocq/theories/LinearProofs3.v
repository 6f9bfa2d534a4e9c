(** Proofs for C39: the Schur complement, 2x2 and 3x3 blocks. *)
From Coq Require Import List Lia Lra.
From Verif Require Import MachineProofs LinearModel LinearSpec LinearContract LoopProofs SamplingProofs BSplineDeriv LinearProofs LinearProofs2.
From Coq Require Import ZifyBool.
Import ListNotations.
Local Open Scope Z_scope.

(** Algebra. *)
Section Algebra.
Context (nq n2 : Z) (Q gam lam del G S Gt lt : Z -> Z -> R).
Context (HG : forall i j, 0 <= i < nq -> 0 <= j < n2 -> zsum nq (fun l => Q i l * G l j)%R = gam i j).
Context (HS : forall i j, 0 <= i < n2 -> 0 <= j < n2 -> S i j = (del i j - zsum nq (fun l => lam i l * G l j))%R).
Lemma block_direct (x1 x2 y1 b1 b2 : Z -> R) :
  (forall i, 0 <= i < nq -> zsum nq (fun l => Q i l * y1 l)%R = b1 i) ->
  (forall i, 0 <= i < n2 -> zsum n2 (fun j => S i j * x2 j)%R = (b2 i - zsum nq (fun k => lt i k * y1 k))%R) ->
  (forall k, 0 <= k < nq -> x1 k = (y1 k - zsum n2 (fun j => Gt k j * x2 j))%R) ->
  (forall i, 0 <= i < nq -> (zsum nq (fun k => Q i k * x1 k) + zsum n2 (fun j => gam i j * x2 j)
     = b1 i + zsum nq (fun k => Q i k * zsum n2 (fun j => (G k j - Gt k j) * x2 j)))%R) /\
  (forall i, 0 <= i < n2 -> (zsum nq (fun k => lam i k * x1 k) + zsum n2 (fun j => del i j * x2 j)
     = b2 i + zsum nq (fun k => (lam i k - lt i k) * y1 k) + zsum nq (fun k => lam i k * zsum n2 (fun j => (G k j - Gt k j) * x2 j)))%R).
Proof.
  intros H1 H2 H3.
  assert (D : forall k, zsum n2 (fun j => (G k j - Gt k j) * x2 j)%R = (zsum n2 (fun j => G k j * x2 j) - zsum n2 (fun j => Gt k j * x2 j))%R).
  { intros k. rewrite <- zsum_minus. apply zsum_ext. intros; ring. }
  assert (C : forall (P : Z -> R), zsum nq (fun k => P k * x1 k)%R = (zsum nq (fun k => P k * y1 k) - zsum nq (fun k => P k * zsum n2 (fun j => Gt k j * x2 j)))%R).
  { intros P. rewrite <- zsum_minus. apply zsum_ext. intros k Hk. rewrite H3 by lia. ring. }
  assert (C2 : forall (P : Z -> R), zsum nq (fun k => P k * zsum n2 (fun j => (G k j - Gt k j) * x2 j))%R
     = (zsum nq (fun k => P k * zsum n2 (fun j => G k j * x2 j)) - zsum nq (fun k => P k * zsum n2 (fun j => Gt k j * x2 j)))%R).
  { intros P. rewrite <- zsum_minus. apply zsum_ext. intros k Hk. rewrite D. ring. }
  assert (C3 : forall (P : Z -> R), zsum nq (fun k => P k * zsum n2 (fun j => G k j * x2 j))%R = zsum n2 (fun j => zsum nq (fun k => P k * G k j) * x2 j)%R).
  { intros P. transitivity (zsum nq (fun k => zsum n2 (fun j => P k * G k j * x2 j)%R)).
    - apply zsum_ext. intros k Hk. rewrite <- zsum_scal. apply zsum_ext. intros; ring.
    - rewrite zsum_swap. apply zsum_ext. intros j Hj. now rewrite <- zsum_scal_r. }
  split; intros i Hi.
  - rewrite C, C2, C3, H1 by lia. rewrite (zsum_ext n2 (fun j => zsum nq (fun k => Q i k * G k j) * x2 j)%R (fun j => gam i j * x2 j)%R).
    2: { intros j Hj. now rewrite HG by lia. }
    ring.
  - rewrite C, C2, C3.
    rewrite (zsum_ext n2 (fun j => del i j * x2 j)%R (fun j => S i j * x2 j + zsum nq (fun k => lam i k * G k j) * x2 j)%R).
    2: { intros j Hj. rewrite HS by lia. ring. }
    rewrite zsum_plus, H2 by lia.
    replace (zsum nq (fun k => (lam i k - lt i k) * y1 k))%R with (zsum nq (fun k => lam i k * y1 k) - zsum nq (fun k => lt i k * y1 k))%R.
    2: { rewrite <- zsum_minus. apply zsum_ext. intros; ring. }
    ring.
Qed.
Lemma block_transposed (x1 x2 y1 b1 b2 : Z -> R) :
  (forall j, 0 <= j < n2 -> zsum n2 (fun i => S i j * x2 i)%R = (b2 j - zsum nq (fun k => Gt k j * b1 k))%R) ->
  (forall k, 0 <= k < nq -> y1 k = (b1 k - zsum n2 (fun i => lt i k * x2 i))%R) ->
  (forall k, 0 <= k < nq -> zsum nq (fun i => Q i k * x1 i)%R = y1 k) ->
  (forall k, 0 <= k < nq -> (zsum nq (fun i => Q i k * x1 i) + zsum n2 (fun i => lam i k * x2 i)
     = b1 k + zsum n2 (fun i => (lam i k - lt i k) * x2 i))%R) /\
  (forall j, 0 <= j < n2 -> (zsum nq (fun k => gam k j * x1 k) + zsum n2 (fun i => del i j * x2 i)
     = b2 j + zsum nq (fun k => (G k j - Gt k j) * b1 k) + zsum nq (fun k => G k j * zsum n2 (fun i => (lam i k - lt i k) * x2 i)))%R).
Proof.
  intros H1 H2 H3.
  assert (D : forall k, zsum n2 (fun i => (lam i k - lt i k) * x2 i)%R = (zsum n2 (fun i => lam i k * x2 i) - zsum n2 (fun i => lt i k * x2 i))%R).
  { intros k. rewrite <- zsum_minus. apply zsum_ext. intros; ring. }
  split.
  - intros k Hk. rewrite H3, H2, D by lia. ring.
  - intros j Hj.
    assert (E1 : zsum nq (fun k => gam k j * x1 k)%R = zsum nq (fun l => G l j * y1 l)%R).
    { transitivity (zsum nq (fun k => zsum nq (fun l => Q k l * G l j * x1 k)%R)).
      - apply zsum_ext. intros k Hk. rewrite <- HG by lia. now rewrite <- zsum_scal_r.
      - rewrite zsum_swap. apply zsum_ext. intros l Hl. rewrite <- H3 by lia. rewrite <- zsum_scal. apply zsum_ext. intros; ring. }
    assert (E2 : zsum n2 (fun i => del i j * x2 i)%R = (b2 j - zsum nq (fun k => Gt k j * b1 k) + zsum nq (fun l => G l j * zsum n2 (fun i => lam i l * x2 i)))%R).
    { rewrite (zsum_ext n2 _ (fun i => S i j * x2 i + zsum nq (fun l => lam i l * G l j * x2 i))%R).
      2: { intros i Hi. rewrite HS by lia. rewrite zsum_scal_r. ring. }
      rewrite zsum_plus, H1 by lia. f_equal. rewrite zsum_swap. apply zsum_ext. intros l Hl. rewrite <- zsum_scal. apply zsum_ext. intros; ring. }
    rewrite E1, E2.
    rewrite (zsum_ext nq (fun l => G l j * y1 l)%R (fun l => G l j * b1 l - G l j * zsum n2 (fun i => lt i l * x2 i))%R).
    2: { intros l Hl. rewrite H2 by lia. ring. }
    rewrite (zsum_ext nq (fun k => (G k j - Gt k j) * b1 k)%R (fun k => G k j * b1 k - Gt k j * b1 k)%R) by (intros; ring).
    rewrite (zsum_ext nq (fun k => G k j * zsum n2 (fun i => (lam i k - lt i k) * x2 i))%R
       (fun k => G k j * zsum n2 (fun i => lam i k * x2 i) - G k j * zsum n2 (fun i => lt i k * x2 i))%R).
    2: { intros l Hl. rewrite D. ring. }
    rewrite !zsum_minus. ring.
Qed.
End Algebra.

Lemma schur_ok nq n2 (bl tr : arr2 R) (br : elementary RA) : 0 <= nq -> 0 <= n2 -> a2_n bl = n2 -> a2_m bl = nq -> a2_n tr = nq -> a2_m tr = n2 ->
  wf_elem RA n2 General br ->
  exists br', compute_schur_complement RA nq bl tr br = Ok br' /\ wf_elem RA n2 General br' /\
    forall i j, 0 <= i < n2 -> 0 <= j < n2 -> elem_at RA br' i j = (elem_at RA br i j - zsum nq (fun l => a2_at bl i l * a2_at tr l j))%R.
Proof.
  intros Hq Hn B1 B2 T1 T2 W. unfold compute_schur_complement. rewrite (wf_size _ _ _ _ W).
  set (val := fun i j => zsum nq (fun l => a2_at bl i l * a2_at tr l j)%R).
  set (Inv := fun r c (e : elementary RA) => wf_elem RA n2 General e /\ forall i j, 0 <= i < n2 -> 0 <= j < n2 ->
     elem_at RA e i j = if (i <? r) || (i =? r) && (j <? c) then (elem_at RA br i j - val i j)%R else elem_at RA br i j).
  destruct (for_range_inv (fun r e => Inv r 0 e) (fun i br =>
    for_range 0 n2 (fun j br =>
      val <- for_range 0 nq (fun l val =>
        x <- aget2 bl i l ;; y <- aget2 tr l j ;; Ok (nadd RA val (nmul RA x y))) (nofz RA 0) ;;
      d <- elem_get RA br i j ;;
      elem_set RA br i j (nsub RA d val)) br) 0 n2 br Hn) as (e' & E & I).
  - split; [exact W|]. intros i j Hi Hj. replace (_ || _) with false by lia. reflexivity.
  - intros r e Hr I.
    destruct (for_range_inv (fun c e => Inv r c e) (fun j br =>
      val <- for_range 0 nq (fun l val =>
        x <- aget2 bl r l ;; y <- aget2 tr l j ;; Ok (nadd RA val (nmul RA x y))) (nofz RA 0) ;;
      d <- elem_get RA br r j ;;
      elem_set RA br r j (nsub RA d val)) 0 n2 e Hn) as (e' & E & I').
    + exact I.
    + intros c e1 Hc [W1 I1].
      destruct (for_range_inv (fun l (v : R) => v = zsum l (fun l => a2_at bl r l * a2_at tr l c)%R) (fun l val =>
        x <- aget2 bl r l ;; y <- aget2 tr l c ;; Ok (nadd RA val (nmul RA x y))) 0 nq (nofz RA 0) Hq) as (v & Ev & Iv).
      * reflexivity.
      * intros l v Hl Iv. rewrite aget2_ok by lia. cbn [rbind]. rewrite aget2_ok by lia. cbn [rbind]. eexists. split; [reflexivity|].
        rewrite zsum_S by lia. rewrite Iv. reflexivity.
      * assert (Ev' : for_range 0 nq (fun (l : Z) (val : num RA) => x <- aget2 bl r l ;; y <- aget2 tr l c ;; Ok (nadd RA val (nmul RA x y))) (nofz RA 0) = Ok (val r c)).
        { rewrite Iv in Ev. exact Ev. }
        change (num RA) with R in *. rewrite Ev'. cbn [rbind]. rewrite (elem_get_at RA n2 General) by (exact W1 || lia). cbn [rbind].
        destruct (elem_set_at RA n2 General e1 r c (nsub RA (elem_at RA e1 r c) (val r c)) W1 ltac:(lia) ltac:(lia) ltac:(discriminate)) as (e2 & E2 & W2 & G2).
        exists e2. split; [exact E2|]. split; [exact W2|]. intros i j Hi Hj. rewrite G2 by lia. cbn [kin andb]. unfold ksame. rewrite orb_false_r.
        destruct ((r =? i) && (c =? j)) eqn:Eij.
        { assert (r = i /\ c = j) as [-> ->] by lia. replace (_ || _) with true by lia. rewrite I1 by lia. replace (_ || _) with false by lia. reflexivity. }
        rewrite I1 by lia. apply if_eq. lia.
    + exists e'. split; [exact E|]. destruct I' as [W1 I1]. split; [exact W1|]. intros i j Hi Hj. rewrite I1 by lia. apply if_eq. lia.
  - exists e'. split; [exact E|]. destruct I as [W1 I1]. split; [exact W1|]. intros i j Hi Hj. rewrite I1 by lia. replace (_ || _) with true by lia. reflexivity.
Qed.

Lemma rows_ok (b : arr R) lo hi : 0 <= lo -> lo <= hi -> hi <= a_len b -> rows RA b lo hi = Ok (mk_arr (hi - lo) (fun k => a_at b (lo + k))).
Proof. intros. unfold rows. match goal with |- (if ?c then _ else _) = _ => replace c with true end; [reflexivity|]. change (num RA) with R. lia. Qed.

Section S.
Context (X : solvers RA) (HX : exact_solvers X).

(** What [setup_solver] computes. *)
Record set_up (n nq : Z) (k : kind) (b : blocks RA) (st : prepared RA) (G : arr2 R) : Prop := {
  su_size : pr_size st = n;
  su_tl : pr_top_left st = bk_top_left b;
  su_Gn : a2_n G = nq;
  su_Gm : a2_m G = n - nq;
  su_G : forall i j, 0 <= i < nq -> 0 <= j < n - nq -> zsum nq (fun l => elem_at RA (bk_top_left b) i l * a2_at G l j)%R = a2_at (bk_top_right b) i j;
  su_tr : exists l, pr_top_right st = @mk_coo RA nq (n - nq) l /\ coo_inv G nq 0 l;
  su_bl : exists l, pr_bottom_left st = @mk_coo RA (n - nq) nq l /\ coo_inv (bk_bottom_left b) (n - nq) 0 l;
  su_wf : wf_elem RA (n - nq) General (pr_bottom_right st);
  su_S : forall i j, 0 <= i < n - nq -> 0 <= j < n - nq ->
    elem_at RA (pr_bottom_right st) i j = (elem_at RA (bk_bottom_right b) i j - zsum nq (fun l => a2_at (bk_bottom_left b) i l * a2_at G l j))%R
}.
Lemma setup_ok n nq k b st : wf_blocks RA n nq k b -> setup_solver RA X b = Ok st -> exists G, set_up n nq k b st G.
Proof.
  intros (Hq & Hn & Hs & W1 & R1 & R2 & L1 & L2 & W2) E. unfold setup_solver in E.
  destruct (elem_solve_all RA X (bk_top_left b) (bk_top_right b) false) as [G | |] eqn:EG; cbn [rbind] in E; try discriminate.
  destruct (solve_all_exact X HX nq k (bk_top_left b) (bk_top_right b) G W1 ltac:(change (num RA) with R in *; lia) EG) as (G1 & G2 & _ & G3). change (num RA) with R in *.
  assert (M1 : a2_n G = nq) by lia. assert (M2 : a2_m G = n - nq) by lia.
  destruct (dense2coo_ok G ltac:(lia) ltac:(lia)) as (lG & EG' & IG).
  destruct (dense2coo_ok (bk_bottom_left b) ltac:(change (num RA) with R; lia) ltac:(change (num RA) with R; lia)) as (lB & EB & IB).
  change (num RA) with R in *. rewrite EG' in E. cbn [rbind] in E. rewrite EB in E. cbn [rbind] in E. rewrite (wf_size _ _ _ _ W1) in E.
  destruct (schur_ok nq (n - nq) (bk_bottom_left b) G (bk_bottom_right b) ltac:(lia) ltac:(lia) L1 L2 M1 M2 W2) as (br & Ebr & Wbr & Sbr).
  change (num RA) with R in *. rewrite Ebr in E. cbn [rbind] in E.
  assert (Hinj : forall x y : prepared RA, Ok x = Ok y -> x = y) by congruence. apply Hinj in E. subst st. exists G. constructor; cbn [pr_size pr_top_left pr_top_right pr_bottom_left pr_bottom_right]; try assumption.
  - reflexivity.
  - rewrite <- R2. exact G3.
  - exists lG. rewrite M1, M2 in *. split; [reflexivity | exact IG].
  - exists lB. rewrite L1, L2 in *. split; [reflexivity | exact IB].
Qed.

(** One solve with 2x2 blocks. *)
Lemma solve_2x2_ok n nq k b st G c x tr : wf_blocks RA n nq k b -> set_up n nq k b st G -> solve_2x2 RA X st c tr = Ok x ->
  let Q := elem_at RA (bk_top_left b) in let gam := a2_at (bk_top_right b) in
  let lam := a2_at (bk_bottom_left b) in let del := elem_at RA (bk_bottom_right b) in
  let b1 := a_at c in let b2 := fun j => a_at c (nq + j) in
  let dG := fun i j => (a2_at G i j - cut (a2_at G i j))%R in let dl := fun i j => (lam i j - cut (lam i j))%R in
  a_len c = n /\ a_len x = n /\ exists x1 x2,
  (forall j, 0 <= j < nq -> a_at x j = x1 j) /\ (forall j, 0 <= j < n - nq -> a_at x (nq + j) = x2 j) /\
  if tr then
    (forall k, 0 <= k < nq -> (zsum nq (fun i => Q i k * x1 i) + zsum (n - nq) (fun i => lam i k * x2 i) = b1 k + zsum (n - nq) (fun i => dl i k * x2 i))%R) /\
    (forall j, 0 <= j < n - nq -> (zsum nq (fun k => gam k j * x1 k) + zsum (n - nq) (fun i => del i j * x2 i)
       = b2 j + zsum nq (fun k => dG k j * b1 k) + zsum nq (fun k => a2_at G k j * zsum (n - nq) (fun i => dl i k * x2 i)))%R)
  else
    exists y1, (forall i, 0 <= i < nq -> zsum nq (fun l => Q i l * y1 l)%R = b1 i) /\
    (forall i, 0 <= i < nq -> (zsum nq (fun k => Q i k * x1 k) + zsum (n - nq) (fun j => gam i j * x2 j)
       = b1 i + zsum nq (fun k => Q i k * zsum (n - nq) (fun j => dG k j * x2 j)))%R) /\
    (forall i, 0 <= i < n - nq -> (zsum nq (fun k => lam i k * x1 k) + zsum (n - nq) (fun j => del i j * x2 j)
       = b2 i + zsum nq (fun k => dl i k * y1 k) + zsum nq (fun k => lam i k * zsum (n - nq) (fun j => dG k j * x2 j)))%R).
Proof.
  intros (Hq & Hn & Hs & W1 & R1 & R2 & L1 & L2 & W2) [U1 U2 U3 U4 U5 (lG & U6 & IG) (lB & U7 & IB) U8 U9] E. cbv zeta.
  unfold solve_2x2, assert_ in E. rewrite U1, U2 in E. rewrite (wf_size _ _ _ _ W1) in E. change (num RA) with R in *.
  destruct (a_len c =? n) eqn:Ec; [|discriminate]. assert (Hc : a_len c = n) by lia. split; [exact Hc|].
  rewrite rows_ok in E by lia. cbn [rbind] in E. rewrite rows_ok in E by lia. cbn [rbind] in E. rewrite U6, U7 in E.
  assert (Hinj : forall x y : arr R, Ok x = Ok y -> x = y) by congruence.
  assert (IG' : coo_inv G (a2_n G) 0 lG) by (rewrite U3; exact IG).
  assert (IB' : coo_inv (bk_bottom_left b) (a2_n (bk_bottom_left b)) 0 lB) by (change (num RA) with R; rewrite L1; exact IB).
  assert (SG := fun (tr : bool) (x y : arr R) => spdm_ok G lG tr x y ltac:(lia) ltac:(lia) IG'). rewrite U3, U4 in SG.
  assert (SB := fun (tr : bool) (x y : arr R) => spdm_ok (bk_bottom_left b) lB tr x y ltac:(change (num RA) with R; lia) ltac:(change (num RA) with R; lia) IB').
  change (num RA) with R in *. rewrite L1, L2 in SB.
  destruct tr; cbn [negb] in E.
  - destruct (SG true (mk_arr (nq - 0) (fun k : Z => a_at c (0 + k))) (mk_arr (a_len c - nq) (fun k : Z => a_at c (nq + k))) ltac:(cbn [a_len]; lia) ltac:(cbn [a_len]; lia)) as (y2 & E1 & Ly2 & Gy2).
    cbn [a_len a_at] in Ly2, Gy2. rewrite E1 in E. cbn [rbind] in E.
    destruct (elem_solve RA X (pr_bottom_right st) y2 true) as [x2 | |] eqn:E2; cbn [rbind] in E; try discriminate.
    destruct (elem_solve_exact X HX _ _ _ _ _ _ U8 E2) as (_ & Lx2 & Sx2).
    destruct (SB true x2 (mk_arr (nq - 0) (fun k : Z => a_at c (0 + k))) ltac:(cbn [a_len]; lia) ltac:(exact Lx2)) as (y1 & E3 & Ly1 & Gy1).
    cbn [a_len a_at] in Ly1, Gy1. rewrite E3 in E. cbn [rbind] in E.
    destruct (elem_solve RA X (bk_top_left b) y1 true) as [x1 | |] eqn:E4; cbn [rbind] in E; try discriminate.
    destruct (elem_solve_exact X HX _ _ _ _ _ _ W1 E4) as (_ & Lx1 & Sx1).
    apply Hinj in E. subst x. split; [exact Hc|].
    assert (A1 : forall j, 0 <= j < nq -> a_at (put_rows RA (put_rows RA c 0 nq x1) nq (a_len c) x2) j = a_at x1 j).
    { intros j Hj. cbn [put_rows a_at]. replace (_ && _) with false by lia. replace (_ && _) with true by lia. now rewrite Z.sub_0_r. }
    assert (A2 : forall j, 0 <= j < n - nq -> a_at (put_rows RA (put_rows RA c 0 nq x1) nq (a_len c) x2) (nq + j) = a_at x2 j).
    { intros j Hj. cbn [put_rows a_at]. change (num RA) with R. replace (_ && _) with true by lia. now replace (nq + j - nq) with j by lia. }
    exists (a_at x1), (a_at x2). split; [exact A1|]. split; [exact A2|].
    destruct (block_transposed nq (n - nq) (elem_at RA (bk_top_left b)) (a2_at (bk_top_right b)) (a2_at (bk_bottom_left b)) (elem_at RA (bk_bottom_right b))
      (a2_at G) (elem_at RA (pr_bottom_right st)) (fun i j => cut (a2_at G i j)) (fun i j => cut (a2_at (bk_bottom_left b) i j)) U5 U9
      (a_at x1) (a_at x2) (a_at y1) (a_at c) (fun j => a_at c (nq + j))) as [B1 B2].
    + intros j Hj. specialize (Sx2 j Hj). rewrite rsum_zsum in Sx2. rewrite Sx2, Gy2 by lia. replace (nq - 0) with nq by lia. reflexivity.
    + intros j Hj. rewrite Gy1 by lia. change (num RA) with R in *. rewrite Lx2. reflexivity.
    + intros j Hj. specialize (Sx1 j Hj). rewrite rsum_zsum in Sx1. exact Sx1.
    + split; [exact B1 | exact B2].
  - destruct (elem_solve RA X (bk_top_left b) _ false) as [y1 | |] eqn:E1; cbn [rbind] in E; try discriminate.
    destruct (elem_solve_exact X HX _ _ _ _ _ _ W1 E1) as (_ & Ly1 & Sy1). cbn [a_at] in Sy1.
    destruct (SB false y1 (mk_arr (a_len c - nq) (fun k : Z => a_at c (nq + k))) ltac:(cbn [a_len]; lia) ltac:(exact Ly1)) as (y2 & E2 & Ly2 & Gy2).
    cbn [a_len a_at] in Ly2, Gy2. rewrite E2 in E. cbn [rbind] in E.
    destruct (elem_solve RA X (pr_bottom_right st) y2 false) as [x2 | |] eqn:E3; cbn [rbind] in E; try discriminate.
    destruct (elem_solve_exact X HX _ _ _ _ _ _ U8 E3) as (_ & Lx2 & Sx2).
    destruct (SG false x2 y1 ltac:(exact Ly1) ltac:(exact Lx2)) as (x1 & E4 & Lx1 & Gx1).
    rewrite E4 in E. cbn [rbind] in E. apply Hinj in E. subst x. split; [exact Hc|]. change (num RA) with R in *.
    assert (A1 : forall j, 0 <= j < nq -> a_at (put_rows RA (put_rows RA c 0 nq x1) nq (a_len c) x2) j = a_at x1 j).
    { intros j Hj. cbn [put_rows a_at]. replace (_ && _) with false by lia. replace (_ && _) with true by lia. now rewrite Z.sub_0_r. }
    assert (A2 : forall j, 0 <= j < n - nq -> a_at (put_rows RA (put_rows RA c 0 nq x1) nq (a_len c) x2) (nq + j) = a_at x2 j).
    { intros j Hj. cbn [put_rows a_at]. change (num RA) with R. replace (_ && _) with true by lia. now replace (nq + j - nq) with j by lia. }
    exists (a_at x1), (a_at x2). split; [exact A1|]. split; [exact A2|].
    exists (a_at y1).
    destruct (block_direct nq (n - nq) (elem_at RA (bk_top_left b)) (a2_at (bk_top_right b)) (a2_at (bk_bottom_left b)) (elem_at RA (bk_bottom_right b))
      (a2_at G) (elem_at RA (pr_bottom_right st)) (fun i j => cut (a2_at G i j)) (fun i j => cut (a2_at (bk_bottom_left b) i j)) U5 U9
      (a_at x1) (a_at x2) (a_at y1) (a_at c) (fun j => a_at c (nq + j))) as [B1 B2].
    + intros j Hj. specialize (Sy1 j Hj). rewrite rsum_zsum in Sy1. rewrite Sy1. reflexivity.
    + intros j Hj. specialize (Sx2 j Hj). rewrite rsum_zsum in Sx2. rewrite Sx2, Gy2 by lia. change (num RA) with R in *. rewrite Ly1. reflexivity.
    + intros j Hj. rewrite Gx1 by lia. change (num RA) with R in *. rewrite Lx2. reflexivity.
    + split; [|split; [exact B1 | exact B2]].
      intros j Hj. specialize (Sy1 j Hj). rewrite rsum_zsum in Sy1. rewrite Sy1. reflexivity.
Qed.
End S.
