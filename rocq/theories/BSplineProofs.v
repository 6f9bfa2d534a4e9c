(** The triangular loops of the B-spline evaluations compute the values of the recursion. *)
From Coq Require Import Bool Reals Lia Lra ZifyBool.
From Verif Require Import BSplineModel BSplineSpec LoopProofs BSplineMath BSplineDeriv SamplingProofs.
Local Open Scope bool_scope. Local Open Scope Z_scope.

Ltac rd := cbn [nadd nsub nmul ndiv nopp nofz nltb nleb ntrunc RA rbind a_len a_at a2_n a2_m a2_at].
Ltac agets := rewrite ?aget_ok by (cbn [a_len]; lia); cbn [rbind].
Ltac updd := repeat (rewrite upd_eq || rewrite upd_neq by lia).

Section NonUniform.
Context (s : n_bsplines RA) (t : Z -> R) (c d : Z) (x : R).
Hypothesis Hcoord : forall k, c - d + 1 <= k <= c + d -> nb_coord RA s k = Ok (t k : num RA).
Hypothesis Hc0 : 0 <= c - d.
Hypothesis Hc1 : c + d < 2 ^ 63.
Hypothesis mono : forall a b, c - d + 1 <= a <= b -> b <= c + d -> (t a <= t b)%R.
Hypothesis cell : (t c < t (c + 1)%Z)%R.
Notation V p r := (V t c p r x).
Notation Lp p r := (Lp t c p r x).
Notation Rp p r := (Rp t c p r x).

(** Level j to level j + 1. *)
Definition lefts_ok (j : Z) (l : arr R) := a_len l = d /\ forall k, 0 <= k < j -> a_at l k = (x - t (c - k)%Z)%R.
Definition rights_ok (j : Z) (l : arr R) := a_len l = d /\ forall k, 0 <= k < j -> a_at l k = (t (c + k + 1)%Z - x)%R.
Lemma nb_inner_loop (l r v : arr R) j : 0 <= j -> j + 1 <= d -> lefts_ok (j + 1) l -> rights_ok (j + 1) r -> j < a_len v ->
  (forall k, 0 <= k <= j -> a_at v k = V j k) ->
  exists v', for_range 0 (j + 1) (nb_inner RA l r j) (0%R : num RA, v) = Ok (Lp j (j + 1) : num RA, v') /\ a_len v' = a_len v /\
    (forall k, 0 <= k <= j -> a_at v' k = V (j + 1) k).
Proof.
  intros Hj Hd (Ll & Hl) (Lr & Hr) Lv Hv.
  destruct (for_range_inv
    (fun i (st : num RA * arr (num RA)) => fst st = Lp j i /\ a_len (snd st) = a_len v /\
       (forall k, 0 <= k < i -> a_at (snd st) k = V (j + 1) k) /\ (forall k, i <= k <= j -> a_at (snd st) k = V j k))
    (nb_inner RA l r j) 0 (j + 1) (0%R : num RA, v)) as ((sv & v') & E & H1 & H2 & H3 & H4).
  - lia.
  - cbn [fst snd]. split; [reflexivity|]. split; [reflexivity|]. split; [intros; lia | exact Hv].
  - intros i (sv, w) Hi (H1 & H2 & H3 & H4). cbn [fst snd] in *. unfold nb_inner.
    rewrite (aget_ok w) by lia. cbn [rbind]. rewrite (aget_ok r) by lia. cbn [rbind]. rewrite (aget_ok l) by lia. cbn [rbind].
    rewrite (aset_ok w) by lia. cbn [rbind]. eexists. split; [reflexivity|]. cbn [fst snd a_len a_at].
    rewrite (H4 i) by lia. rewrite (Hl (j - i)), (Hr i) by lia. rd.
    pose proof (gap t c d mono cell j i ltac:(lia) ltac:(lia)) as Gp.
    replace (c - (j - i)) with (c - j + i) by ring.
    assert (X : (t (c + i + 1)%Z - x + (x - t (c - j + i)%Z) = t (c + i + 1)%Z - t (c - j + i)%Z)%R) by ring. rewrite X. clear X.
    split; [|split; [exact H2 | split]].
    + unfold BSplineMath.Lp. destruct (i + 1 =? 0) eqn:E; [lia|]. replace (i + 1 - 1) with i by ring.
      replace (c - j - 1 + (i + 1)) with (c - j + i) by ring. replace (c + (i + 1)) with (c + i + 1) by ring. reflexivity.
    + intros k Hk. destruct (Z.eq_dec k i) as [->|].
      * rewrite upd_eq. rewrite H1. rewrite (V_step t c d mono cell j i x) by lia. f_equal.
        unfold BSplineMath.Rp. destruct (i =? j + 1) eqn:E; [lia|]. reflexivity.
      * rewrite upd_neq by lia. apply H3. lia.
    + intros k Hk. rewrite upd_neq by lia. apply H4. lia.
  - cbn [fst snd] in *. exists v'. rewrite E, H1. split; [reflexivity|]. split; [exact H2|]. intros k Hk. apply H3. lia.
Qed.
Lemma V_last j : 0 <= j -> j + 1 <= d -> Lp j (j + 1) = V (j + 1) (j + 1).
Proof.
  intros. rewrite (V_step t c d mono cell j (j + 1) x) by lia. unfold BSplineMath.Rp. rewrite Z.eqb_refl. ring.
Qed.
Lemma u64_c k : 0 <= k < 2 ^ 64 -> u64 k = k. Proof. apply u64_small. Qed.
Lemma c_minus k : 0 <= k < d -> u64_sub c k = c - k.
Proof. intros. unfold u64_sub. apply u64_small. lia. Qed.
Lemma c_plus k : 0 <= k <= d -> u64_add c k = c + k.
Proof. intros. unfold u64_add. apply u64_small. lia. Qed.
Lemma c_plus1 k : 0 <= k < d -> u64_add (u64_add c k) 1 = c + k + 1.
Proof. intros. rewrite c_plus by lia. unfold u64_add. apply u64_small. lia. Qed.
Lemma nb_triangle_ok n (l r v : arr R) : 0 <= n <= d -> a_len l = d -> a_len r = d -> n < a_len v -> a_at v 0 = 1%R ->
  exists l' r' v', nb_triangle RA s x c n l r v = Ok (l', r', v') /\ a_len v' = a_len v /\
    (forall k, 0 <= k <= n -> a_at v' k = V n k).
Proof.
  intros Hn Ll Lr Lv Hv.
  destruct (for_range_inv
    (fun j (st : arr (num RA) * arr (num RA) * arr (num RA)) =>
       lefts_ok j (fst (fst st)) /\ rights_ok j (snd (fst st)) /\ a_len (snd st) = a_len v /\ (forall k, 0 <= k <= j -> a_at (snd st) k = V j k))
    (fun j st => let '(lefts, rights, values) := st in
      cl <- nb_coord RA s (u64_sub c j) ;;
      lefts <- aset lefts j (nsub RA x cl)%N_ ;;
      cr <- nb_coord RA s (u64_add (u64_add c j) 1) ;;
      rights <- aset rights j (nsub RA cr x)%N_ ;;
      ' (saved, values) <- for_range 0 (j + 1) (nb_inner RA lefts rights j) (nofz RA 0, values) ;;
      values <- aset values (j + 1) saved ;;
      Ok (lefts, rights, values)) 0 n (l, r, v)) as (((l' & r') & v') & E & H1 & H2 & H3 & H4).
  - lia.
  - cbn [fst snd]. split; [split; [exact Ll | intros; lia]|]. split; [split; [exact Lr | intros; lia]|]. split; [reflexivity|].
    intros k Hk. replace k with 0 by lia. rewrite V_0. exact Hv.
  - intros j ((l0, r0), v0) Hj ((L1 & H1) & (L2 & H2) & H3 & H4). change (num RA) with R in *. cbn [fst snd] in *.
    rewrite c_minus, c_plus1 by lia. rewrite (Hcoord (c - j)) by lia. cbn [rbind]. rewrite (aset_ok l0) by lia. cbn [rbind].
    rewrite (Hcoord (c + j + 1)) by lia. cbn [rbind]. rewrite (aset_ok r0) by lia. cbn [rbind].
    destruct (nb_inner_loop (mk_arr (a_len l0) (upd (a_at l0) j (x - t (c - j)%Z)%R)) (mk_arr (a_len r0) (upd (a_at r0) j (t (c + j + 1)%Z - x)%R)) v0 j)
      as (v1 & E1 & L3 & H5); try lia.
    { split; [exact L1|]. intros k Hk. cbn [a_at]. destruct (Z.eq_dec k j) as [->|]; [now rewrite upd_eq | rewrite upd_neq by lia; apply H1; lia]. }
    { split; [exact L2|]. intros k Hk. cbn [a_at]. destruct (Z.eq_dec k j) as [->|]; [now rewrite upd_eq | rewrite upd_neq by lia; apply H2; lia]. }
    { intros k Hk. apply H4. lia. }
    cbn [nsub nofz RA] in *. change (num RA) with R in *. rewrite E1. cbn [rbind]. rewrite (aset_ok v1) by lia. cbn [rbind]. eexists. split; [reflexivity|]. cbn [fst snd a_len a_at].
    split; [|split; [|split; [lia|]]].
    + split; [exact L1|]. intros k Hk. cbn [a_at]. destruct (Z.eq_dec k j) as [->|]; [now rewrite upd_eq | rewrite upd_neq by lia; apply H1; lia].
    + split; [exact L2|]. intros k Hk. cbn [a_at]. destruct (Z.eq_dec k j) as [->|]; [now rewrite upd_eq | rewrite upd_neq by lia; apply H2; lia].
    + intros k Hk. destruct (Z.eq_dec k (j + 1)) as [->|]; [rewrite upd_eq; apply V_last; lia | rewrite upd_neq by lia; apply H5; lia].
  - cbn [fst snd] in *. exists l', r', v'. split; [exact E|]. split; [exact H3 | exact H4].
Qed.

(** eval_deriv after the triangular loop. *)
Definition DV (p r : Z) (y : R) : R := (IZR p * (Aq t c (p - 1) (r - 1) y - Aq t c (p - 1) r y))%R.
Lemma nb_deriv_loop (v : arr R) (saved : R) : 1 <= d -> a_len v = d + 1 -> saved = (IZR d * Aq t c (d - 1) 0 x)%R ->
  (forall k, 0 < k < d -> a_at v k = V (d - 1) k) ->
  exists saved' v', for_range 1 d (fun j (st : num RA * arr (num RA)) =>
         let '(temp, derivs) := st in
         dj <- aget derivs j ;;
         u <- nb_coord RA s (u64_add (u64_add c j) 1) ;;
         l <- nb_coord RA s (u64_sub (u64_add (u64_add c j) 1) d) ;;
         let saved := ndiv RA (nmul RA (nofz RA d) dj) (nsub RA u l) in
         derivs <- aset derivs j (nsub RA temp saved) ;;
         Ok (saved, derivs)) (saved, v) = Ok (saved', v') /\ a_len v' = d + 1 /\
    saved' = (IZR d * Aq t c (d - 1) (d - 1) x)%R /\ a_at v' 0 = a_at v 0 /\ (forall k, 0 < k < d -> a_at v' k = DV d k x).
Proof.
  intros Hd Lv Hs Hv.
  destruct (for_range_inv
    (fun j (st : num RA * arr (num RA)) =>
       fst st = (IZR d * Aq t c (d - 1) (j - 1)%Z x)%R /\ a_len (snd st) = d + 1 /\ a_at (snd st) 0 = a_at v 0 /\
       (forall k, 0 < k < j -> a_at (snd st) k = DV d k x) /\ (forall k, j <= k < d -> a_at (snd st) k = V (d - 1) k))
    (fun j (st : num RA * arr (num RA)) =>
         let '(temp, derivs) := st in
         dj <- aget derivs j ;;
         u <- nb_coord RA s (u64_add (u64_add c j) 1) ;;
         l <- nb_coord RA s (u64_sub (u64_add (u64_add c j) 1) d) ;;
         let saved := ndiv RA (nmul RA (nofz RA d) dj) (nsub RA u l) in
         derivs <- aset derivs j (nsub RA temp saved) ;;
         Ok (saved, derivs)) 1 d (saved, v)) as ((sv & v') & E & H1 & H2 & H3 & H4 & H5).
  - lia.
  - cbn [fst snd]. split; [exact Hs|]. split; [exact Lv|]. split; [reflexivity|]. split; [intros; lia | intros; apply Hv; lia].
  - intros j (sv, w) Hj (H1 & H2 & H3 & H4 & H5). change (num RA) with R in *. cbn [fst snd] in *.
    rewrite (aget_ok w) by lia. cbn [rbind]. rewrite c_plus1 by lia. rewrite (Hcoord (c + j + 1)) by lia. cbn [rbind].
    assert (E : u64_sub (c + j + 1) d = c - (d - 1) + j) by (unfold u64_sub; rewrite u64_small; lia). rewrite E. clear E.
    rewrite (Hcoord (c - (d - 1) + j)) by lia. cbn [rbind]. cbv zeta. rewrite (aset_ok w) by lia. cbn [rbind].
    eexists. split; [reflexivity|]. cbn [fst snd a_len a_at]. rewrite (H5 j) by lia. rd.
    assert (EA : (IZR d * V (d - 1) j / (t (c + j + 1)%Z - t (c - (d - 1) + j)%Z) = IZR d * Aq t c (d - 1) j x)%R).
    { rewrite Aq_in by lia. unfold G, Rdiv. ring. }
    rewrite EA. replace (j + 1 - 1) with j by ring. split; [reflexivity|]. split; [exact H2|].
    split; [rewrite upd_neq by lia; exact H3|]. split.
    + intros k Hk. destruct (Z.eq_dec k j) as [->|]; [rewrite upd_eq, H1; unfold DV; ring | rewrite upd_neq by lia; apply H4; lia].
    + intros k Hk. rewrite upd_neq by lia. apply H5. lia.
  - cbn [fst snd] in *. exists sv, v'. split; [exact E|]. split; [exact H2|]. split; [exact H1|]. split; [exact H3|].
    intros k Hk. apply H4. lia.
Qed.

(** the table of eval_basis_and_n_derivs *)
Definition ndu_ok (j : Z) (a : arr2 R) : Prop := a2_n a = d + 1 /\ a2_m a = d + 1 /\
  (forall q m, 0 <= m <= q -> q <= j -> a2_at a q m = V q m) /\
  (forall q m, 0 <= m <= q -> q < j -> a2_at a m (q + 1) = (/ G t c q m)%R).
Lemma nb_ndu_inner_loop (l r : arr R) (a : arr2 R) j : 0 <= j -> j + 1 <= d -> lefts_ok (j + 1) l -> rights_ok (j + 1) r -> ndu_ok j a ->
  exists a', for_range 0 (j + 1) (nb_ndu_inner RA l r j) (0%R : num RA, a) = Ok (Lp j (j + 1) : num RA, a') /\
    a2_n a' = d + 1 /\ a2_m a' = d + 1 /\
    (forall q m, 0 <= m <= q -> q <= j -> a2_at a' q m = V q m) /\
    (forall q m, 0 <= m <= q -> q < j + 1 -> a2_at a' m (q + 1) = (/ G t c q m)%R) /\
    (forall m, 0 <= m <= j -> a2_at a' (j + 1) m = V (j + 1) m).
Proof.
  intros Hj Hd (Ll & Hl) (Lr & Hr) (Ln & Lm & Hv & Hg).
  destruct (for_range_inv
    (fun i (st : num RA * arr2 (num RA)) => fst st = Lp j i /\ a2_n (snd st) = d + 1 /\ a2_m (snd st) = d + 1 /\
       (forall q m, 0 <= m <= q -> q <= j -> a2_at (snd st) q m = V q m) /\
       (forall q m, 0 <= m <= q -> q < j -> a2_at (snd st) m (q + 1) = (/ G t c q m)%R) /\
       (forall m, 0 <= m < i -> a2_at (snd st) m (j + 1) = (/ G t c j m)%R) /\
       (forall m, 0 <= m < i -> a2_at (snd st) (j + 1) m = V (j + 1) m))
    (nb_ndu_inner RA l r j) 0 (j + 1) (0%R : num RA, a)) as ((sv & a') & E & H1 & H2 & H3 & H4 & H5 & H6 & H7).
  - lia.
  - cbn [fst snd]. repeat (split; [first [reflexivity | assumption]|]). split; intros; lia.
  - intros i (sv, w) Hi (H1 & H2 & H3 & H4 & H5 & H6 & H7). change (num RA) with R in *. cbn [fst snd] in *. unfold nb_ndu_inner.
    rewrite (aget_ok r) by lia. cbn [rbind]. rewrite (aget_ok l) by lia. cbn [rbind]. change (num RA) with R in *.
    rewrite (aset2_ok w) by lia. cbn [rbind]. rewrite aget2_ok by (cbn [a2_n a2_m]; lia). cbn [rbind].
    rewrite aget2_ok by (cbn [a2_n a2_m]; lia). cbn [rbind]. cbv zeta. rewrite aset2_ok by (cbn [a2_n a2_m]; lia). cbn [rbind].
    eexists. split; [reflexivity|]. cbn [fst snd a2_n a2_m a2_at].
    rewrite upd2_eq. rewrite (upd2_neq _ _ _ _ j i) by lia. rewrite (H4 j i) by lia. rewrite (Hl (j - i)), (Hr i) by lia. rd.
    pose proof (gap t c d mono cell j i ltac:(lia) ltac:(lia)) as Gp.
    replace (c - (j - i)) with (c - j + i) by ring.
    assert (X : (t (c + i + 1)%Z - x + (x - t (c - j + i)%Z) = G t c j i)%R) by (unfold G; ring). rewrite X. clear X.
    fold (G t c j i) in Gp.
    split; [|repeat (split; [assumption|])].
    + unfold BSplineMath.Lp. destruct (i + 1 =? 0) eqn:E; [lia|]. replace (i + 1 - 1) with i by ring.
      replace (c - j - 1 + (i + 1)) with (c - j + i) by ring. replace (c + (i + 1)) with (c + i + 1) by ring. unfold G, Rdiv. ring.
    + repeat split.
      * intros q m Hm Hq. rewrite !upd2_neq by lia. now apply H4.
      * intros q m Hm Hq. rewrite !upd2_neq by lia. now apply H5.
      * intros m Hm. rewrite upd2_neq by lia. destruct (Z.eq_dec m i) as [->|]; [rewrite upd2_eq; unfold Rdiv; ring | rewrite upd2_neq by lia; apply H6; lia].
      * intros m Hm. destruct (Z.eq_dec m i) as [->|].
        -- rewrite upd2_eq. rewrite H1. rewrite (V_step t c d mono cell j i x) by lia. f_equal.
           unfold BSplineMath.Rp. destruct (i =? j + 1) eqn:E; [lia|]. unfold G, Rdiv. ring.
        -- rewrite !upd2_neq by lia. apply H7. lia.
  - cbn [fst snd] in *. exists a'. rewrite E, H1. split; [reflexivity|]. repeat (split; [assumption|]). split.
    + intros q m Hm Hq. destruct (Z.eq_dec q j) as [->|]; [apply H6; lia | apply H5; lia].
    + intros m Hm. apply H7. lia.
Qed.
Lemma nb_ndu_ok (l r : arr R) (a : arr2 R) : 0 <= d -> nb_degree RA s = d -> a_len l = d -> a_len r = d -> a2_n a = d + 1 -> a2_m a = d + 1 ->
  exists l' r' a', nb_ndu RA s x c l r a = Ok (l', r', a') /\ ndu_ok d a'.
Proof.
  intros Hd0 Ed Ll Lr Ln Lm. unfold nb_ndu. change (num RA) with R. rewrite (aset2_ok a) by lia. cbn [rbind]. rewrite Ed.
  destruct (for_range_inv
    (fun j (st : arr (num RA) * arr (num RA) * arr2 (num RA)) => lefts_ok j (fst (fst st)) /\ rights_ok j (snd (fst st)) /\ ndu_ok j (snd st))
    (fun j st => let '(lefts, rights, ndu) := st in
      cl <- nb_coord RA s (u64_sub c j) ;;
      lefts <- aset lefts j (nsub RA x cl)%N_ ;;
      cr <- nb_coord RA s (u64_add (u64_add c j) 1) ;;
      rights <- aset rights j (nsub RA cr x)%N_ ;;
      ' (saved, ndu) <- for_range 0 (j + 1) (nb_ndu_inner RA lefts rights j) (nofz RA 0, ndu) ;;
      ndu <- aset2 ndu (j + 1) (j + 1) saved ;;
      Ok (lefts, rights, ndu)) 0 d (l, r, mk_arr2 (a2_n a) (a2_m a) (upd2 (a2_at a) 0 0 1%R))) as (((l' & r') & v') & E & H1 & H2 & H3).
  - lia.
  - cbn [fst snd]. split; [split; [exact Ll | intros; lia]|]. split; [split; [exact Lr | intros; lia]|].
    split; [exact Ln|]. split; [exact Lm|]. split; [|intros; lia]. intros q m Hm Hq. replace q with 0 by lia. replace m with 0 by lia.
    cbn [a2_at]. rewrite upd2_eq. rewrite V_0. reflexivity.
  - intros j ((l0, r0), v0) Hj ((L1 & H1) & (L2 & H2) & H3). change (num RA) with R in *. cbn [fst snd] in *.
    rewrite c_minus, c_plus1 by lia. rewrite (Hcoord (c - j)) by lia. cbn [rbind]. rewrite (aset_ok l0) by lia. cbn [rbind].
    rewrite (Hcoord (c + j + 1)) by lia. cbn [rbind]. rewrite (aset_ok r0) by lia. cbn [rbind].
    assert (K1 : lefts_ok (j + 1) (mk_arr (a_len l0) (upd (a_at l0) j (x - t (c - j)%Z)%R))).
    { split; [exact L1|]. intros k Hk. cbn [a_at]. destruct (Z.eq_dec k j) as [->|]; [now rewrite upd_eq | rewrite upd_neq by lia; apply H1; lia]. }
    assert (K2 : rights_ok (j + 1) (mk_arr (a_len r0) (upd (a_at r0) j (t (c + j + 1)%Z - x)%R))).
    { split; [exact L2|]. intros k Hk. cbn [a_at]. destruct (Z.eq_dec k j) as [->|]; [now rewrite upd_eq | rewrite upd_neq by lia; apply H2; lia]. }
    destruct (nb_ndu_inner_loop _ _ v0 j ltac:(lia) ltac:(lia) K1 K2 H3) as (v1 & E1 & N1 & M1 & Q1 & Q2 & Q3).
    cbn [nsub nofz RA] in *. change (num RA) with R in *. rewrite E1. cbn [rbind]. rewrite (aset2_ok v1) by lia. cbn [rbind].
    eexists. split; [reflexivity|]. cbn [fst snd].
    split; [exact K1|]. split; [exact K2|]. split; [exact N1|]. split; [exact M1|]. cbn [a2_at]. split.
    + intros q m Hm Hq. destruct (Z.eq_dec q (j + 1)) as [->|].
      * destruct (Z.eq_dec m (j + 1)) as [->|]; [rewrite upd2_eq; apply V_last; lia | rewrite upd2_neq by lia; apply Q3; lia].
      * rewrite upd2_neq by lia. apply Q1; lia.
    + intros q m Hm Hq. rewrite upd2_neq by lia. apply Q2; lia.
  - cbn [fst snd] in *. exists l', r', v'. split; [exact E | exact H3].
Qed.
End NonUniform.
