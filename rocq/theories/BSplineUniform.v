(** The loops of the uniform B-splines. *)
From Coq Require Import Bool Reals Lia Lra ZifyBool.
From Verif Require Import BSplineModel BSplineSpec LoopProofs BSplineMath BSplineDeriv BSplineProofs BSplineNDerivs SamplingProofs.
Local Open Scope bool_scope. Local Open Scope Z_scope.

Section Uniform.
Context (t : Z -> R) (h : R) (c : Z) (offset x : R).
Hypothesis Hh : (0 < h)%R.
Hypothesis Ht : forall a b, (t b - t a = IZR (b - a) * h)%R.
Hypothesis Hx : (x - t c = offset * h)%R.
Notation V p r := (V t c p r x).
Notation Lp p r := (Lp t c p r x).
Notation Rp p r := (Rp t c p r x).
Lemma u_mono a b : a <= b -> (t a <= t b)%R.
Proof. intros H. pose proof (Ht a b). assert (0 <= IZR (b - a))%R by (apply IZR_le; lia). nra. Qed.
Lemma u_cell : (t c < t (c + 1)%Z)%R.
Proof. pose proof (Ht c (c + 1)). replace (c + 1 - c) with 1 in * by ring. lra. Qed.
Lemma u_G p r : G t c p r = (IZR (p + 1) * h)%R.
Proof. unfold G. rewrite Ht. do 2 f_equal. lia. Qed.
Lemma u_right r : (t (c + r + 1)%Z - x = (IZR r + 1 - offset) * h)%R.
Proof. pose proof (Ht c (c + r + 1)) as H. replace (c + r + 1 - c) with (r + 1) in H by ring. rewrite plus_IZR in H. lra. Qed.
Lemma u_left p r : (x - t (c - p + r)%Z = (IZR p - IZR r + offset) * h)%R.
Proof. pose proof (Ht (c - p + r) c) as H. replace (c - (c - p + r)) with (p - r) in H by ring. rewrite minus_IZR in H. lra. Qed.
Definition u_monos d : forall a b, c - d + 1 <= a <= b -> b <= c + d -> (t a <= t b)%R := fun a b H _ => u_mono a b (proj2 H).
Lemma u_Lp p r : 0 <= r <= p -> Lp p (r + 1) = ((IZR (p + 1) - (IZR r + 1 - offset)) * (V p r / IZR (p + 1)))%R.
Proof.
  intros Hr. unfold BSplineMath.Lp. destruct (r + 1 =? 0) eqn:E; [lia|].
  replace (c - p - 1 + (r + 1)) with (c - p + r) by ring. replace (c + (r + 1)) with (c + r + 1) by ring. replace (r + 1 - 1) with r by ring.
  fold (G t c p r). rewrite u_G, u_left. assert (0 < IZR (p + 1))%R by (apply IZR_lt; lia).
  replace (IZR p) with (IZR (p + 1) - 1)%R by (rewrite plus_IZR; ring). field. lra.
Qed.
Lemma u_Rp p r : 0 <= r <= p -> Rp p r = ((IZR r + 1 - offset) * (V p r / IZR (p + 1)))%R.
Proof.
  intros Hr. unfold BSplineMath.Rp. destruct (r =? p + 1) eqn:E; [lia|].
  fold (G t c p r). rewrite u_G, u_right. assert (0 < IZR (p + 1))%R by (apply IZR_lt; lia). field. lra.
Qed.
Lemma u_step p r : 0 <= p -> 0 <= r <= p + 1 -> V (p + 1) r = (Lp p r + Rp p r)%R.
Proof. intros. apply (V_step t c (p + 1) (u_monos (p + 1)) u_cell); lia. Qed.
Lemma u_last p : 0 <= p -> Lp p (p + 1) = V (p + 1) (p + 1).
Proof. intros. rewrite u_step by lia. unfold BSplineMath.Rp. rewrite Z.eqb_refl. ring. Qed.

(** In place: from degree j - 1 to degree j. *)
Lemma ub_inner_loop lam (v : arr R) j : 1 <= j -> j <= a_len v -> (forall k, 0 <= k < j -> a_at v k = (lam * V (j - 1) k)%R) ->
  exists xx v', for_range 0 j (ub_inner RA aget aset j) ((- offset)%R : num RA, 0%R : num RA, v) = Ok (xx, (lam * Lp (j - 1) j)%R : num RA, v') /\
    a_len v' = a_len v /\ (forall k, 0 <= k < j -> a_at v' k = (lam * V j k)%R).
Proof.
  intros Hj Lv Hv.
  destruct (for_range_inv
    (fun r (st : num RA * num RA * arr (num RA)) => fst (fst st) = (IZR r - offset)%R /\ snd (fst st) = (lam * Lp (j - 1) r)%R /\
       a_len (snd st) = a_len v /\ (forall k, 0 <= k < r -> a_at (snd st) k = (lam * V j k)%R) /\
       (forall k, r <= k < j -> a_at (snd st) k = (lam * V (j - 1) k)%R))
    (ub_inner RA aget aset j) 0 j ((- offset)%R : num RA, 0%R : num RA, v)) as (((xx & sv) & v') & E & H1 & H2 & H3 & H4 & H5).
  - lia.
  - change (num RA) with R. cbn [fst snd]. split; [lra|]. split; [unfold BSplineMath.Lp; cbn [Z.eqb]; ring|]. split; [reflexivity|]. split; [intros; lia | exact Hv].
  - intros r ((xx, sv), w) Hr (H1 & H2 & H3 & H4 & H5). change (num RA) with R in *. cbn [fst snd] in *. unfold ub_inner.
    rewrite (aget_ok w) by lia. cbn [rbind]. cbv zeta. rewrite (aset_ok w) by lia. cbn [rbind].
    eexists. split; [reflexivity|]. cbn [fst snd a_len a_at]. rd. rewrite (H5 r) by lia. rewrite H1, H2.
    assert (Ej : (0 < IZR j)%R) by (apply IZR_lt; lia).
    split; [rewrite plus_IZR; ring|]. split.
    + pose proof (u_Lp (j - 1) r ltac:(lia)) as E. rewrite E. replace (j - 1 + 1) with j by ring. field. lra.
    + split; [exact H3|]. split.
      * intros k Hk. destruct (Z.eq_dec k r) as [->|].
        -- rewrite upd_eq. pose proof (u_step (j - 1) r ltac:(lia) ltac:(lia)) as U. replace (j - 1 + 1) with j in U by ring. rewrite U. rewrite (u_Rp (j - 1) r) by lia.
           replace (j - 1 + 1) with j by ring. field. lra.
        -- rewrite upd_neq by lia. apply H4. lia.
      * intros k Hk. rewrite upd_neq by lia. apply H5. lia.
  - cbn [fst snd] in *. exists xx, v'. rewrite E, H2. split; [reflexivity|]. split; [exact H3|]. intros k Hk. apply H4. lia.
Qed.
Lemma ub_triangle_ok lam n (v : arr R) : 1 <= n <= a_len v -> a_at v 0 = lam ->
  exists v', ub_triangle RA offset n v = Ok v' /\ a_len v' = a_len v /\ (forall k, 0 <= k < n -> a_at v' k = (lam * V (n - 1) k)%R).
Proof.
  intros Hn Hv. unfold ub_triangle.
  destruct (for_range_inv
    (fun j (w : arr (num RA)) => a_len w = a_len v /\ (forall k, 0 <= k < j -> a_at w k = (lam * V (j - 1) k)%R))
    (fun j values => ' (_, saved, values) <- for_range 0 j (ub_inner RA aget aset j) ((nopp RA offset)%N_, nofz RA 0, values) ;; aset values j saved)
    1 n v) as (v' & E & H1 & H2).
  - lia.
  - change (num RA) with R. split; [reflexivity|]. intros k Hk. replace k with 0 by lia. replace (1 - 1) with 0 by ring. rewrite V_0. rewrite Hv. ring.
  - intros j w Hj (H1 & H2). change (num RA) with R in *.
    destruct (ub_inner_loop lam w j ltac:(lia) ltac:(lia) H2) as (xx & w' & E & L & H3).
    cbn [nopp nofz RA]. change (num RA) with R in *. rewrite E. cbn [rbind]. rewrite (aset_ok w') by lia.
    eexists. split; [reflexivity|]. cbn [a_len a_at]. split; [lia|].
    replace (j + 1 - 1) with j by ring. intros k Hk. destruct (Z.eq_dec k j) as [->|].
    + rewrite upd_eq. f_equal. pose proof (u_last (j - 1) ltac:(lia)) as U. replace (j - 1 + 1) with j in U by ring. exact U.
    + rewrite upd_neq by lia. apply H3. lia.
  - change (num RA) with R in *. exists v'. split; [exact E|]. split; [exact H1 | exact H2].
Qed.
(** eval_deriv after the triangular loop: the values are [lam * V (d - 1) k]. *)
Definition diffs (d : Z) (W : Z -> R) (k : Z) : R := ((if k =? 0 then 0 else W (k - 1)%Z) - (if k =? d then 0 else W k))%R.
Lemma ub_deriv_loop d (W : Z -> R) (v : arr R) : 1 <= d -> a_len v = d + 1 -> (forall k, 0 < k < d -> a_at v k = W k) ->
  exists b v', for_range 1 d (fun j (st : num RA * num RA * arr (num RA)) =>
         let '(bjm1, _, derivs) := st in
         bj <- aget derivs j ;;
         derivs <- aset derivs j (nsub RA bjm1 bj) ;;
         Ok (bj, bj, derivs)) (W 0 : num RA, W 0 : num RA, v) = Ok (b, W (d - 1) : num RA, v') /\ a_len v' = d + 1 /\
    a_at v' 0 = a_at v 0 /\ (forall k, 0 < k < d -> a_at v' k = (W (k - 1)%Z - W k)%R).
Proof.
  intros Hd Lv Hv.
  destruct (for_range_inv
    (fun j (st : num RA * num RA * arr (num RA)) => fst st = (W (j - 1) : num RA, W (j - 1) : num RA) /\ a_len (snd st) = d + 1 /\
       a_at (snd st) 0 = a_at v 0 /\ (forall k, 0 < k < j -> a_at (snd st) k = (W (k - 1)%Z - W k)%R) /\ (forall k, j <= k < d -> a_at (snd st) k = W k))
    (fun j (st : num RA * num RA * arr (num RA)) =>
         let '(bjm1, _, derivs) := st in
         bj <- aget derivs j ;;
         derivs <- aset derivs j (nsub RA bjm1 bj) ;;
         Ok (bj, bj, derivs)) 1 d (W 0 : num RA, W 0 : num RA, v)) as (((b1 & b2) & v') & E & H1 & H2 & H3 & H4 & H5).
  - lia.
  - cbn [fst snd]. split; [reflexivity|]. split; [exact Lv|]. split; [reflexivity|]. split; [intros; lia | intros; apply Hv; lia].
  - intros j ((b1, b2), w) Hj (H1 & H2 & H3 & H4 & H5). change (num RA) with R in *. cbn [fst snd] in *.
    assert (Hb1 : b1 = W (j - 1)) by congruence. clear H1.
    rewrite (aget_ok w) by lia. cbn [rbind]. rewrite (aset_ok w) by lia. cbn [rbind]. eexists. split; [reflexivity|].
    cbn [fst snd a_len a_at]. rewrite (H5 j) by lia. replace (j + 1 - 1) with j by ring. split; [reflexivity|]. split; [exact H2|].
    split; [rewrite upd_neq by lia; exact H3|]. split.
    + intros k Hk. destruct (Z.eq_dec k j) as [->|]; [rewrite upd_eq, Hb1; reflexivity | rewrite upd_neq by lia; apply H4; lia].
    + intros k Hk. rewrite upd_neq by lia. apply H5. lia.
  - cbn [fst snd] in *. assert (Hb : b1 = W (d - 1) /\ b2 = W (d - 1)) by (split; congruence). destruct Hb as (-> & ->).
    exists (W (d - 1)), v'. split; [exact E|]. split; [exact H2|]. split; [exact H3|]. intros k Hk. apply H4. lia.
Qed.

(** the table of eval_basis_and_n_derivs *)
Definition undu_ok (d j : Z) (a : arr2 R) : Prop := a2_n a = d + 1 /\ a2_m a = d + 1 /\
  (forall q m, 0 <= m <= q -> q <= j -> a2_at a q m = V q m).
Lemma ub_ndu_inner d (a : arr2 R) j : 1 <= j <= d -> undu_ok d (j - 1) a ->
  exists xx a', for_range 0 j (ub_inner RA (fun ndu r => aget2 ndu (j - 1) r) (fun ndu r v => aset2 ndu j r v) j)
      ((- offset)%R : num RA, 0%R : num RA, a) = Ok (xx, Lp (j - 1) j : num RA, a') /\
    undu_ok d (j - 1) a' /\ (forall m, 0 <= m < j -> a2_at a' j m = V j m).
Proof.
  intros Hj (Na & Ma & Ha).
  destruct (for_range_inv
    (fun r (st : num RA * num RA * arr2 (num RA)) => fst (fst st) = (IZR r - offset)%R /\ snd (fst st) = Lp (j - 1) r /\
       undu_ok d (j - 1) (snd st) /\ (forall m, 0 <= m < r -> a2_at (snd st) j m = V j m))
    (ub_inner RA (fun ndu r => aget2 ndu (j - 1) r) (fun ndu r v => aset2 ndu j r v) j) 0 j ((- offset)%R : num RA, 0%R : num RA, a))
    as (((xx & sv) & a') & E & H1 & H2 & H3 & H4).
  - lia.
  - change (num RA) with R. cbn [fst snd]. split; [lra|]. split; [reflexivity|]. split; [split; [exact Na | split; [exact Ma | exact Ha]] | intros; lia].
  - intros r ((xx, sv), w) Hr (H1 & H2 & (N3 & M3 & H3) & H4). change (num RA) with R in *. cbn [fst snd] in *. unfold ub_inner.
    rewrite (aget2_ok w) by lia. cbn [rbind]. cbv zeta. rewrite (aset2_ok w) by lia. cbn [rbind].
    eexists. split; [reflexivity|]. cbn [fst snd a2_n a2_m a2_at]. rd. rewrite (H3 (j - 1) r) by lia. rewrite H1, H2.
    assert (Ej : (0 < IZR j)%R) by (apply IZR_lt; lia).
    split; [rewrite plus_IZR; ring|]. split.
    + pose proof (u_Lp (j - 1) r ltac:(lia)) as E. rewrite E. replace (j - 1 + 1) with j by ring. field. lra.
    + split; [split; [exact N3 | split; [exact M3|]]|].
      * intros q m Hm Hq. cbn [a2_at]. rewrite upd2_neq by lia. now apply H3.
      * intros k Hk. destruct (Z.eq_dec k r) as [->|].
        -- rewrite upd2_eq. pose proof (u_step (j - 1) r ltac:(lia) ltac:(lia)) as U. replace (j - 1 + 1) with j in U by ring. rewrite U. rewrite (u_Rp (j - 1) r) by lia.
           replace (j - 1 + 1) with j by ring. field. lra.
        -- rewrite upd2_neq by lia. apply H4. lia.
  - cbn [fst snd] in *. exists xx, a'. rewrite E, H2. split; [reflexivity|]. split; [exact H3|]. intros m Hm. apply H4. lia.
Qed.
Lemma ub_ndu_ok (s : u_bsplines RA) d (a : arr2 R) : ub_degree RA s = d -> 0 <= d -> a2_n a = d + 1 -> a2_m a = d + 1 ->
  exists a', ub_ndu RA s offset a = Ok a' /\ undu_ok d d a'.
Proof.
  intros Ed Hd Na Ma. unfold ub_ndu. change (num RA) with R. rewrite (aset2_ok a) by lia. cbn [rbind]. rewrite Ed.
  destruct (for_range_inv
    (fun j (w : arr2 (num RA)) => undu_ok d (j - 1) w)
    (fun j ndu => ' (_, saved, ndu) <- for_range 0 j (ub_inner RA (fun ndu r => aget2 ndu (j - 1) r) (fun ndu r v => aset2 ndu j r v) j)
                      (nopp RA offset, nofz RA 0, ndu) ;; aset2 ndu j j saved)
    1 (d + 1) (mk_arr2 (a2_n a) (a2_m a) (upd2 (a2_at a) 0 0 1%R))) as (a' & E & H1).
  - lia.
  - split; [exact Na|]. split; [exact Ma|]. intros q m Hm Hq. replace q with 0 by lia. replace m with 0 by lia. cbn [a2_at]. rewrite upd2_eq.
    rewrite V_0. reflexivity.
  - intros j w Hj H1. change (num RA) with R in *. destruct (ub_ndu_inner d w j ltac:(lia) H1) as (xx & w' & E & (N2 & M2 & H2) & H3).
    cbn [nopp nofz RA]. change (num RA) with R in *. rewrite E. cbn [rbind]. rewrite (aset2_ok w') by lia.
    eexists. split; [reflexivity|]. split; [exact N2|]. split; [exact M2|]. cbn [a2_at]. intros q m Hm Hq.
    destruct (Z.eq_dec q j) as [->|].
    + destruct (Z.eq_dec m j) as [->|].
      * rewrite upd2_eq. pose proof (u_last (j - 1) ltac:(lia)) as U. replace (j - 1 + 1) with j in U by ring. exact U.
      * rewrite upd2_neq by lia. apply H3. lia.
    + rewrite upd2_neq by lia. apply H2; lia.
  - change (num RA) with R in *. exists a'. split; [exact E|]. replace d with (d + 1 - 1) at 2 by ring. exact H1.
Qed.
End Uniform.
