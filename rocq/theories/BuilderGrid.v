(** C42: the validation of the grid. *)
From Coq Require Import Bool Reals Lia Lra ZifyBool List.
From Verif Require Import BuilderSpec LoopProofs SamplingProofs MathProofs SplineLemmas SplineLemmas2 PointsLemmas LinearProofs LinearLemmas EvaluatorSpace EvaluatorProofs BuilderMath BuilderProofs BuilderProofs3 BuilderProofs4.
Import ListNotations.
Local Open Scope bool_scope. Local Open Scope Z_scope.

(** ** Counting points *)
Section Count.
Context (x : Z -> R) (lo hi : R).
Let test (k : nat) : bool := if Rle_dec lo (x (Z.of_nat k)) then if Rle_dec (x (Z.of_nat k)) hi then true else false else false.
Lemma test_iff k : test k = true <-> (lo <= x (Z.of_nat k) <= hi)%R.
Proof. unfold test. destruct (Rle_dec lo (x (Z.of_nat k))), (Rle_dec (x (Z.of_nat k)) hi); split; intros H; try discriminate; try lra; reflexivity. Qed.
Lemma count_S n : 0 <= n -> points_in (n + 1) x lo hi = points_in n x lo hi + (if test (Z.to_nat n) then 1 else 0).
Proof.
  intros Hn. unfold points_in. replace (Z.to_nat (n + 1)) with (S (Z.to_nat n)) by lia. rewrite seq_S, filter_app, app_length. cbn [filter Nat.add].
  fold (test (Z.to_nat n)). destruct (test (Z.to_nat n)); cbn [length]; lia.
Qed.
Lemma count_range n p q : 0 <= p <= q -> q <= n -> (forall k, 0 <= k < n -> (lo <= x k <= hi)%R <-> p <= k < q) -> points_in n x lo hi = q - p.
Proof.
  intros Hpq Hq H. assert (G : forall m, 0 <= m -> m <= n -> points_in m x lo hi = Z.max 0 (Z.min m q - p)).
  { refine (natlike_ind _ _ _); [intros _; unfold points_in; cbn; lia|]. intros m Hm IH Hle. change (Z.succ m) with (m + 1). rewrite count_S, IH by lia.
    pose proof (H m ltac:(lia)) as Hm'. pose proof (test_iff (Z.to_nat m)) as Ht. rewrite Z2Nat.id in Ht by lia. destruct (test (Z.to_nat m)).
    - assert (p <= m < q) by tauto. lia.
    - assert (~ p <= m < q) by (intros C; assert (false = true) by tauto; discriminate). lia. }
  rewrite G by lia. lia.
Qed.
Lemma count_at_least n p q : 0 <= p <= q -> q <= n -> (forall k, p <= k < q -> (lo <= x k <= hi)%R) -> q - p <= points_in n x lo hi.
Proof.
  intros Hpq Hq H. assert (G : forall m, 0 <= m -> m <= n -> Z.min m q - p <= points_in m x lo hi).
  { refine (natlike_ind _ _ _); [intros _; unfold points_in; cbn; lia|]. intros m Hm IH Hle. change (Z.succ m) with (m + 1). rewrite count_S by lia.
    pose proof (test_iff (Z.to_nat m)) as Ht. rewrite Z2Nat.id in Ht by lia. specialize (IH ltac:(lia)). destruct (test (Z.to_nat m)) eqn:E; [lia|].
    assert (~ p <= m < q). { intros C. assert (false = true) by (apply Ht, H, C). discriminate. }
    assert (0 <= points_in m x lo hi) by (unfold points_in; lia). lia. }
  specialize (G n ltac:(lia) ltac:(lia)). lia.
Qed.
End Count.

(** ** The breaks *)
Lemma space_breaks s d periodic ncells t a b : spline_space s d periodic ncells t a b ->
  bs_break_front RA s = d /\ forall k, d <= k <= d + ncells -> bs_knot RA s k = Ok (t k : num RA).
Proof.
  intros H. destruct H as [q d periodic a b ncells s Hd Hn Hab Hbig E | junk d periodic l s Hd Hl Hinc Hbig E].
  - destruct (un_construct q d periodic a b ncells Hd Hn Hab Hbig) as (s' & E' & _ & B & _ & C & _).
    assert (s' = s) as -> by (assert (Hinj : forall x y : u_bsplines RA, Ok x = Ok y -> x = y) by congruence; apply Hinj; congruence).
    split; [exact B|]. intros k Hk. cbn [bs_knot]. f_equal. apply C. lia.
  - destruct (KnotProofs.construct_ok l d ltac:(lia) Hl ltac:(lia) periodic junk (KnotProofs.strict_incr l Hinc) (KnotProofs.first_last l Hl Hinc)) as (s' & E' & _ & _ & B & _ & _ & C).
    assert (s' = s) as -> by (assert (Hinj : forall x y : n_bsplines RA, Ok (Some x) = Ok (Some y) -> x = y) by congruence; apply Hinj; congruence).
    split; [exact B|]. intros k Hk. cbn [bs_knot]. apply C. lia.
Qed.

Lemma for_range_or {T} (P : Z -> T -> Prop) (Q : Prop) (bdy : Z -> T -> res T) lo hi (st : T) : lo <= hi -> P lo st ->
  (forall k st, lo <= k < hi -> P k st -> (exists st', bdy k st = Ok st' /\ P (k + 1) st') \/ (bdy k st = Rejected /\ Q)) ->
  (exists st', for_range lo hi bdy st = Ok st' /\ P hi st') \/ (for_range lo hi bdy st = Rejected /\ Q).
Proof.
  intros Hle H0 Hstep. unfold for_range. replace hi with (lo + Z.of_nat (Z.to_nat (hi - lo))) in Hstep |- * at 1 by lia. 
  replace (Z.to_nat (lo + Z.of_nat (Z.to_nat (hi - lo)) - lo)) with (Z.to_nat (hi - lo)) by lia. replace (P hi) with (P (lo + Z.of_nat (Z.to_nat (hi - lo)))) by (f_equal; lia).
  generalize (Z.to_nat (hi - lo)) Hstep. clear Hstep Hle. intros m. revert lo st H0. induction m as [|m IH]; intros lo st H0 Hstep; cbn [for_n].
  - left. exists st. split; [reflexivity|]. now rewrite Z.add_0_r.
  - destruct (Hstep lo st ltac:(lia) H0) as [(st' & E & H1) | [E H1]]; rewrite E; cbn [rbind]; [|right; split; [reflexivity | exact H1]].
    replace (lo + Z.of_nat (S m)) with (lo + 1 + Z.of_nat m) by lia. apply IH; [exact H1|]. intros k st2 Hk. apply Hstep. lia.
Qed.
(** ** The loop *)
Section Grid.
Context (s : bspline_space RA) (d : Z) (periodic : bool) (ncells : Z) (t : Z -> R) (a b : R) (F : facts s d periodic ncells t a b).
Hypothesis Hfront : bs_break_front RA s = d.
Hypothesis Hknot : forall k, d <= k <= d + ncells -> bs_knot RA s k = Ok (t k : num RA).
Context (start n : Z) (coord : Z -> res R) (x : Z -> R) (Hn : 0 <= n).
Hypothesis Hsmall : 0 <= start /\ start + n < 2 ^ 63.
Hypothesis Hcoord : forall i, 0 <= i < n -> coord (start + i) = Ok (x i) /\ (a <= x i <= b)%R.
Hypothesis Hinc : increasing_points n x.
Let Hd : 1 <= d := f_d _ _ _ _ _ _ _ F.
Let Hnc : 1 <= ncells := f_n _ _ _ _ _ _ _ F.
Let Hbig : ncells + 1 + 2 * d < 2 ^ 31 := f_big _ _ _ _ _ _ _ F.
Let body (k : Z) (st : Z * Z) : res (Z * Z) :=
  let '(c, cell_end) := st in
  point <- coord (u64_add start k) ;;
  v <- bs_knot RA s cell_end ;;
  if nltb RA v point then _ <- check_n_points_in_cell RA s c ;; Ok (1, u64_add cell_end 1)
  else if nleb RA v point then _ <- check_n_points_in_cell RA s (c + 1) ;; Ok (1, u64_add cell_end 1)
  else Ok (c + 1, cell_end).
(** The points counted since [p] are in the cell before the knot [e], or there is one. *)
Definition counting (k : Z) (st : Z * Z) : Prop :=
  let '(c, e) := st in exists p, 0 <= p <= k /\ c = k - p /\ d + 1 <= e <= d + ncells + 1 /\
    (forall i, p <= i < k -> (t (e - 1)%Z <= x i)%R) /\ (p + 1 < k -> (x (k - 1)%Z < t e)%R) /\ (k = 0 \/ p < k) /\ (e = d + 1 \/ (0 < k /\ (t (e - 1)%Z <= x (k - 1)%Z)%R)).
Lemma increasing_le i j : 0 <= i <= j -> j < n -> (x i <= x j)%R.
Proof. intros H1 H2. destruct (Z.eq_dec i j) as [-> | N]; [lra|]. left. apply Hinc; lia. Qed.
Lemma counting_0 : counting 0 (0, d + 1).
Proof. exists 0. repeat split; try lia. Qed.
(** One step. *)
Lemma counting_step k st : 0 <= k < n -> counting k st ->
  (exists st', body k st = Ok st' /\ counting (k + 1) st') \/ (body k st = Rejected /\ exists c, crowded t d ncells n x c).
Proof.
  intros Hk Hst. destruct st as [c e]. destruct Hst as (p & Hp & -> & He & H1 & H2 & H3 & H4). destruct (Hcoord k Hk) as [E Hx].
  assert (He' : e <= d + ncells).
  { destruct (Z_le_dec e (d + ncells)); [assumption|]. exfalso. destruct H4 as [H4 | [H4 H5]]; [lia|]. replace (e - 1) with (d + ncells) in H5 by lia.
    rewrite (f_last _ _ _ _ _ _ _ F) in H5. pose proof (Hinc (k - 1) k ltac:(lia) ltac:(lia) ltac:(lia)). lra. }
  assert (Eb : body k (k - p, e) = if R_ltb (t e) (x k) then rbind (if d + 1 <? k - p then Rejected else Ok tt) (fun _ => Ok (1, e + 1))
    else if R_leb (t e) (x k) then rbind (if d + 1 <? k - p + 1 then Rejected else Ok tt) (fun _ => Ok (1, e + 1)) else Ok (k - p + 1, e)).
  { unfold body, u64_add, check_n_points_in_cell. rewrite (u64_small (start + k)), (u64_small (e + 1)), (f_deg _ _ _ _ _ _ _ F), E by lia. cbn [rbind]. rewrite Hknot by lia. reflexivity. }
  rewrite Eb. clear Eb.
  assert (Hup : forall i, p <= i < k -> p + 1 < k -> (t (e - 1)%Z <= x i <= t e)%R).
  { intros i Hi Hpk. split; [apply H1; lia|]. pose proof (increasing_le i (k - 1) ltac:(lia) ltac:(lia)). specialize (H2 Hpk). lra. }
  unfold R_ltb, R_leb. destruct (Rlt_dec (t e) (x k)) as [L | L].
  - destruct (d + 1 <? k - p) eqn:Ec; cbn [rbind].
    + right. split; [reflexivity|]. exists (e - 1). replace (e - 1 + 1) with e by ring. split.
      * assert (e - 1 <> d + ncells) by lia. lia.
      * pose proof (count_at_least x (t (e - 1)%Z) (t e) n p k ltac:(lia) ltac:(lia) (fun i Hi => Hup i Hi ltac:(lia))). replace (e - 1 + 1) with e by ring. lia.
    + left. eexists. split; [reflexivity|]. exists k. split; [lia|]. split; [lia|]. split; [lia|]. split; [|split; [intros; lia | split; [lia|]]].
      * intros i Hi. assert (i = k) as -> by lia. replace (e + 1 - 1) with e by ring. lra.
      * right. replace (e + 1 - 1) with e by ring. replace (k + 1 - 1) with k by ring. split; [lia | lra].
  - destruct (Rle_dec (t e) (x k)) as [L2 | L2].
    + destruct (d + 1 <? k - p + 1) eqn:Ec; cbn [rbind].
      * right. split; [reflexivity|]. exists (e - 1). replace (e - 1 + 1) with e by ring. split; [lia|].
        assert (Hin : forall i, p <= i < k + 1 -> (t (e - 1)%Z <= x i <= t e)%R).
        { intros i Hi. destruct (Z.eq_dec i k) as [-> | Ni]; [|apply Hup; lia]. split; [|lra]. pose proof (f_mono _ _ _ _ _ _ _ F (e - 1) e ltac:(lia)). lra. }
        pose proof (count_at_least x (t (e - 1)%Z) (t e) n p (k + 1) ltac:(lia) ltac:(lia) Hin). replace (e - 1 + 1) with e by ring. lia.
      * left. eexists. split; [reflexivity|]. exists k. split; [lia|]. split; [lia|]. split; [lia|]. split; [|split; [intros; lia | split; [lia|]]].
        -- intros i Hi. assert (i = k) as -> by lia. replace (e + 1 - 1) with e by ring. lra.
        -- right. replace (e + 1 - 1) with e by ring. replace (k + 1 - 1) with k by ring. split; [lia | lra].
    + left. eexists. split; [reflexivity|]. exists p.
      assert (Hlow : forall i, 0 <= i -> i = k -> (t (e - 1)%Z <= x i)%R).
      { intros i Hi ->. destruct H4 as [-> | [H4 H5]].
        - replace (d + 1 - 1) with d by ring. rewrite (f_first _ _ _ _ _ _ _ F). lra.
        - pose proof (Hinc (k - 1) k ltac:(lia) ltac:(lia) ltac:(lia)). lra. }
      split; [lia|]. split; [lia|]. split; [lia|]. split; [|split; [|split; [lia|]]].
      * intros i Hi. destruct (Z.eq_dec i k) as [Ei | Ni]; [apply Hlow; lia | apply H1; lia].
      * intros _. replace (k + 1 - 1) with k by ring. lra.
      * right. replace (k + 1 - 1) with k by ring. split; [lia | apply Hlow; lia].
Qed.

(** Every cell before the knot e - 1 has at most d + 1 points, and the points counted are those of the cell before e. *)
Definition exactly (k : Z) (st : Z * Z) : Prop :=
  let '(c, e) := st in exists p, 0 <= p <= k /\ c = k - p /\ d + 1 <= e <= d + ncells + 1 /\
    (forall i, p <= i < k -> (t (e - 1)%Z <= x i)%R) /\ (forall i, 0 <= i < p -> (x i < t (e - 1)%Z)%R) /\
    (k = 0 -> e = d + 1) /\ (0 < k -> p < k) /\ (0 < k -> e <= d + ncells -> (x (k - 1)%Z < t e)%R) /\
    (forall c', d <= c' < e - 1 -> points_in n x (t c') (t (c' + 1)) <= d + 1).
Lemma exactly_0 : exactly 0 (0, d + 1).
Proof. exists 0. split; [lia|]. split; [lia|]. split; [lia|]. split; [intros; lia|]. split; [intros; lia|]. split; [lia|]. split; [lia|]. split; [intros; lia|]. intros; lia. Qed.
Lemma exactly_step k st st' : occupied t d ncells n x -> 0 <= k < n -> exactly k st -> body k st = Ok st' -> exactly (k + 1) st'.
Proof.
  intros Hocc Hk Hst Hb. destruct st as [c e]. destruct Hst as (p & Hp & -> & He & H1 & H2 & H3 & H4 & H5 & H6). destruct (Hcoord k Hk) as [E Hx].
  assert (He' : e <= d + ncells).
  { destruct (Z_le_dec e (d + ncells)); [assumption|]. exfalso. assert (k <> 0) by lia. pose proof (H1 (k - 1) ltac:(lia)) as H7. replace (e - 1) with (d + ncells) in H7 by lia.
    rewrite (f_last _ _ _ _ _ _ _ F) in H7. pose proof (Hinc (k - 1) k ltac:(lia) ltac:(lia) ltac:(lia)). lra. }
  assert (Eb : body k (k - p, e) = if R_ltb (t e) (x k) then rbind (if d + 1 <? k - p then Rejected else Ok tt) (fun _ => Ok (1, e + 1))
    else if R_leb (t e) (x k) then rbind (if d + 1 <? k - p + 1 then Rejected else Ok tt) (fun _ => Ok (1, e + 1)) else Ok (k - p + 1, e)).
  { unfold body, u64_add, check_n_points_in_cell. rewrite (u64_small (start + k)), (u64_small (e + 1)), (f_deg _ _ _ _ _ _ _ F), E by lia. cbn [rbind]. rewrite Hknot by lia. reflexivity. }
  rewrite Eb in Hb. clear Eb.
  assert (Hcell : (t (e - 1)%Z < t e)%R). { pose proof (f_cell _ _ _ _ _ _ _ F (e - 1) ltac:(lia)) as H. now replace (e - 1 + 1) with e in H by ring. }
  assert (Hlow : (t (e - 1)%Z <= x k)%R).
  { destruct (Z.eq_dec k 0) as [-> | Nk]. - rewrite (H3 eq_refl). replace (d + 1 - 1) with d by ring. rewrite (f_first _ _ _ _ _ _ _ F). lra.
    - pose proof (H1 (k - 1) ltac:(lia)). pose proof (Hinc (k - 1) k ltac:(lia) ltac:(lia) ltac:(lia)). lra. }
  assert (H0 : k = 0 -> (x k < t e)%R).
  { intros Ek. destruct (Hocc (e - 1) ltac:(lia)) as (i & Hi & Hi2 & Hi3). replace (e - 1 + 1) with e in Hi3 by ring. pose proof (increasing_le k i ltac:(lia) ltac:(lia)). lra. }
  assert (Hleave : (t e <= x k)%R -> (forall i, p <= i < k -> (t (e - 1)%Z <= x i < t e)%R) /\ (e + 1 <= d + ncells -> (x k < t (e + 1)%Z)%R)).
  { intros L. assert (Nk : k <> 0) by (intros ->; specialize (H0 eq_refl); lra). split.
    - intros i Hi. split; [apply H1; lia|]. pose proof (increasing_le i (k - 1) ltac:(lia) ltac:(lia)). specialize (H5 ltac:(lia) He'). lra.
    - intros Hle. destruct (Hocc e ltac:(lia)) as (i & Hi & Hi2 & Hi3). destruct (Z_lt_dec i k) as [Lk | Lk].
      + pose proof (increasing_le i (k - 1) ltac:(lia) ltac:(lia)). specialize (H5 ltac:(lia) He'). lra.
      + pose proof (increasing_le k i ltac:(lia) ltac:(lia)). lra. }
  assert (Hnext : (t e <= x k)%R -> points_in n x (t (e - 1)%Z) (t e) <= d + 1 -> exactly (k + 1) (1, e + 1)).
  { intros L Hc. destruct (Hleave L) as [L1 L2]. exists k. split; [lia|]. split; [lia|]. split; [lia|]. replace (e + 1 - 1) with e by ring. split; [intros i Hi; replace i with k by lia; exact L|].
    split. { intros i Hi. destruct (Z_lt_dec i p); [pose proof (H2 i ltac:(lia)); lra | apply L1; lia]. }
    split; [lia|]. split; [lia|]. split; [intros _ Hle; replace (k + 1 - 1) with k by ring; now apply L2|].
    intros c' Hc'. destruct (Z.eq_dec c' (e - 1)) as [-> | Nc]; [replace (e - 1 + 1) with e by ring; exact Hc | apply H6; lia]. }
  unfold R_ltb, R_leb in Hb. destruct (Rlt_dec (t e) (x k)) as [L | L].
  - destruct (d + 1 <? k - p) eqn:Ec; cbn [rbind] in Hb; [discriminate|]. assert (st' = (1, e + 1)) as -> by congruence. apply Hnext; [lra|].
    destruct (Hleave ltac:(lra)) as [L1 _].
    rewrite (count_range x (t (e - 1)%Z) (t e) n p k); [lia | lia | lia |]. intros i Hi. split.
    + intros Hin. destruct (Z_lt_dec i p) as [Lp | Lp]; [pose proof (H2 i ltac:(lia)); lra|]. destruct (Z_lt_dec i k); [lia|]. pose proof (increasing_le k i ltac:(lia) ltac:(lia)). lra.
    + intros Hin. specialize (L1 i Hin). lra.
  - destruct (Rle_dec (t e) (x k)) as [L2 | L2].
    + destruct (d + 1 <? k - p + 1) eqn:Ec; cbn [rbind] in Hb; [discriminate|]. assert (st' = (1, e + 1)) as -> by congruence. apply Hnext; [lra|].
      destruct (Hleave ltac:(lra)) as [L1 _].
      rewrite (count_range x (t (e - 1)%Z) (t e) n p (k + 1)); [lia | lia | lia |]. intros i Hi. split.
      * intros Hin. destruct (Z_lt_dec i p) as [Lp | Lp]; [pose proof (H2 i ltac:(lia)); lra|]. destruct (Z_le_dec i k); [lia|]. pose proof (Hinc k i ltac:(lia) ltac:(lia) ltac:(lia)). lra.
      * intros Hin. destruct (Z.eq_dec i k) as [-> | Ni]; [lra|]. specialize (L1 i ltac:(lia)). lra.
    + assert (st' = (k - p + 1, e)) as -> by congruence. exists p. split; [lia|]. split; [lia|]. split; [lia|].
      split; [intros i Hi; destruct (Z.eq_dec i k) as [-> | Ni]; [exact Hlow | apply H1; lia]|]. split; [exact H2|]. split; [lia|]. split; [lia|].
      split; [intros _ _; replace (k + 1 - 1) with k by ring; lra | exact H6].
Qed.

Context (lower upper : closure) (Hcompat : compatible_closures RA s lower upper = true).
Let expected := points_expected periodic d ncells lower upper.
Lemma valid_eq : check_valid_grid RA s lower upper start n coord =
  if n =? expected then rbind (for_range 0 n body (0, d + 1)) (fun '(c, _) => check_n_points_in_cell RA s c) else Rejected.
Proof.
  unfold check_valid_grid. rewrite (expected_eq s d periodic ncells t a b F lower upper Hcompat), Hfront.
  replace (unknowns periodic d ncells - equations upper d - equations lower d) with expected by (unfold expected, points_expected; ring).
  replace (u64_add d 1) with (d + 1) by (unfold u64_add; rewrite u64_small; lia). cbv zeta. destruct (n =? expected); reflexivity.
Qed.
Lemma valid_sound : n = expected -> check_valid_grid RA s lower upper start n coord = Ok tt \/
  (check_valid_grid RA s lower upper start n coord = Rejected /\ exists c, crowded t d ncells n x c).
Proof.
  intros En. rewrite valid_eq, En, Z.eqb_refl, <- En. clear En.
  destruct (for_range_or counting (exists c, crowded t d ncells n x c) body 0 n (0, d + 1) Hn counting_0) as [(st & E & C) | [E C]].
  { intros k st Hk Hst. exact (counting_step k st Hk Hst). }
  - rewrite E. cbn [rbind]. destruct st as [c e]. destruct C as (p & Hp & -> & He & H1 & H2 & H3 & H4). unfold check_n_points_in_cell. rewrite (f_deg _ _ _ _ _ _ _ F).
    destruct (d + 1 <? n - p) eqn:Ec; [|left; reflexivity]. right. split; [reflexivity|]. exists (e - 1).
    assert (Hup : forall i, p <= i < n -> (t (e - 1)%Z <= x i <= t e)%R).
    { intros i Hi. split; [apply H1; lia|]. pose proof (increasing_le i (n - 1) ltac:(lia) ltac:(lia)). specialize (H2 ltac:(lia)). lra. }
    split.
    + split; [lia|]. destruct (Z_le_dec e (d + ncells)); [lia|]. exfalso. pose proof (H1 p ltac:(lia)) as H5. replace (e - 1) with (d + ncells) in H5 by lia.
      rewrite (f_last _ _ _ _ _ _ _ F) in H5. pose proof (Hinc p (p + 1) ltac:(lia) ltac:(lia) ltac:(lia)). pose proof (proj2 (Hcoord (p + 1) ltac:(lia))). lra.
    + replace (e - 1 + 1) with e by ring. pose proof (count_at_least x (t (e - 1)%Z) (t e) n p n ltac:(lia) ltac:(lia) Hup). lia.
  - right. rewrite E. split; [reflexivity | exact C].
Qed.
Lemma valid_number : n <> expected -> check_valid_grid RA s lower upper start n coord = Rejected.
Proof. intros N. rewrite valid_eq. now replace (n =? expected) with false by lia. Qed.
Lemma valid_complete c : occupied t d ncells n x -> crowded t d ncells n x c -> check_valid_grid RA s lower upper start n coord = Rejected.
Proof.
  intros Hocc [Hc Hcr]. destruct (Z.eq_dec n expected) as [En | En]; [|now apply valid_number].
  destruct (valid_sound En) as [E | [E _]]; [exfalso | exact E]. rewrite valid_eq, En, Z.eqb_refl, <- En in E.
  destruct (for_range 0 n body (0, d + 1)) as [[c' e]| |] eqn:El; cbn [rbind] in E; try discriminate.
  apply (LinearProofs2.for_range_hoare exactly) in El; [| exact Hn | exact exactly_0 | intros k st st' Hk Hst Hb; exact (exactly_step k st st' Hocc Hk Hst Hb)].
  destruct El as (p & Hp & -> & He & H1 & H2 & H3 & H4 & H5 & H6). unfold check_n_points_in_cell in E. rewrite (f_deg _ _ _ _ _ _ _ F) in E.
  destruct (d + 1 <? n - p) eqn:Ec; [discriminate|].
  destruct (Hocc (d + ncells - 1) ltac:(lia)) as (i & Hi & Hi2 & Hi3).
  assert (He1 : d + ncells <= e).
  { destruct (Z_le_dec (d + ncells) e); [assumption|]. exfalso. specialize (H5 ltac:(lia) ltac:(lia)). pose proof (increasing_le i (n - 1) ltac:(lia) ltac:(lia)).
    pose proof (f_mono _ _ _ _ _ _ _ F e (d + ncells - 1) ltac:(lia)). lra. }
  destruct (Z_lt_dec c (e - 1)). { pose proof (H6 c ltac:(lia)). lia. }
  assert (e = d + ncells) by lia. assert (c = e - 1) as -> by lia. clear n0.
  rewrite (count_range x (t (e - 1)%Z) (t (e - 1 + 1)%Z) n p n) in Hcr; [lia | lia | lia |].
  intros j Hj. split.
  - intros Hin. destruct (Z_lt_dec j p); [pose proof (H2 j ltac:(lia)); lra | lia].
  - intros Hin. split; [apply H1; lia|]. replace (e - 1 + 1) with (d + ncells) by lia. rewrite (f_last _ _ _ _ _ _ _ F). apply (Hcoord j ltac:(lia)).
Qed.
End Grid.

(** ** Nothing else rejects *)
Definition nr {T} (r : res T) : Prop := r <> Rejected.
Lemma nr_ok {T} (v : T) : nr (Ok v). Proof. discriminate. Qed.
Lemma nr_bind {T U} (r : res T) (f : T -> res U) : nr r -> (forall v, nr (f v)) -> nr (rbind r f).
Proof. intros H1 H2. destruct r; [apply H2 | discriminate | now destruct H1]. Qed.
Lemma nr_assert {T} c (r : res T) : nr r -> nr (assert_ c r). Proof. intros H. destruct c; [exact H | discriminate]. Qed.
Lemma nr_if {T} (c : bool) (r r' : res T) : nr r -> nr r' -> nr (if c then r else r'). Proof. destruct c; auto. Qed.
Lemma nr_get {T} (v : arr T) i : nr (aget v i). Proof. unfold aget. destruct (_ && _); discriminate. Qed.
Lemma nr_get2 {T} (v : arr2 T) i j : nr (aget2 v i j). Proof. unfold aget2. destruct (in2 _ _ _); discriminate. Qed.
Lemma nr_set2 {T} (v : arr2 T) i j w : nr (aset2 v i j w). Proof. unfold aset2. destruct (in2 _ _ _); discriminate. Qed.
Lemma nr_for {T} (body : Z -> T -> res T) lo hi st : (forall i st, lo <= i < hi -> nr (body i st)) -> nr (for_range lo hi body st).
Proof.
  unfold for_range. assert (G : forall m lo st, (forall i st, lo <= i < lo + Z.of_nat m -> nr (body i st)) -> nr (for_n m lo body st)).
  { induction m as [|m IH]; intros lo' st' H; cbn [for_n]; [discriminate|]. apply nr_bind; [apply H; lia|]. intros v. apply IH. intros i st2 Hi. apply H. lia. }
  intros H. apply G. intros i st' Hi. apply H. lia.
Qed.
Lemma nr_elem_set (e : elementary RA) i j v : nr (elem_set RA e i j v).
Proof.
  destruct e; cbn [elem_set]; try destruct (j <? i); repeat first [apply nr_assert | apply nr_if | apply nr_bind | apply nr_set2 | apply nr_ok | intros].
Qed.
Lemma nr_set_element (p : problem RA) i j v : nr (set_element RA p i j v).
Proof.
  assert (B : forall bk i j, nr (blocks_set RA bk i j v)).
  { intros [n q tr bl br] i' j'. unfold blocks_set. cbn [bk_size bk_top_left]. repeat first [apply nr_assert | apply nr_if | apply nr_bind | apply nr_set2 | apply nr_ok | apply nr_elem_set | intros]. }
  destruct p; cbn [set_element]; apply nr_bind; try (intros; apply nr_ok); [apply nr_elem_set | apply B | apply B].
Qed.
Section Constructor.
Context (solver : spline_solver) (s : bspline_space RA) (d : Z) (periodic : bool) (ncells : Z) (t : Z -> R) (a b : R) (lower upper : closure).
Context (start n : Z) (coord : Z -> res R) (x : Z -> R) (IP : interpolation solver s d periodic ncells t a b lower upper start n coord x).
Let F : facts s d periodic ncells t a b := space_facts _ _ _ _ _ _ _ (i_space _ _ _ _ _ _ _ _ _ _ _ _ _ _ IP).
Let Hcompat : compatible_closures RA s lower upper = true := proj1 (closures_compat s periodic lower upper (f_per _ _ _ _ _ _ _ F)) (i_closures _ _ _ _ _ _ _ _ _ _ _ _ _ _ IP).
Context (m : scratch RA).
Lemma rejected_iff : n <= ncells + d -> builder_construct RA s m solver lower upper start n coord = Rejected <-> check_valid_grid RA s lower upper start n coord = Rejected.
Proof.
  intros Hn. pose proof IP as IP'. destruct IP' as [_ _ Hpts Hcells Hst Hsm Hfa Hsens].
  unfold builder_construct. rewrite (f_rmin _ _ _ _ _ _ _ F), (f_rmax _ _ _ _ _ _ _ F). cbn [rbind].
  destruct (check_valid_grid RA s lower upper start n coord) as [[]| |] eqn:Ev; cbn [rbind]; [| split; [discriminate | discriminate] | tauto].
  split; [|discriminate]. intros E. exfalso. revert E. pose proof (valid_points s d periodic ncells t a b F lower upper Hcompat start n coord Ev) as En.
  destruct (offset_ok s d periodic ncells t a b F lower upper Hcompat m start n coord x Hst Hsm Hpts Hcells Hfa En) as (off & -> & _). cbn [rbind].
  rewrite (allocate_eq s d periodic ncells t a b F lower upper Hcompat solver). destruct (create_zero RA _ Hsens) as (p0 & -> & _). cbn [rbind].
  apply nr_bind; [|intros; apply nr_ok]. unfold build_matrix_system.
  pose proof (f_ab _ _ _ _ _ _ _ F) as Hab. pose proof (half_d s d periodic ncells t a b F) as Hh.
  assert (Nm : forall dx dv, nr (normalise RA s dx dv)). { intros dx dv. unfold normalise. repeat first [apply nr_for | apply nr_bind | apply nr_get2 | apply nr_set2 | intros]. }
  assert (Hq : forall cl, is_hermite cl = true -> equations cl d = d / 2) by (intros [ | | | ]; try discriminate; reflexivity).
  apply nr_bind.
  - destruct (is_hermite lower) eqn:El; [|apply nr_ok]. unfold hermite_lower_rows. rewrite (f_rmin _ _ _ _ _ _ _ F). cbn [rbind].
    rewrite (nbe_min s d periodic ncells t a b F lower).
    destruct (f_derivs _ _ _ _ _ _ _ F m a (equations lower d)) as (v & c & -> & _); [lra | rewrite (Hq _ El); lia | rewrite (Hq _ El); apply Hfa; reflexivity |].
    cbn [rbind]. repeat first [apply Nm | apply nr_for | apply nr_bind | apply nr_get2 | apply nr_set_element | intros].
  - intros p1. apply nr_bind.
    + unfold point_rows. apply nr_for. intros k p2 Hk. unfold u64_add at 1. rewrite u64_small by lia. destruct (Hpts k Hk) as [-> Hx]. cbn [rbind].
      destruct (f_eval _ _ _ _ _ _ _ F m (x k) Hx) as (v & c & E & _). change (num RA) with R in *. rewrite E. cbn [rbind]. repeat first [apply nr_for | apply nr_bind | apply nr_get | apply nr_set_element | intros].
    + intros p2. destruct (is_hermite upper) eqn:El; [|apply nr_ok]. unfold hermite_upper_rows. rewrite (f_rmax _ _ _ _ _ _ _ F). cbn [rbind].
      rewrite (nbe_max s d periodic ncells t a b F upper).
      destruct (f_derivs _ _ _ _ _ _ _ F m b (equations upper d)) as (v & c & -> & _); [lra | rewrite (Hq _ El); lia | rewrite (Hq _ El); apply Hfa; apply orb_true_r |].
      cbn [rbind]. repeat first [apply Nm | apply nr_for | apply nr_bind | apply nr_get2 | apply nr_set_element | intros].
Qed.
End Constructor.
