(** Cell search and knots. *)
From Coq Require Import Bool Reals Lia Lra ZifyBool.
From Verif Require Import BSplineModel BSplineSpec LoopProofs BSplineMath BSplineDeriv BSplineProofs BSplineNDerivs BSplineUniform SamplingSpec SamplingProofs.
Local Open Scope bool_scope. Local Open Scope Z_scope.

(** ** Bisection, for any arithmetic with comparisons that agree with those of reals *)
Section Search.
Context (A : arith) (val : num A -> R) (s : n_bsplines A) (t : Z -> R) (k : Z -> num A) (front back : Z) (x : num A).
Hypothesis Hk : forall i, front <= i <= back -> nb_coord A s i = Ok (k i) /\ val (k i) = t i.
Hypothesis Hlt : forall i, front <= i <= back -> nltb A x (k i) = R_ltb (val x) (t i).
Hypothesis Hle : forall i, front <= i <= back -> nleb A (k i) x = R_leb (t i) (val x).
Hypothesis Hfront : 0 <= front.
Hypothesis Hback : back < 2 ^ 63.
Lemma elem_minus_small i j : 0 <= j <= i -> i < 2 ^ 63 -> elem_minus i j = i - j.
Proof. intros. unfold elem_minus, u64_sub. rewrite u64_small by lia. apply i64_small. lia. Qed.
Lemma nb_mid_eq low high : front <= low <= high -> high <= back -> nb_mid low high = low + (high - low) / 2.
Proof.
  intros. unfold nb_mid. rewrite elem_minus_small by lia. rewrite Z.quot_div_nonneg by lia.
  assert (0 <= (high - low) / 2 <= high - low) by (split; [apply Z.div_pos; lia | apply Z.div_le_upper_bound; lia]).
  rewrite (u64_small ((high - low) / 2)) by lia. unfold u64_add. rewrite u64_small; lia.
Qed.
Lemma search_ok fuel : forall low high, front <= low < high -> high <= back -> high - low <= Z.of_nat fuel + 1 ->
  (t low <= val x < t high)%R ->
  exists c, nb_search A s fuel x low high = Ok (Some c) /\ low <= c < high /\ (t c <= val x < t (c + 1)%Z)%R.
Proof.
  unfold nb_search. induction fuel as [|fuel IH]; intros low high Hl Hh Hf Hx;
    rewrite nb_mid_eq by lia; set (c := low + (high - low) / 2);
    assert (Hc : low <= c < high) by
      (unfold c; pose proof (Z.div_lt_upper_bound (high - low) 2 (high - low) ltac:(lia) ltac:(lia)); pose proof (Z.div_pos (high - low) 2 ltac:(lia) ltac:(lia)); lia);
    assert (Hs : c = low -> high = low + 1) by
      (intros E; unfold c in E; pose proof (Z.div_mod (high - low) 2 ltac:(lia)); pose proof (Z.mod_pos_bound (high - low) 2 ltac:(lia)); lia);
    assert (Econd : nb_search_cond A s x (low, high, c) = Ok (R_ltb (val x) (t c) || R_leb (t (c + 1)) (val x)))
      by (unfold nb_search_cond; destruct (Hk c ltac:(lia)) as (-> & _); cbn [rbind]; rewrite Hlt by lia;
          destruct (R_ltb (val x) (t c)) eqn:E; cbn [orb]; [reflexivity|];
          replace (u64_add c 1) with (c + 1) by (unfold u64_add; rewrite u64_small; lia);
          destruct (Hk (c + 1) ltac:(lia)) as (-> & _); cbn [rbind]; rewrite Hle by lia; reflexivity).
  - cbn [while_]. rewrite Econd. cbn [rbind].
    assert (c = low) by lia. rewrite (Hs ltac:(assumption)) in *. clearbody c. subst c.
    rewrite R_ltb_false by lra. rewrite R_leb_false by lra. cbn [orb rbind]. exists low. split; [reflexivity|]. split; [lia | lra].
  - cbn [while_]. rewrite Econd. cbn [rbind]. unfold R_ltb at 1. destruct (Rlt_dec (val x) (t c)) as [H1|H1].
    + cbn [orb]. unfold nb_search_body at 1. destruct (Hk c ltac:(lia)) as (-> & _). cbn [rbind]. rewrite Hlt, R_ltb_true by (lia || lra). cbn [rbind].
      assert (c <> low) by (intros E; rewrite E in H1; lra).
      destruct (IH low c ltac:(lia) ltac:(lia) ltac:(lia) ltac:(lra)) as (c' & E & Hc' & Hx'). exists c'. split; [exact E|]. split; [lia | exact Hx'].
    + unfold R_leb at 1. destruct (Rle_dec (t (c + 1)) (val x)) as [H2|H2].
      * cbn [orb]. unfold nb_search_body at 1. destruct (Hk c ltac:(lia)) as (-> & _). cbn [rbind]. rewrite Hlt, R_ltb_false by (lia || lra). cbn [rbind].
        assert (c <> low). { intros E. pose proof (Hs E) as E'. rewrite E in H2. rewrite <- E' in H2. lra. }
        destruct (IH c high ltac:(lia) ltac:(lia) ltac:(lia) ltac:(lra)) as (c' & E & Hc' & Hx'). exists c'. split; [exact E|]. split; [lia | exact Hx'].
      * cbn [orb rbind]. exists c. split; [reflexivity|]. split; [exact Hc | lra].
Qed.
End Search.
