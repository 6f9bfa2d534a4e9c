(** Integrals in two dimensions. *)
From Coq Require Import Bool ZArith Lia Reals Lra ZifyBool.
From Coquelicot Require Import Coquelicot.
From Verif Require Import Spline2DSpec LoopProofs SamplingProofs BSplineDeriv BSplineMath IntegralMath IntegralMath2 IntegralProofs EvaluatorSpace EvaluatorProofs EvaluatorProofs2 Spline2DProofs Spline2DMath Spline2DEval Spline2DEval2.
Local Open Scope bool_scope. Local Open Scope Z_scope.

Section One.
Context (A : axis) (s : bspline_space RA).
Hypothesis (Sp : space_of s A).
Let F := space_facts _ _ _ _ _ _ _ Sp.
(** The integrals of the basis, that are zero from the period on. *)
Definition nb : Z := if ax_periodic A then ax_cells A else ax_size A.
Record integrals (w : chunk_1d RA) : Prop := {
  iv_front : c1_front RA w = 0; iv_size : c1_size RA w = ax_size A;
  iv_vals : forall i, 0 <= i < nb ->
     integral (if ax_periodic A then periodic_bspline (ax_knots A) (ax_max A) (ax_degree A) (ax_cells A) i else basis A i) (ax_min A) (ax_max A) (a_at (c1_vals RA w) i);
  iv_zero : forall i, nb <= i < ax_size A -> a_at (c1_vals RA w) i = 0%R }.
Lemma nb_le : 0 <= nb <= ax_size A.
Proof. pose proof (f_n _ _ _ _ _ _ _ F). pose proof (f_d _ _ _ _ _ _ _ F). unfold nb, ax_size. clearbody F. destruct (ax_periodic A); lia. Qed.
Lemma integrals_ok q m junk : (bs_uniform RA s = true -> ax_periodic A = false -> ax_degree A <= ax_cells A) ->
  exists w, bs_integrals RA q s m (mk_chunk_1d RA 0 (mk_arr (ax_size A) junk)) = Ok w /\ integrals w.
Proof.
  intros Hfew. destruct (f_integrals _ _ _ _ _ _ _ F q m (mk_chunk_1d RA 0 (mk_arr (ax_size A) junk)) eq_refl) as (c & E & C1 & C2 & C3 & C4).
  { unfold c1_size. cbn [c1_vals a_len]. unfold ax_size. clearbody F. destruct (ax_periodic A); [right; split; reflexivity | left; reflexivity]. }
  { exact Hfew. }
  change (c1_size RA (mk_chunk_1d RA 0 (mk_arr (ax_size A) junk))) with (ax_size A) in C2, C4.
  exists c. split; [exact E|]. split; [exact C1 | exact C2 | exact C3 | exact C4].
Qed.
Lemma integrals_get w k : integrals w -> 0 <= k < ax_size A -> c1_get RA w k = Ok (a_at (c1_vals RA w) k : num RA).
Proof. intros [H1 H2 _ _] Hk. exact (c1_get_ok _ _ _ _ _ _ _ F w k (conj H1 H2) Hk). Qed.
Lemma integral_spline w (c : Z -> R) : integrals w -> (ax_periodic A = true -> periodic_coefficients c (ax_degree A) (ax_cells A)) ->
  integral (spline_1d A c) (ax_min A) (ax_max A) (zsum (ax_size A) (fun i => c i * a_at (c1_vals RA w) i)%R).
Proof.
  intros [_ _ H3 H4] Hc. pose proof nb_le. rewrite (zsum_part (ax_size A) 0 nb); [| lia | lia | lia | intros i Hi Ho; rewrite H4 by lia; ring].
  exact (spline_integral _ _ _ _ _ _ _ F c (a_at (c1_vals RA w)) Hc H3).
Qed.
End One.

Section Two.
Context (A1 A2 : axis) (s1 s2 : bspline_space RA).
Hypothesis (Sp1 : space_of s1 A1) (Sp2 : space_of s2 A2).
Let F1 := space_facts _ _ _ _ _ _ _ Sp1.
Let F2 := space_facts _ _ _ _ _ _ _ Sp2.
Context (m1 m2 : scratch RA).
Notation spline2 c := (spline_2d A1 A2 (coefficient_2d c)).
Lemma iterated_integral (w1 w2 : chunk_1d RA) (c : Z -> Z -> R) : integrals A1 w1 -> integrals A2 w2 -> periodic_2d A1 A2 c ->
  exists G : R -> R, (forall x, integral (spline_2d A1 A2 c x) (ax_min A2) (ax_max A2) (G x)) /\
    integral G (ax_min A1) (ax_max A1) (zsum (ax_size A1) (fun i => zsum (ax_size A2) (fun j => c i j * a_at (c1_vals RA w1) i * a_at (c1_vals RA w2) j)%R)).
Proof.
  intros W1 W2 [P1 P2]. pose proof (one_sizes A1 s1 Sp1) as S1. pose proof (one_sizes A2 s2 Sp2) as S2.
  exists (spline_1d A1 (fun i => zsum (ax_size A2) (fun j => c i j * a_at (c1_vals RA w2) j)%R)). split.
  - intros x. assert (E : spline_1d A1 (fun i => zsum (ax_size A2) (fun j => c i j * a_at (c1_vals RA w2) j)%R) x = zsum (ax_size A2) (fun j => spline_1d A1 (fun i => c i j) x * a_at (c1_vals RA w2) j)%R).
    { rewrite spline_1d_sum, sum_first_zsum. rewrite (zsum_ext _ _ (fun i => zsum (ax_size A2) (fun j => basis A1 i x * (c i j * a_at (c1_vals RA w2) j))%R)) by (intros i _; rewrite zsum_scal; ring).
      rewrite zsum_exchange by (unfold ax_size; lia). apply zsum_ext. intros j _. rewrite spline_1d_sum, sum_first_zsum. rewrite Rmult_comm, <- zsum_scal. apply zsum_ext. intros i _. ring. }
    rewrite E. unfold integral. eapply is_RInt_ext; [|apply (integral_spline A2 s2 Sp2 w2 (fun j => spline_1d A1 (fun i => c i j) x) W2)].
    + intros y _. symmetry. apply (spline_2d_columns A1 A2 s1 s2 Sp1 Sp2).
    + intros Hp k Hk. apply spline_1d_ext. intros i Hi. apply (P2 Hp i Hi k Hk).
  - rewrite (zsum_ext (ax_size A1) _ (fun i => zsum (ax_size A2) (fun j => c i j * a_at (c1_vals RA w2) j) * a_at (c1_vals RA w1) i)%R).
    + apply (integral_spline A1 s1 Sp1 w1 _ W1). intros Hp k Hk. apply zsum_ext. intros j Hj. f_equal. exact (P1 Hp j Hj k Hk).
    + intros i _. rewrite Rmult_comm, <- zsum_scal. apply zsum_ext. intros j _. ring.
Qed.
Theorem integrate_2d_values q1 q2 junk1 junk2 nbatch (coef : Z -> chunk_2d RA) (out : arr R) : 0 <= nbatch -> a_len out = nbatch ->
  (bs_uniform RA s1 = true -> ax_periodic A1 = false -> ax_degree A1 <= ax_cells A1) -> (bs_uniform RA s2 = true -> ax_periodic A2 = false -> ax_degree A2 <= ax_cells A2) ->
  (forall j, 0 <= j < nbatch -> has_coefficients_2d (coef j) (ax_size A1) (ax_size A2) /\ periodic_2d A1 A2 (coefficient_2d (coef j))) ->
  exists out', integrate_2d RA s1 s2 m1 m2 q1 q2 junk1 junk2 0 (ax_size A1) 0 (ax_size A2) nbatch coef out = Ok out' /\ a_len out' = nbatch /\
    (forall j, 0 <= j < nbatch -> exists G : R -> R, (forall x, integral (spline2 (coef j) x) (ax_min A2) (ax_max A2) (G x)) /\ integral G (ax_min A1) (ax_max A1) (a_at out' j)).
Proof.
  intros Hb Hout Hf1 Hf2 Hc. pose proof (one_sizes A1 s1 Sp1) as S1. pose proof (one_sizes A2 s2 Sp2) as S2.
  assert (N1 : 0 <= ax_size A1) by (unfold ax_size; lia). assert (N2 : 0 <= ax_size A2) by (unfold ax_size; lia).
  destruct (integrals_ok A1 s1 Sp1 q1 m1 junk1 Hf1) as (w1 & E1 & W1). destruct (integrals_ok A2 s2 Sp2 q2 m2 junk2 Hf2) as (w2 & E2 & W2).
  unfold integrate_2d. rewrite E1. cbn [rbind]. rewrite E2. cbn [rbind]. change (num RA) with R in *.
  set (term := fun j i1 i2 => (coefficient_2d (coef j) i1 i2 * a_at (c1_vals RA w1) i1 * a_at (c1_vals RA w2) i2)%R).
  set (body := fun j k1 k2 (out : arr R) => let i1 := u64_add 0 k1 in let i2 := u64_add 0 k2 in o <- aget out j ;; c <- c2_get RA (coef j) i1 i2 ;; v1 <- c1_get RA w1 i1 ;; v2 <- c1_get RA w2 i2 ;;
      aset out j (nadd RA o (nmul RA (nmul RA c v1) v2))).
  destruct (for_range_inv (fun j (o : arr R) => a_len o = nbatch /\ forall j', 0 <= j' < j -> a_at o j' = zsum (ax_size A1) (fun i1 => zsum (ax_size A2) (fun i2 => term j' i1 i2)))
    (fun j (out : arr R) => out <- aset out j 0%R ;; for_range 0 (ax_size A1) (fun k1 out => for_range 0 (ax_size A2) (body j k1) out) out) 0 nbatch out) as (o & E' & O1 & O2).
  - lia.
  - split; [exact Hout | lia].
  - intros j o Hj (O1 & O2). rewrite aset_ok by lia. cbn [rbind].
    destruct (for_range_inv (fun k1 (o' : arr R) => a_len o' = nbatch /\ (forall j', 0 <= j' < j -> a_at o' j' = a_at o j') /\ a_at o' j = zsum k1 (fun i1 => zsum (ax_size A2) (fun i2 => term j i1 i2)))
      (fun k1 out => for_range 0 (ax_size A2) (body j k1) out) 0 (ax_size A1) (mk_arr (a_len o) (upd (a_at o) j 0%R))) as (o' & E3 & P1 & P2 & P3).
    + lia.
    + cbn [a_len a_at]. split; [exact O1|]. split; [intros j' Hj'; now rewrite upd_neq by lia | now rewrite upd_eq].
    + intros k1 o' Hk1 (P1 & P2 & P3).
      destruct (for_range_inv (fun k2 (o2 : arr R) => a_len o2 = nbatch /\ (forall j', 0 <= j' < j -> a_at o2 j' = a_at o j') /\
          a_at o2 j = (zsum k1 (fun i1 => zsum (ax_size A2) (fun i2 => term j i1 i2)) + zsum k2 (fun i2 => term j k1 i2))%R) (body j k1) 0 (ax_size A2) o') as (o2 & E4 & Q1 & Q2 & Q3).
      * lia.
      * split; [exact P1|]. split; [exact P2|]. rewrite P3. cbn. ring.
      * intros k2 o2 Hk2 (Q1 & Q2 & Q3). unfold body. cbv zeta.
        replace (u64_add 0 k1) with k1 by (unfold u64_add; rewrite u64_small; lia). replace (u64_add 0 k2) with k2 by (unfold u64_add; rewrite u64_small; lia).
        rewrite aget_ok by lia. cbn [rbind]. rewrite (c2_get_ok A1 A2 s1 s2 Sp1 Sp2) by (try apply (Hc j Hj); lia). cbn [rbind].
        rewrite (integrals_get A1 s1 Sp1 w1 k1 W1 Hk1). cbn [rbind]. rewrite (integrals_get A2 s2 Sp2 w2 k2 W2 Hk2). cbn [rbind].
        rewrite aset_ok by lia. eexists. split; [reflexivity|]. cbn [a_len a_at]. split; [exact Q1|]. split; [intros j' Hj'; rewrite upd_neq by lia; now apply Q2|].
        rewrite upd_eq, (zsum_S k2) by lia. rewrite Q3. cbn [RA nadd nmul]. unfold term. ring.
      * exists o2. split; [exact E4|]. split; [exact Q1|]. split; [exact Q2|]. rewrite Q3, (zsum_S k1) by lia. reflexivity.
    + exists o'. split; [exact E3|]. split; [exact P1|]. intros j' Hj'. destruct (Z.eq_dec j' j) as [->|N]; [exact P3 | rewrite P2 by lia; apply O2; lia].
  - exists o. split; [exact E'|]. split; [exact O1|]. intros j Hj. rewrite (O2 j Hj). apply iterated_integral; [exact W1 | exact W2 | apply (Hc j Hj)].
Qed.
End Two.
