(** The evaluator in two dimensions. *)
From Coq Require Import Bool ZArith Lia Reals Lra ZifyBool.
From Verif Require Import Spline2DSpec LoopProofs SamplingProofs BSplineDeriv BSplineMath IntegralMath IntegralMath2 IntegralProofs EvaluatorSpace EvaluatorProofs EvaluatorProofs2 Spline2DProofs Spline2DMath.
Local Open Scope bool_scope. Local Open Scope Z_scope.

Definition cell_of (A : axis) (x : R) (k : Z) : Prop := in_cell (ax_knots A) (ax_degree A) (ax_cells A) (ax_max A) x k.

(** *** one dimension *)
Section One.
Context (A : axis) (s : bspline_space RA).
Hypothesis (Sp : space_of s A).
Let F := space_facts _ _ _ _ _ _ _ Sp.
Notation d := (ax_degree A). Notation t := (ax_knots A).
(** The values found are those of the derivative, for some functions that are derivatives of the pieces. *)
Record weights (o : Z) (x : R) (v : arr R) (j : Z) (g : Z -> R -> R) : Prop := {
  w_cell : cell_of A x (j + d); w_len : a_len v = d + 1; w_order : 0 <= o <= d;
  w_nd : forall r, 0 <= r <= d -> nth_derivative (Z.to_nat o) (basis_piece A (j + d) (j + r)) (g r);
  w_val : forall r, 0 <= r <= d -> a_at v r = g r x }.
Lemma basis_values_ok m o x : (ax_min A <= x <= ax_max A)%R -> order_valid A o ->
  exists v j g, basis_values RA s m o x = Ok (v, j) /\ weights (order_of o) x v j g.
Proof.
  intros Hx Ho. pose proof (f_d _ _ _ _ _ _ _ F) as Hd. destruct o as [k|]; cbn [order_of].
  - destruct Ho as [Hk Hf]. cbn [basis_values]. rewrite (f_deg _ _ _ _ _ _ _ F). replace ((0 <? k) && (k <=? d)) with true by lia. cbn [assert_].
    destruct (f_derivs _ _ _ _ _ _ _ F m x k Hx ltac:(lia) Hf) as (w & c & E & Hc & W1 & W2 & W3). rewrite E. cbn [rbind]. change (num RA) with R in *.
    destruct (for_range_inv (fun i (vals : arr R) => a_len vals = d + 1 /\ forall r, 0 <= r < i -> a_at vals r = kth t c d r (Z.to_nat k) x)
      (fun i vals => v <- aget2 w i k ;; aset vals i v) 0 (d + 1) (mk_arr (d + 1) (m_vals m))) as (vals & E' & Hl & Hvals).
    + lia.
    + split; [reflexivity | lia].
    + intros i vals Hi [Hl Hvals]. rewrite aget2_ok by lia. cbn [rbind]. rewrite aset_ok by lia. eexists. split; [reflexivity|]. cbn [a_len a_at]. split; [exact Hl|].
      intros r Hr. destruct (Z.eq_dec r i) as [->|N]; [rewrite upd_eq; apply W3; lia | rewrite upd_neq by lia; apply Hvals; lia].
    + exists vals, (c - d), (fun r => kth t c d r (Z.to_nat k)). split; [etransitivity; [exact (f_equal (fun r => rbind r (fun vals => Ok (vals, c - d))) E')|]; reflexivity|].
      pose proof Hc as [Hc1 _]. split; [replace (c - d + d) with c by lia; exact Hc | exact Hl | lia | |].
      * intros r Hr. replace (c - d + d) with c by lia. exact (kth_nd _ _ _ _ _ _ _ F c r k Hc1 Hr ltac:(lia)).
      * intros r Hr. apply Hvals. lia.
  - cbn [basis_values]. destruct (f_eval _ _ _ _ _ _ _ F m x Hx) as (v & c & E & Hc & Hl & Hv). exists v, (c - d), (fun r => basis_piece A c (c - d + r)).
    split; [exact E|]. split; [replace (c - d + d) with c by lia; exact Hc | exact Hl | lia | |].
    + intros r Hr x'. replace (c - d + d) with c by lia. reflexivity.
    + exact Hv.
Qed.
Lemma eval_no_bc_values m o x coef : eval_no_bc RA s m o x coef = (' (v, j) <- basis_values RA s m o x ;; spline_sum RA s j v coef).
Proof.
  destruct o as [k|]; cbn [eval_no_bc basis_values]; [|reflexivity]. destruct (_ && _); cbn [assert_ rbind]; [|reflexivity].
  destruct (bs_n_derivs RA s m x k) as [[v j]| |]; cbn [rbind]; [|reflexivity..]. now destruct (for_range _ _ _ _).
Qed.
Lemma weights_range o x v j g : weights o x v j g -> 0 <= j < ax_cells A.
Proof. intros W. pose proof (w_cell _ _ _ _ _ W) as [H _]. lia. Qed.
(** The sum, as the derivative of the piece. *)
Definition weighted (v : Z -> R) (j : Z) (c : Z -> R) : R := zsum (d + 1) (fun r => c (j + r)%Z * v r)%R.
Lemma weighted_nd o x v j g c : weights o x v j g -> nth_derivative (Z.to_nat o) (piece_1d A (j + d) c) (fun x' => weighted (fun r => g r x') j c).
Proof.
  intros W. pose proof (weights_range _ _ _ _ _ W). pose proof (w_cell _ _ _ _ _ W) as [Hc _].
  eapply nth_derivative_ext; [| |apply (nd_zsum (Z.to_nat o) (d + 1) (fun r x' => c (j + r)%Z * basis_piece A (j + d) (j + r) x')%R (fun r x' => c (j + r)%Z * g r x')%R)].
  - intros x'. cbn beta. symmetry. unfold piece_1d. rewrite (piece_sum _ _ _ _ _ _ _ F) by exact Hc. apply zsum_ext. intros r Hr. unfold basis_piece. do 2 f_equal; [lia|]. f_equal. lia.
  - intros x'. reflexivity.
  - intros r Hr. apply nd_scal. apply (w_nd _ _ _ _ _ W). lia.
Qed.
Lemma weighted_val o x v j g c : weights o x v j g -> weighted (a_at v) j c = weighted (fun r => g r x) j c.
Proof. intros W. apply zsum_ext. intros r Hr. now rewrite (w_val _ _ _ _ _ W) by lia. Qed.
Lemma sum_weighted o x v j g (c : chunk_1d RA) : weights o x v j g -> has_coefficients c (ax_size A) -> spline_sum RA s j v c = Ok (weighted (a_at v) j (coefficient c) : num RA).
Proof. intros W Hc. pose proof (weights_range _ _ _ _ _ W). exact (spline_sum_ok _ _ _ _ _ _ _ F j v c Hc ltac:(lia) (w_len _ _ _ _ _ W)). Qed.
Lemma weighted_spline x v j g c : weights 0 x v j g -> weighted (a_at v) j c = spline_1d A c x.
Proof.
  intros W. rewrite (weighted_val _ _ _ _ _ c W). pose proof (weighted_nd _ _ _ _ _ c W) as K. cbn [Z.to_nat nth_derivative] in K. rewrite <- K.
  symmetry. exact (spline_is_piece _ _ _ _ _ _ _ F _ _ _ (w_cell _ _ _ _ _ W)).
Qed.
Lemma one_sizes : 1 <= ax_cells A /\ 1 <= d /\ ax_size A < 2 ^ 31.
Proof. pose proof (f_n _ _ _ _ _ _ _ F). pose proof (f_d _ _ _ _ _ _ _ F). pose proof (f_big _ _ _ _ _ _ _ F). unfold ax_size. lia. Qed.
End One.

(** *** two dimensions *)
Section Two.
Context (A1 A2 : axis) (s1 s2 : bspline_space RA).
Hypothesis (Sp1 : space_of s1 A1) (Sp2 : space_of s2 A2).
Let F1 := space_facts _ _ _ _ _ _ _ Sp1.
Let F2 := space_facts _ _ _ _ _ _ _ Sp2.
Notation d1 := (ax_degree A1). Notation d2 := (ax_degree A2).
Lemma c2_get_ok (c : chunk_2d RA) i j : has_coefficients_2d c (ax_size A1) (ax_size A2) -> 0 <= i < ax_size A1 -> 0 <= j < ax_size A2 -> c2_get RA c i j = Ok (coefficient_2d c i j : num RA).
Proof.
  intros (H1 & H2 & H3 & H4) Hi Hj. pose proof (one_sizes A1 s1 Sp1). pose proof (one_sizes A2 s2 Sp2). unfold c2_get. rewrite H1, H2.
  replace (elem_minus i 0) with i by (unfold elem_minus, u64_sub; rewrite u64_small, i64_small; lia).
  replace (elem_minus j 0) with j by (unfold elem_minus, u64_sub; rewrite u64_small, i64_small; lia).
  apply aget2_ok; lia.
Qed.
Definition weighted_2d (v1 : Z -> R) (j1 : Z) (v2 : Z -> R) (j2 : Z) (c : Z -> Z -> R) : R :=
  zsum (d1 + 1) (fun r1 => zsum (d2 + 1) (fun r2 => c (j1 + r1)%Z (j2 + r2)%Z * v1 r1 * v2 r2)%R).
Lemma sum_2d_ok o1 o2 x y v1 j1 g1 v2 j2 g2 (c : chunk_2d RA) : weights A1 o1 x v1 j1 g1 -> weights A2 o2 y v2 j2 g2 -> has_coefficients_2d c (ax_size A1) (ax_size A2) ->
  spline_sum_2d RA s1 s2 j1 v1 j2 v2 c = Ok (weighted_2d (a_at v1) j1 (a_at v2) j2 (coefficient_2d c) : num RA).
Proof.
  intros W1 W2 Hc. pose proof (weights_range _ _ _ _ _ _ W1). pose proof (weights_range _ _ _ _ _ _ W2). pose proof (one_sizes A1 s1 Sp1) as S1. pose proof (one_sizes A2 s2 Sp2) as S2. unfold ax_size in S1, S2.
  unfold spline_sum_2d. rewrite (f_deg _ _ _ _ _ _ _ F1), (f_deg _ _ _ _ _ _ _ F2). change (num RA) with R in *.
  destruct (for_range_inv (fun k (z : R) => z = zsum k (fun r1 => zsum (d2 + 1) (fun r2 => coefficient_2d c (j1 + r1)%Z (j2 + r2)%Z * a_at v1 r1 * a_at v2 r2)%R))
    (fun i (z : R) => for_range 0 (d2 + 1) (fun j (z : R) => c0 <- c2_get RA c (u64_add j1 i) (u64_add j2 j) ;; w1 <- aget v1 i ;; w2 <- aget v2 j ;; Ok (nadd RA z (nmul RA (nmul RA c0 w1) w2))) z) 0 (d1 + 1) 0%R) as (z & E & Hz).
  - lia.
  - reflexivity.
  - intros i z Hi ->.
    destruct (for_range_inv (fun k (z : R) => z = (zsum i (fun r1 => zsum (d2 + 1) (fun r2 => coefficient_2d c (j1 + r1)%Z (j2 + r2)%Z * a_at v1 r1 * a_at v2 r2)) + zsum k (fun r2 => coefficient_2d c (j1 + i)%Z (j2 + r2)%Z * a_at v1 i * a_at v2 r2))%R)
      (fun j (z : R) => c0 <- c2_get RA c (u64_add j1 i) (u64_add j2 j) ;; w1 <- aget v1 i ;; w2 <- aget v2 j ;; Ok (nadd RA z (nmul RA (nmul RA c0 w1) w2))) 0 (d2 + 1)
      (zsum i (fun r1 => zsum (d2 + 1) (fun r2 => coefficient_2d c (j1 + r1)%Z (j2 + r2)%Z * a_at v1 r1 * a_at v2 r2)%R))) as (z & E & Hz).
    + lia.
    + cbn. ring.
    + intros j z Hj ->. replace (u64_add j1 i) with (j1 + i) by (unfold u64_add; rewrite u64_small; lia). replace (u64_add j2 j) with (j2 + j) by (unfold u64_add; rewrite u64_small; lia).
      rewrite c2_get_ok by (try assumption; unfold ax_size; lia). cbn [rbind]. rewrite aget_ok by (rewrite (w_len _ _ _ _ _ _ W1); lia). cbn [rbind]. rewrite aget_ok by (rewrite (w_len _ _ _ _ _ _ W2); lia). cbn [rbind].
      eexists. split; [reflexivity|]. cbn [RA nadd nmul]. rewrite (zsum_S j) by lia. ring.
    + exists z. split; [exact E|]. rewrite Hz, (zsum_S i) by lia. reflexivity.
  - etransitivity; [exact E|]. now rewrite Hz.
Qed.
Lemma weighted_2d_rows v1 j1 v2 j2 c : weighted_2d v1 j1 v2 j2 c = weighted A1 v1 j1 (fun i => weighted A2 v2 j2 (c i)).
Proof. unfold weighted_2d, weighted. apply zsum_ext. intros r1 _. rewrite Rmult_comm, <- zsum_scal. apply zsum_ext. intros r2 _. ring. Qed.
Lemma weighted_2d_columns v1 j1 v2 j2 c : weighted_2d v1 j1 v2 j2 c = weighted A2 v2 j2 (fun j => weighted A1 v1 j1 (fun i => c i j)).
Proof.
  pose proof (one_sizes A1 s1 Sp1). unfold weighted_2d, weighted. rewrite zsum_exchange by lia. apply zsum_ext. intros r2 _. rewrite Rmult_comm, <- zsum_scal. apply zsum_ext. intros r1 _. ring.
Qed.
Lemma eval_no_bc_2d_ok m1 m2 o1 o2 x y (c : chunk_2d RA) : has_coefficients_2d c (ax_size A1) (ax_size A2) ->
  (ax_min A1 <= x <= ax_max A1)%R -> (ax_min A2 <= y <= ax_max A2)%R -> order_valid A1 o1 -> order_valid A2 o2 ->
  exists v1 j1 g1 v2 j2 g2, weights A1 (order_of o1) x v1 j1 g1 /\ weights A2 (order_of o2) y v2 j2 g2 /\
    basis_values RA s1 m1 o1 x = Ok (v1, j1) /\ basis_values RA s2 m2 o2 y = Ok (v2, j2) /\
    eval_no_bc_2d RA s1 s2 m1 m2 o1 o2 x y c = Ok (weighted_2d (a_at v1) j1 (a_at v2) j2 (coefficient_2d c) : num RA).
Proof.
  intros Hc Hx Hy H1 H2. destruct (basis_values_ok A1 s1 Sp1 m1 o1 x Hx H1) as (v1 & j1 & g1 & E1 & W1). destruct (basis_values_ok A2 s2 Sp2 m2 o2 y Hy H2) as (v2 & j2 & g2 & E2 & W2).
  exists v1, j1, g1, v2, j2, g2. split; [exact W1|]. split; [exact W2|]. split; [exact E1|]. split; [exact E2|]. unfold eval_no_bc_2d. rewrite E1. cbn [rbind]. rewrite E2. cbn [rbind].
  exact (sum_2d_ok _ _ _ _ _ _ _ _ _ _ c W1 W2 Hc).
Qed.
Lemma row_line (c : chunk_2d RA) i : has_coefficients_2d c (ax_size A1) (ax_size A2) -> 0 <= i < ax_size A1 ->
  exists l, line2 RA c i = Ok l /\ has_coefficients l (ax_size A2) /\ coefficient l = coefficient_2d c i.
Proof.
  intros (H1 & H2 & H3 & H4) Hi. pose proof (one_sizes A1 s1 Sp1). unfold line2. cbv zeta. rewrite H1. replace (elem_minus i 0) with i by (unfold elem_minus, u64_sub; rewrite u64_small, i64_small; lia).
  replace ((0 <=? i) && (i <? a2_n (c2_vals c))) with true by lia. eexists. split; [reflexivity|]. split; [split; assumption | reflexivity].
Qed.
Lemma column_line (c : chunk_2d RA) j : has_coefficients_2d c (ax_size A1) (ax_size A2) -> 0 <= j < ax_size A2 ->
  exists l, line1 RA c j = Ok l /\ has_coefficients l (ax_size A1) /\ coefficient l = (fun i => coefficient_2d c i j).
Proof.
  intros (H1 & H2 & H3 & H4) Hi. pose proof (one_sizes A2 s2 Sp2). unfold line1. cbv zeta. rewrite H2. replace (elem_minus j 0) with j by (unfold elem_minus, u64_sub; rewrite u64_small, i64_small; lia).
  replace ((0 <=? j) && (j <? a2_m (c2_vals c))) with true by lia. eexists. split; [reflexivity|]. split; [split; assumption | reflexivity].
Qed.
Theorem iterated m1 m2 o1 o2 x y (c : chunk_2d RA) : has_coefficients_2d c (ax_size A1) (ax_size A2) ->
  (ax_min A1 <= x <= ax_max A1)%R -> (ax_min A2 <= y <= ax_max A2)%R -> order_valid A1 o1 -> order_valid A2 o2 ->
  exists v : R, eval_no_bc_2d RA s1 s2 m1 m2 o1 o2 x y c = Ok v /\
  (exists rows : chunk_1d RA, has_coefficients rows (ax_size A1) /\
     (forall i, 0 <= i < ax_size A1 -> exists l, line2 RA c i = Ok l /\ eval_no_bc RA s2 m2 o2 y l = Ok (coefficient rows i : num RA)) /\ eval_no_bc RA s1 m1 o1 x rows = Ok v) /\
  (exists columns : chunk_1d RA, has_coefficients columns (ax_size A2) /\
     (forall j, 0 <= j < ax_size A2 -> exists l, line1 RA c j = Ok l /\ eval_no_bc RA s1 m1 o1 x l = Ok (coefficient columns j : num RA)) /\ eval_no_bc RA s2 m2 o2 y columns = Ok v).
Proof.
  intros Hc Hx Hy H1 H2. destruct (eval_no_bc_2d_ok m1 m2 o1 o2 x y c Hc Hx Hy H1 H2) as (v1 & j1 & g1 & v2 & j2 & g2 & W1 & W2 & E1 & E2 & E).
  exists (weighted_2d (a_at v1) j1 (a_at v2) j2 (coefficient_2d c)). split; [exact E|]. split.
  - exists (mk_chunk_1d RA 0 (mk_arr (ax_size A1) (fun i => weighted A2 (a_at v2) j2 (coefficient_2d c i)))). split; [split; reflexivity|]. split.
    + intros i Hi. destruct (row_line c i Hc Hi) as (l & El & Hl & Cl). exists l. split; [exact El|]. rewrite eval_no_bc_values, E2. cbn [rbind].
      etransitivity; [exact (sum_weighted A2 s2 Sp2 _ _ _ _ _ l W2 Hl)|]. rewrite Cl. reflexivity.
    + rewrite eval_no_bc_values, E1. cbn [rbind]. etransitivity; [apply (sum_weighted A1 s1 Sp1 _ _ _ _ _ _ W1); split; reflexivity|]. f_equal. symmetry. apply weighted_2d_rows.
  - exists (mk_chunk_1d RA 0 (mk_arr (ax_size A2) (fun j => weighted A1 (a_at v1) j1 (fun i => coefficient_2d c i j)))). split; [split; reflexivity|]. split.
    + intros j Hj. destruct (column_line c j Hc Hj) as (l & El & Hl & Cl). exists l. split; [exact El|]. rewrite eval_no_bc_values, E1. cbn [rbind].
      etransitivity; [exact (sum_weighted A1 s1 Sp1 _ _ _ _ _ l W1 Hl)|]. rewrite Cl. reflexivity.
    + rewrite eval_no_bc_values, E2. cbn [rbind]. etransitivity; [apply (sum_weighted A2 s2 Sp2 _ _ _ _ _ _ W2); split; reflexivity|]. f_equal. symmetry. apply weighted_2d_columns.
Qed.
Lemma no_bc_value m1 m2 x y (c : chunk_2d RA) : has_coefficients_2d c (ax_size A1) (ax_size A2) -> (ax_min A1 <= x <= ax_max A1)%R -> (ax_min A2 <= y <= ax_max A2)%R ->
  eval_no_bc_2d RA s1 s2 m1 m2 None None x y c = Ok (spline_2d A1 A2 (coefficient_2d c) x y : num RA).
Proof.
  intros Hc Hx Hy. destruct (eval_no_bc_2d_ok m1 m2 None None x y c Hc Hx Hy I I) as (v1 & j1 & g1 & v2 & j2 & g2 & W1 & W2 & _ & _ & ->). f_equal.
  rewrite weighted_2d_rows, spline_2d_rows. rewrite (weighted_spline A1 s1 Sp1 _ _ _ _ _ W1). apply spline_1d_ext. intros i _. apply (weighted_spline A2 s2 Sp2 _ _ _ _ _ W2).
Qed.
Theorem derivative_2d m1 m2 o1 o2 x y (c : chunk_2d RA) : has_coefficients_2d c (ax_size A1) (ax_size A2) ->
  (ax_min A1 <= x <= ax_max A1)%R -> (ax_min A2 <= y <= ax_max A2)%R -> order_valid A1 o1 -> order_valid A2 o2 ->
  exists k1 k2 (v : R), d1 <= k1 < d1 + ax_cells A1 /\ d2 <= k2 < d2 + ax_cells A2 /\
    (ax_knots A1 k1 <= x <= ax_knots A1 (k1 + 1)%Z)%R /\ (ax_knots A2 k2 <= y <= ax_knots A2 (k2 + 1)%Z)%R /\
    (forall x' y', (ax_knots A1 k1 <= x' <= ax_knots A1 (k1 + 1)%Z)%R -> (ax_knots A2 k2 <= y' <= ax_knots A2 (k2 + 1)%Z)%R ->
       spline_2d A1 A2 (coefficient_2d c) x' y' = piece_2d A1 A2 k1 k2 (coefficient_2d c) x' y') /\
    eval_no_bc_2d RA s1 s2 m1 m2 o1 o2 x y c = Ok v /\
    mixed_derivative (Z.to_nat (order_of o1)) (Z.to_nat (order_of o2)) (piece_2d A1 A2 k1 k2 (coefficient_2d c)) x y v.
Proof.
  intros Hc Hx Hy H1 H2. destruct (eval_no_bc_2d_ok m1 m2 o1 o2 x y c Hc Hx Hy H1 H2) as (v1 & j1 & g1 & v2 & j2 & g2 & W1 & W2 & _ & _ & E).
  exists (j1 + d1), (j2 + d2), (weighted_2d (a_at v1) j1 (a_at v2) j2 (coefficient_2d c)).
  pose proof (weights_range _ _ _ _ _ _ W1). pose proof (weights_range _ _ _ _ _ _ W2).
  assert (K1 : d1 <= j1 + d1 < d1 + ax_cells A1) by lia. assert (K2 : d2 <= j2 + d2 < d2 + ax_cells A2) by lia.
  split; [exact K1|]. split; [exact K2|]. split; [exact (cell_closed _ _ _ _ _ _ _ F1 _ _ (w_cell _ _ _ _ _ _ W1))|]. split; [exact (cell_closed _ _ _ _ _ _ _ F2 _ _ (w_cell _ _ _ _ _ _ W2))|].
  split; [|split; [exact E|]].
  - intros x' y' Hx' Hy'. rewrite spline_2d_rows, piece_2d_rows.
    transitivity (piece_1d A1 (j1 + d1) (fun i => spline_1d A2 (coefficient_2d c i) y') x'); [exact (piece_closed _ _ _ _ _ _ _ F1 _ _ _ K1 Hx')|].
    apply piece_1d_ext. intros i _. exact (piece_closed _ _ _ _ _ _ _ F2 _ _ _ K2 Hy').
  - exists (fun x' y' => piece_1d A1 (j1 + d1) (fun i => weighted A2 (fun r => g2 r y') j2 (coefficient_2d c i)) x'),
      (fun x' => weighted A1 (fun r => g1 r x') j1 (fun i => weighted A2 (fun r => g2 r y) j2 (coefficient_2d c i))).
    split; [|split].
    + intros x'. eapply nth_derivative_ext; [| |apply (nd_zsum (Z.to_nat (order_of o2)) (ax_size A1) (fun i y' => basis_piece A1 (j1 + d1) i x' * piece_1d A2 (j2 + d2) (coefficient_2d c i) y')%R
        (fun i y' => basis_piece A1 (j1 + d1) i x' * weighted A2 (fun r => g2 r y') j2 (coefficient_2d c i))%R)].
      * intros y'. cbn beta. rewrite piece_2d_rows, piece_1d_sum, sum_first_zsum. apply zsum_ext. intros i _. ring.
      * intros y'. cbn beta. rewrite piece_1d_sum, sum_first_zsum. apply zsum_ext. intros i _. ring.
      * intros i _. apply nd_scal. exact (weighted_nd A2 s2 Sp2 _ _ _ _ _ _ W2).
    + exact (weighted_nd A1 s1 Sp1 _ _ _ _ _ _ W1).
    + rewrite weighted_2d_rows. rewrite (weighted_val A1 _ _ _ _ _ _ W1). apply zsum_ext. intros r _. f_equal. symmetry. apply (weighted_val A2 _ _ _ _ _ _ W2).
Qed.
End Two.
