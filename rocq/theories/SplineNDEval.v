(** The evaluator in any number of dimensions. *)
From Coq Require Import Bool ZArith Lia Reals Lra ZifyBool List.
From Verif Require Import SplineNDSpec LoopProofs SamplingProofs BSplineDeriv BSplineMath IntegralMath IntegralMath2 IntegralProofs EvaluatorSpace EvaluatorProofs EvaluatorProofs2 Spline2DProofs Spline2DMath Spline2DEval Spline2DEval2 SplineNDProofs.
Import ListNotations.
Local Open Scope bool_scope. Local Open Scope Z_scope.

(** *** the coefficients *)
Lemma offsets_zero : forall ns is, Forall (fun n => n < 2 ^ 63) ns -> in_sizes ns is -> offsets (map (fun _ => 0) ns) ns is = Ok is.
Proof.
  induction ns as [|n ns IH]; intros is Hn Hi; inversion Hi as [|? i ? is' H1 H2]; subst; [reflexivity|]. inversion Hn. subst. cbn [map offsets]. cbv zeta.
  replace (elem_minus i 0) with i by (unfold elem_minus, u64_sub; rewrite u64_small, i64_small; lia). replace ((0 <=? i) && (i <? n)) with true by lia. cbn [assert_]. now rewrite IH.
Qed.
Lemma spaces_sizes dims As : spaces_of dims As -> Forall (fun A => 1 <= ax_cells A /\ 1 <= ax_degree A /\ ax_size A < 2 ^ 31) As.
Proof. induction 1 as [|[s m] A dims As HA _ IH]; constructor; [exact (one_sizes A s HA) | exact IH]. Qed.
Lemma sizes_small As : Forall (fun A => 1 <= ax_cells A /\ 1 <= ax_degree A /\ ax_size A < 2 ^ 31) As -> Forall (fun n => n < 2 ^ 63) (map ax_size As).
Proof. induction 1 as [|A As H _ IH]; constructor; [lia | exact IH]. Qed.
Lemma cn_get_ok dims As (c : chunk_nd RA) is : spaces_of dims As -> has_coefficients_nd c (map ax_size As) -> in_sizes (map ax_size As) is -> cn_get RA c is = Ok (coefficient_nd c is : num RA).
Proof. intros Sp [H1 H2] Hi. unfold cn_get. rewrite H1, H2, offsets_zero; [reflexivity | apply sizes_small; eapply spaces_sizes; exact Sp | exact Hi]. Qed.
Lemma spaces_length dims As : spaces_of dims As -> length dims = length As.
Proof. induction 1; cbn; congruence. Qed.

(** *** the values of the basis *)
Fixpoint weights_nd (As : list axis) (os : list Z) (xs : list R) (bs : list (arr R * Z)) (gs : list (Z -> R -> R)) : Prop :=
  match As, os, xs, bs, gs with
  | [], [], [], [], [] => True
  | A :: As, o :: os, x :: xs, (v, j) :: bs, g :: gs => weights A o x v j g /\ weights_nd As os xs bs gs
  | _, _, _, _, _ => False
  end.
Lemma bases_ok : forall dims As, spaces_of dims As -> forall orders xs, Forall2 inside As xs -> Forall2 order_valid As orders ->
  exists bs gs, bases RA dims orders xs = Ok bs /\ weights_nd As (map order_of orders) xs bs gs.
Proof.
  induction 1 as [|[s m] A dims As HA _ IH]; intros orders xs Hx Ho; inversion Hx as [|? x ? xs' X1 X2]; inversion Ho as [|? o ? os' O1 O2]; subst.
  - exists [], []. split; [reflexivity | exact I].
  - destruct (basis_values_ok A s HA m o x X1 O1) as (v & j & g & E & W). destruct (IH os' xs' X2 O2) as (bs & gs & E' & W').
    exists ((v, j) :: bs), (g :: gs). cbn [bases]. rewrite E. cbn [rbind]. split; [exact (f_equal (fun r => rbind r (fun bs => Ok ((v, j) :: bs))) E') | split; assumption].
Qed.
(** The sum of the coefficients times the values. *)
Fixpoint weighted_all (As : list axis) (bs : list ((Z -> R) * Z)) (c : list Z -> R) : R :=
  match As, bs with
  | A :: As, (v, j) :: bs => weighted A v j (fun i => weighted_all As bs (fun is => c (i :: is)))
  | _, _ => c []
  end.
Definition vals_of (bs : list (arr R * Z)) : list ((Z -> R) * Z) := map (fun '(v, j) => (a_at v, j)) bs.
Lemma weighted_all_ext : forall As os xs bs gs c c', weights_nd As os xs bs gs -> (forall is, in_sizes (map ax_size As) is -> c is = c' is) -> weighted_all As (vals_of bs) c = weighted_all As (vals_of bs) c'.
Proof.
  induction As as [|A As IH]; intros [|o os] [|x xs] [|[v j] bs] [|g gs] c c' W E; try contradiction; cbn [vals_of map weighted_all]; [apply E; constructor|].
  destruct W as [W W']. pose proof (weights_range _ _ _ _ _ _ W). pose proof (w_cell _ _ _ _ _ _ W) as [Hc _]. apply zsum_ext. intros r Hr. f_equal. apply (IH os xs bs gs); [exact W'|].
  intros is Hi. apply E. constructor; [|exact Hi]. unfold ax_size. lia.
Qed.
Lemma weighted_all_spline : forall dims As, spaces_of dims As -> forall os xs bs gs, weights_nd As os xs bs gs -> Forall (fun o => o = 0) os -> forall c, weighted_all As (vals_of bs) c = spline_nd As c xs.
Proof.
  induction 1 as [|[s m] A dims As HA _ IH]; intros [|o os] [|x xs] [|[v j] bs] [|g gs] W Ho c; try contradiction; [reflexivity|].
  destruct W as [W W']. inversion Ho. subst. cbn [vals_of map weighted_all]. rewrite spline_nd_cons, (weighted_spline A s HA x v j g _ W). apply spline_1d_ext. intros i _. now apply (IH os xs bs gs).
Qed.
Lemma weighted_all_derivative : forall dims As, spaces_of dims As -> forall os xs bs gs, weights_nd As os xs bs gs -> forall c,
  mixed_derivative_nd (map Z.to_nat os) (piece_nd As (map (fun '(A, (_, j)) => j + ax_degree A) (combine As bs)) c) xs (weighted_all As (vals_of bs) c).
Proof.
  induction 1 as [|[s m] A dims As HA HAs IH]; intros [|o os] [|x xs] [|[v j] bs] [|g gs] W c; try contradiction; [reflexivity|].
  destruct W as [W W']. cbn [map vals_of weighted_all combine mixed_derivative_nd]. set (ks := map (fun '(A, (_, j)) => j + ax_degree A) (combine As bs)). fold (vals_of bs).
  exists (piece_1d A (j + ax_degree A) (fun i => weighted_all As (vals_of bs) (fun is => c (i :: is)))), (fun x' => weighted A (fun r => g r x') j (fun i => weighted_all As (vals_of bs) (fun is => c (i :: is)))).
  split; [|split].
  - intros x'. rewrite piece_1d_sum, sum_first_zsum. pose proof (one_sizes A s HA). assert (Hl : length xs = length (map Z.to_nat os)).
    { rewrite map_length. clear -W'. revert os xs bs gs W'. induction As as [|A As IH]; intros [|o os] [|x xs] [|[v j] bs] [|g gs] W'; try contradiction; [reflexivity|]. cbn. f_equal. apply (IH os xs bs gs), W'. }
    eapply md_ext; [|apply (md_zsum (map Z.to_nat os) (ax_size A) (fun i ys => piece_nd As ks (fun is => c (i :: is)) ys) (fun i => basis_piece A (j + ax_degree A) i x')); [exact Hl | unfold ax_size; lia | intros i _; now apply (IH os xs bs gs)]].
    intros ys _. cbn beta. rewrite piece_nd_cons, piece_1d_sum, sum_first_zsum. reflexivity.
  - exact (weighted_nd A s HA o x v j g _ W).
  - symmetry. exact (weighted_val A o x v j g _ W).
Qed.
Lemma at_index_ok : forall As os xs bs gs idx, weights_nd As os xs bs gs -> in_sizes (map (fun A => ax_degree A + 1) As) idx ->
  at_index RA bs idx = Ok (map (fun '((v, _), i) => a_at v i) (combine bs idx) : list (num RA)).
Proof.
  induction As as [|A As IH]; intros [|o os] [|x xs] [|[v j] bs] [|g gs] idx W Hi; try contradiction; inversion Hi as [|? i ? idx' H1 H2]; subst; [reflexivity|]. destruct W as [W W'].
  cbn [at_index combine map]. change (num RA) with R in *. rewrite aget_ok by (rewrite (w_len _ _ _ _ _ _ W); lia). cbn [rbind]. exact (f_equal (fun r => rbind r (fun xs => Ok (a_at v i :: xs))) (IH os xs bs gs idx' W' H2)).
Qed.
Lemma product_cons (x : R) l : product RA (x :: l) = (x * product RA l)%R.
Proof. destruct l; [cbn [product]; cbn [RA nofz]; change (num RA) with R; ring | reflexivity]. Qed.
Lemma plus_ok : forall dims As, spaces_of dims As -> forall os xs bs gs idx, weights_nd As os xs bs gs -> in_sizes (map (fun A => ax_degree A + 1) As) idx ->
  plus_nd (map snd bs) idx = map (fun '((_, j), i) => j + i) (combine bs idx) /\ in_sizes (map ax_size As) (map (fun '((_, j), i) => j + i) (combine bs idx)).
Proof.
  induction 1 as [|[s m] A dims As HA _ IH]; intros [|o os] [|x xs] [|[v j] bs] [|g gs] idx W Hi; try contradiction; inversion Hi as [|? i ? idx' H1 H2]; subst; [split; [reflexivity | constructor]|].
  destruct W as [W W']. destruct (IH os xs bs gs idx' W' H2) as [K1 K2]. cbn [map plus_nd combine snd]. pose proof (one_sizes A s HA) as S. unfold ax_size in S. pose proof (weights_range _ _ _ _ _ _ W).
  pose proof (w_cell _ _ _ _ _ _ W) as [Hc _]. split.
  - rewrite K1. f_equal. unfold u64_add. rewrite u64_small; lia.
  - constructor; [unfold ax_size; lia | exact K2].
Qed.
Lemma nsum_weighted : forall As os xs bs gs, weights_nd As os xs bs gs -> forall c,
  nsum (map (fun A => ax_degree A + 1) As) (fun idx => c (map (fun '((_, j), i) => j + i)%Z (combine bs idx)) * product RA (map (fun '((v, _), i) => a_at v i : R) (combine bs idx)))%R = weighted_all As (vals_of bs) c.
Proof.
  induction As as [|A As IH]; intros [|o os] [|x xs] [|[v j] bs] [|g gs] W c; try contradiction; [cbn; ring|]. destruct W as [W W'].
  cbn [map nsum vals_of weighted_all]. fold (vals_of bs). unfold weighted. apply zsum_ext. intros r Hr. rewrite <- (IH os xs bs gs W' (fun is => c (j + r :: is))), Rmult_comm, <- nsum_scal.
  apply nsum_ext. intros idx _. cbn [combine map]. rewrite product_cons. ring.
Qed.
Theorem no_bc_weighted dims As orders xs (c : chunk_nd RA) : spaces_of dims As -> has_coefficients_nd c (map ax_size As) -> Forall2 inside As xs -> Forall2 order_valid As orders ->
  exists bs gs, weights_nd As (map order_of orders) xs bs gs /\ bases RA dims orders xs = Ok bs /\ eval_no_bc_nd RA dims orders xs c = Ok (weighted_all As (vals_of bs) (coefficient_nd c) : num RA).
Proof.
  intros Sp Hc Hx Ho. destruct (bases_ok dims As Sp orders xs Hx Ho) as (bs & gs & E & W). exists bs, gs. split; [exact W|]. split; [exact E|]. unfold eval_no_bc_nd. rewrite E. cbn [rbind].
  assert (Hb : map (fun d : dim RA => bs_degree RA (fst d) + 1) dims = map (fun A => ax_degree A + 1) As).
  { clear -Sp. induction Sp as [|[s m] A dims As HA _ IH]; [reflexivity|]. cbn [map fst]. rewrite IH. f_equal. exact (f_equal (fun z => z + 1) (f_deg _ _ _ _ _ _ _ (space_facts _ _ _ _ _ _ _ HA))). }
  rewrite Hb. change (num RA) with R in *.
  destruct (for_each_sum (fun _ : R => True) (fun y => y) (fun idx => coefficient_nd c (map (fun '((_, j), i) => j + i)%Z (combine bs idx)) * product RA (map (fun '((v, _), i) => a_at v i : R) (combine bs idx)))%R
    (fun idx y => c0 <- cn_get RA c (plus_nd (map snd bs) idx) ;; vs <- at_index RA bs idx ;; Ok (nadd RA y (nmul RA c0 (product RA vs)))) (map (fun A => ax_degree A + 1) As) [] 0%R) as (y & Ey & _ & Hy).
  - apply Forall_map. eapply Forall_impl; [|exact (spaces_sizes dims As Sp)]. cbn beta. intros a H. lia.
  - intros idx y Hi _. cbn [app]. destruct (plus_ok dims As Sp _ _ _ _ idx W Hi) as [P1 P2]. rewrite P1. rewrite (cn_get_ok dims As c _ Sp Hc P2). cbn [rbind].
    rewrite (at_index_ok As _ _ _ _ idx W Hi). cbn [rbind]. eexists. split; [reflexivity|]. split; [exact I | reflexivity].
  - exact I.
  - etransitivity; [exact Ey|]. f_equal. rewrite Hy. cbn [app]. rewrite (nsum_weighted As _ _ _ _ W). change (num RA) with R. ring.
Qed.
Lemma orders_none As : map order_of (map (fun _ : axis => None) As) = map (fun _ => 0) As.
Proof. now rewrite map_map. Qed.
Lemma no_bc_nd_value dims As xs (c : chunk_nd RA) : spaces_of dims As -> has_coefficients_nd c (map ax_size As) -> Forall2 inside As xs ->
  eval_no_bc_nd RA dims (map (fun _ => None) dims) xs c = Ok (spline_nd As (coefficient_nd c) xs : num RA).
Proof.
  intros Sp Hc Hx. assert (Hn : map (fun _ : dim RA => @None Z) dims = map (fun _ : axis => None) As) by (clear -Sp; induction Sp; cbn; congruence).
  destruct (no_bc_weighted dims As (map (fun _ => None) dims) xs c Sp Hc Hx) as (bs & gs & W & _ & ->).
  { rewrite Hn. clear. induction As; constructor; [exact I | assumption]. }
  f_equal. rewrite Hn, orders_none in W. apply (weighted_all_spline dims As Sp _ _ _ _ W). clear. induction As; constructor; auto.
Qed.
Theorem derivative_nd dims As : spaces_of dims As -> forall orders xs (c : chunk_nd RA), has_coefficients_nd c (map ax_size As) -> Forall2 inside As xs -> Forall2 order_valid As orders ->
  exists ks (v : R), all3 (fun A k x => ax_degree A <= k < ax_degree A + ax_cells A /\ (ax_knots A k <= x <= ax_knots A (k + 1)%Z)%R) As ks xs /\
    (forall ys, all3 (fun A k y => (ax_knots A k <= y <= ax_knots A (k + 1)%Z)%R) As ks ys -> spline_nd As (coefficient_nd c) ys = piece_nd As ks (coefficient_nd c) ys) /\
    eval_no_bc_nd RA dims orders xs c = Ok v /\ mixed_derivative_nd (map (fun o => Z.to_nat (order_of o)) orders) (piece_nd As ks (coefficient_nd c)) xs v.
Proof.
  intros Sp orders xs c Hc Hx Ho. destruct (no_bc_weighted dims As orders xs c Sp Hc Hx Ho) as (bs & gs & W & _ & E).
  exists (map (fun '(A, (_, j)) => j + ax_degree A) (combine As bs)), (weighted_all As (vals_of bs) (coefficient_nd c)).
  split; [|split; [|split]].
  - clear -Sp W. revert dims Sp xs bs gs W. generalize (map order_of orders) as os. induction As as [|A As IH]; intros [|o os] dims Sp [|x xs] [|[v j] bs] [|g gs] W; try contradiction; [exact I|].
    destruct W as [W W']. inversion Sp as [|d ? dims' ? HA HAs]; subst. cbn [combine map all3]. split; [|exact (IH os dims' HAs xs bs gs W')].
    pose proof (w_cell _ _ _ _ _ _ W) as Hcell. split; [destruct Hcell as [Hcell _]; lia|]. exact (cell_closed _ _ _ _ _ _ _ (space_facts _ _ _ _ _ _ _ HA) _ _ Hcell).
  - clear -Sp W. revert dims Sp xs bs gs W. generalize (map order_of orders) as os. generalize (coefficient_nd c) as c'. clear c. induction As as [|A As IH]; intros c [|o os] dims Sp [|x xs] [|[v j] bs] [|g gs] W; try contradiction; intros [|y ys]; cbn [combine map all3]; try tauto.
    intros [Hy Hys]. destruct W as [W W']. inversion Sp as [|d ? dims' ? HA HAs]; subst. rewrite spline_nd_cons, piece_nd_cons.
    pose proof (w_cell _ _ _ _ _ _ W) as [Hcell _].
    transitivity (spline_1d A (fun i => piece_nd As (map (fun '(A, (_, j)) => j + ax_degree A) (combine As bs)) (fun is => c (i :: is)) ys) y).
    + apply spline_1d_ext. intros i _. exact (IH (fun is => c (i :: is)) os dims' HAs xs bs gs W' ys Hys).
    + exact (piece_closed _ _ _ _ _ _ _ (space_facts _ _ _ _ _ _ _ HA) _ _ _ Hcell Hy).
  - exact E.
  - pose proof (weighted_all_derivative dims As Sp _ _ _ _ W (coefficient_nd c)) as K. rewrite map_map in K. exact K.
Qed.
