(** Cases that meet the hypotheses: the cubics x^3 and max(x - 2, 0)^3 on [0, 4], and x^3 y. *)
From Coq Require Import Bool Reals ZArith Lia Lra ZifyBool.
From Verif Require Import BSplineSpec BSplineMath BSplineDeriv EvaluatorSpec EvaluatorSpace EvaluatorProofs EvaluatorLemmas BuilderSpec BuilderTheorems Spline2DSpec Spline2DTheorems WellPosedSpec WellPosedBuild WellPosedTheorems
  WellPosedExamples LinearGauss ReproduceSpec ReproduceProofs ReproduceTheorems Reproduce2D.
Local Open Scope Z_scope.

(** Degree 3, four cells of length 1, derivatives given at both ends, the points 0, 1, ..., 4. *)
Definition cubic_axis : axis := mk_axis 3 false 4 (uniform_knots 3 0 4 4) 0 4 HERMITE HERMITE 5 line_point.
Lemma cubic_knot k : uniform_knots 3 0 4 4 k = IZR (k - 3). Proof. unfold uniform_knots. field. Qed.
Lemma cubic_space : exists s, space_of s cubic_axis.
Proof. destruct (proj1 spaces_exist 0%nat 3 false 0%R 4%R 4 ltac:(lia) ltac:(lia) ltac:(lra) ltac:(lia)) as (s & Hs & _). exists (Uniform s). exact Hs. Qed.
Lemma cubic_posed : posed cubic_axis.
Proof.
  destruct cubic_space as (s & Hs). refine (proj2 (breaks_posed s 3 4 _ 0%R 4%R HERMITE HERMITE line_point Hs eq_refl eq_refl eq_refl _)).
  intros i Hi. change (line_point i = uniform_knots 3 0 4 4 (3 + i)). rewrite cubic_knot. unfold line_point. f_equal. lia.
Qed.
Lemma cubic_built : exists s bd, builder_for GINKGO s cubic_axis bd.
Proof.
  destruct cubic_space as (s & Hs).
  assert (IP : interpolation GINKGO s 3 false 4 (uniform_knots 3 0 4 4) 0 4 HERMITE HERMITE 0 5 line_coord line_point).
  { constructor; try discriminate; try lia.
    - exact Hs.
    - split; discriminate.
    - intros i Hi. split; [reflexivity|]. unfold line_point. split; apply IZR_le; lia.
    - intros _. reflexivity.
    - cbn -[Z.pow]. lia. }
  pose (m := mk_scratch (A := RA) (fun _ => 0%R) (fun _ => 0%R) (fun _ => 0%R) (fun _ _ => 0%R) (fun _ _ => 0%R) (fun _ _ => 0%R)).
  assert (Hinc : increasing_points 5 line_point) by (intros i j Hi Hij Hj; apply IZR_lt; lia).
  destruct (accepts _ _ _ _ _ _ _ _ _ _ _ _ _ IP Hinc eq_refl cubic_posed m) as (bd & E). exists s, bd, 0, line_coord, m. split; [exact IP|]. split; [exact E|]. split; [exact I | discriminate].
Qed.

Definition cube (j : Z) : R := if j =? 3 then 1%R else 0%R.
Definition shifted_cube (j : Z) : R := if j =? 0 then (-8)%R else if j =? 1 then 12%R else if j =? 2 then (-6)%R else 1%R.
Definition truncated (k : Z) : Z -> R := if k <? 5 then fun _ => 0%R else shifted_cube.
Lemma poly1 q x : polynomial q 1 x = (q 0%Z + q 1%Z * x)%R.
Proof. change 1 with (0 + 1) at 1. rewrite polynomial_S, polynomial_0 by lia. change (Z.to_nat (0 + 1)) with 1%nat. change (0 + 1) with 1. ring. Qed.
Lemma poly2 q x : polynomial q 2 x = (q 0%Z + q 1%Z * x + q 2%Z * x * x)%R.
Proof. change 2 with (1 + 1) at 1. rewrite polynomial_S, poly1 by lia. change (Z.to_nat (1 + 1)) with 2%nat. change (1 + 1) with 2. ring. Qed.
Lemma poly3 q x : polynomial q 3 x = (q 0%Z + q 1%Z * x + q 2%Z * x * x + q 3%Z * x * x * x)%R.
Proof. change 3 with (2 + 1) at 1. rewrite polynomial_S, poly2 by lia. change (Z.to_nat (2 + 1)) with 3%nat. change (2 + 1) with 3. ring. Qed.
Lemma cube_value x : polynomial cube 3 x = (x * x * x)%R. Proof. rewrite poly3. unfold cube. cbn [Z.eqb Pos.eqb]. ring. Qed.
Lemma shifted_value x : polynomial shifted_cube 3 x = ((x - 2) * (x - 2) * (x - 2))%R. Proof. rewrite poly3. unfold shifted_cube. cbn [Z.eqb Pos.eqb]. ring. Qed.
Lemma truncated_value k x : polynomial (truncated k) 3 x = if k <? 5 then 0%R else ((x - 2) * (x - 2) * (x - 2))%R.
Proof. unfold truncated. destruct (k <? 5); [rewrite poly3; ring | apply shifted_value]. Qed.
Lemma nd1 q g x : nth_derivative 1 (polynomial q 3) g -> g x = (q 1%Z + 2 * q 2%Z * x + 3 * q 3%Z * x * x)%R.
Proof. intros H. rewrite (nd_unique _ _ _ _ _ (fun y => eq_refl) H (polynomial_nd q 3 1 ltac:(lia))). change (3 - Z.of_nat 1) with 2. rewrite poly2. cbn [dqs]. unfold dq. cbn [Z.add Pos.add Pos.succ]. ring. Qed.
Lemma nd2 q g x : nth_derivative 2 (polynomial q 3) g -> g x = (2 * q 2%Z + 6 * q 3%Z * x)%R.
Proof. intros H. rewrite (nd_unique _ _ _ _ _ (fun y => eq_refl) H (polynomial_nd q 3 2 ltac:(lia))). change (3 - Z.of_nat 2) with 1. rewrite poly1. cbn [dqs]. unfold dq. cbn [Z.add Pos.add Pos.succ]. ring. Qed.
Lemma truncated_smooth : smooth false (uniform_knots 3 0 4 4) 0 4 3 4 truncated.
Proof.
  split; [|discriminate]. intros k H1 H2 l g g' Hl G G'. rewrite cubic_knot. unfold truncated in *.
  destruct (Z.ltb_spec (k + 1) 5) as [K1|K1], (Z.ltb_spec k 5) as [K2|K2]; try lia.
  - exact (nd_unique _ _ _ _ _ (fun y => eq_refl) G G' _).
  - assert (k = 4) as -> by lia. change (4 + 1 - 3) with 2. destruct l as [|[|[|l]]]; try lia.
    + rewrite <- (G 2%R), <- (G' 2%R). rewrite shifted_value, poly3. ring.
    + rewrite (nd1 _ _ _ G), (nd1 _ _ _ G'). unfold shifted_cube. cbn [Z.eqb Pos.eqb]. ring.
    + rewrite (nd2 _ _ _ G), (nd2 _ _ _ G'). unfold shifted_cube. cbn [Z.eqb Pos.eqb]. ring.
  - exact (nd_unique _ _ _ _ _ (fun y => eq_refl) G G' _).
Qed.
(** The derivatives 0 at 0 and z at 4. *)
Definition given (z : R) : option (chunk_1d RA) := Some (mk_chunk_1d RA 1 (mk_arr 1 (fun _ => z : num RA))).
Lemma cube_sampled : sampled_polynomial cubic_axis cube (fun i => IZR (i * i * i)) (asked_1d cubic_axis (given 0) (given 48)).
Proof.
  split.
  - intros i Hi. cbn [cubic_axis ax_degree ax_point]. rewrite cube_value. unfold line_point. rewrite !mult_IZR. reflexivity.
  - intros e i g Hi G. assert (i = 0) as -> by (destruct e; cbn in Hi; lia). apply nd1 with (x := edge_point cubic_axis e) in G. rewrite G. destruct e; cbn; unfold cube; cbn; ring.
Qed.
Lemma truncated_sampled : sampled cubic_axis truncated (fun i => if i =? 3 then 1%R else if i =? 4 then 8%R else 0%R) (asked_1d cubic_axis (given 0) (given 12)).
Proof.
  split.
  - intros i k Hi Hk Hx. cbn [cubic_axis ax_degree ax_point ax_knots ax_cells ax_points] in *. rewrite truncated_value. rewrite !cubic_knot in Hx. unfold line_point in *.
    destruct Hx as [Hx1 Hx2]. apply le_IZR in Hx1, Hx2.
    assert (i = 0 \/ i = 1 \/ i = 2 \/ i = 3 \/ i = 4) as [-> | [-> | [-> | [-> | ->]]]] by lia; destruct (Z.ltb_spec k 5); cbn; try lia; try lra.
  - intros e i g Hi G. assert (i = 0) as -> by (destruct e; cbn in Hi; lia). apply nd1 with (x := edge_point cubic_axis e) in G. rewrite G. destruct e; cbn; unfold shifted_cube; cbn; ring.
Qed.
Lemma cubic_builds s bd : builder_for GINKGO s cubic_axis bd -> forall v z, exists c,
  build RA s HERMITE HERMITE gauss_solvers bd (fun _ => 9%R) (mk_chunk_1d RA 0 (mk_arr 7 (fun _ => 9%R : num RA))) (mk_arr 5 v : arr (num RA)) (given 0) (given z) = Ok c.
Proof.
  intros B v z. apply (posed_never_fails s cubic_axis gauss_solvers bd cubic_posed B ltac:(discriminate) gauss_exact gauss_regular); try (split; reflexivity).
Qed.
Theorem cubic_examples : exists s bd, builder_for GINKGO s cubic_axis bd /\
  (exists c, build RA s HERMITE HERMITE gauss_solvers bd (fun _ => 9%R) (mk_chunk_1d RA 0 (mk_arr 7 (fun _ => 9%R : num RA))) (mk_arr 5 (fun i => IZR (i * i * i)) : arr (num RA)) (given 0) (given 48) = Ok c /\
     forall m lower upper x, (0 <= x <= 4)%R -> eval RA s m lower upper x c = Ok (x * x * x : num RA)%R) /\
  (exists c, build RA s HERMITE HERMITE gauss_solvers bd (fun _ => 9%R) (mk_chunk_1d RA 0 (mk_arr 7 (fun _ => 9%R : num RA)))
       (mk_arr 5 (fun i => if i =? 3 then 1%R else if i =? 4 then 8%R else 0%R) : arr (num RA)) (given 0) (given 12) = Ok c /\
     forall m lower upper x, (0 <= x <= 2)%R -> eval RA s m lower upper x c = Ok (0 : num RA)%R).
Proof.
  destruct cubic_built as (s & bd & B). exists s, bd. split; [exact B|]. split.
  - destruct (cubic_builds s bd B (fun i => IZR (i * i * i)) 48%R) as (c & E). exists c. split; [exact E|]. intros m lower upper x Hx.
    destruct (builder_reproduces_polynomial cubic_axis cubic_posed GINKGO s bd gauss_solvers B gauss_exact cube ltac:(intro; discriminate) (mk_arr 5 (fun i => IZR (i * i * i))) (given 0) (given 48) cube_sampled _ (mk_chunk_1d RA 0 (mk_arr 7 (fun _ => 9%R : num RA))) c ltac:(split; reflexivity) E) as (_ & V & _).
    rewrite <- cube_value. exact (V m lower upper x Hx).
  - destruct (cubic_builds s bd B (fun i => if i =? 3 then 1%R else if i =? 4 then 8%R else 0%R) 12%R) as (c & E). exists c. split; [exact E|]. intros m lower upper x Hx.
    destruct (builder_reproduces cubic_axis cubic_posed GINKGO s bd gauss_solvers B gauss_exact truncated truncated_smooth (mk_arr 5 (fun i => if i =? 3 then 1%R else if i =? 4 then 8%R else 0%R)) (given 0) (given 12) truncated_sampled _ (mk_chunk_1d RA 0 (mk_arr 7 (fun _ => 9%R : num RA))) c ltac:(split; reflexivity) E) as (_ & V & _).
    destruct (Rle_dec x 1) as [L|L].
    + etransitivity; [apply (V m lower upper 3 x); [cbn; lia|]; cbn [cubic_axis ax_knots]; rewrite !cubic_knot; cbn; lra|]. f_equal. exact (truncated_value 3 x).
    + etransitivity; [apply (V m lower upper 4 x); [cbn; lia|]; cbn [cubic_axis ax_knots]; rewrite !cubic_knot; cbn; lra|]. f_equal. exact (truncated_value 4 x).
Qed.

(** x^3 y on [0, 4] x [0, 2]: its values, and its derivatives in x on the edges. *)
Definition cube_y (i j : Z) : R := if (i =? 3) && (j =? 1) then 1%R else 0%R.
Definition product_data : data_2d := mk_data_2d
  (mk_chunk_2d (A := RA) 0 0 (mk_arr2 5 3 (fun i j => IZR (i * i * i * j))))
  (fun e => Some (mk_chunk_2d (A := RA) 1 0 (mk_arr2 1 3 (fun _ j => match e with Lower => 0%R | Upper => IZR (48 * j) end))))
  (fun _ => None) (fun _ _ => None).
Lemma cube_y_value x y : polynomial_2d cube_y 3 1 x y = (x * x * x * y)%R. Proof. unfold polynomial_2d. rewrite poly3, !poly1. unfold cube_y. cbn [Z.eqb Pos.eqb andb]. ring. Qed.
Lemma product_sampled : data_given cubic_axis line product_data /\ sampled_2d cubic_axis line (polynomial_2d cube_y 3 1) product_data.
Proof.
  split.
  - split; [reflexivity|]. split; [reflexivity|]. split; [cbn; lia|]. split; [intros e; destruct e; cbn; lia|]. split; [intros e; destruct e; exact I|]. intros e1 e2. destruct e2; discriminate.
  - split; [|split; [|split]].
    + intros i j Hi Hj. rewrite cube_y_value. cbn. unfold line_point. rewrite !mult_IZR. reflexivity.
    + intros e k j Hk Hj. assert (k = 0) as -> by (destruct e; cbn in Hk; lia).
      exists (polynomial_2d cube_y 3 1), (fun x => 3 * x * x * IZR j)%R. split; [intros x y; reflexivity|]. split.
      * exists (fun x => 3 * x * x * IZR j)%R. split; [|intro; reflexivity]. intro x.
        eapply dpl_ext; [| |exact (polynomial_deriv (fun i => if i =? 3 then IZR j else 0%R) 2 x ltac:(lia))].
        -- intro y. rewrite cube_y_value. change (2 + 1) with 3. rewrite poly3. cbn [Z.eqb Pos.eqb]. cbn [line ax_point]. unfold line_point. ring.
        -- rewrite poly2. unfold dq. cbn [Z.add Pos.add Pos.succ Z.eqb Pos.eqb]. ring.
      * destruct e; [change ((3 * 0 * 0 * IZR j)%R = 0%R); ring|]. change ((3 * 4 * 4 * IZR j)%R = IZR (48 * j)). rewrite mult_IZR. ring.
    + intros e i l Hi Hl. exfalso. destruct e; cbn in Hl; lia.
    + intros e1 e2 k l Hk Hl. exfalso. destruct e2; cbn in Hl; lia.
Qed.
