(** The interpolation points of the library make well posed problems. *)
From Coq Require Import Bool Reals ZArith Lia Lra ZifyBool List.
From Verif Require Import BuilderLemmas BSplineSpec BSplineMath BSplineDeriv KnotProofs EvaluatorSpec EvaluatorSpace EvaluatorProofs BuilderSpec BuilderPoints PointsModel PointsSpec PointsProofs WellPosedSpec WellPosedProofs SplineUnique.
Local Open Scope bool_scope. Local Open Scope Z_scope.

Lemma clamped s d ncells t a b : spline_space s d false ncells t a b -> bs_uniform RA s = false -> (forall k, 0 <= k <= d -> t k = a) /\ (forall k, d + ncells <= k <= ncells + 2 * d -> t k = b).
Proof.
  intros HS Eu. pose proof (f_d _ _ _ _ _ _ _ (space_facts _ _ _ _ _ _ _ HS)). inversion HS; subst; [discriminate|]. split; intros k Hk; [rewrite knots_open_left by lia | rewrite knots_open_right by lia]; reflexivity.
Qed.
Section Open.
Context (s : bspline_space RA) (d ncells : Z) (t : Z -> R) (a b : R).
Hypothesis HS : spline_space s d false ncells t a b.
Let F : facts s d false ncells t a b := space_facts _ _ _ _ _ _ _ HS.
Context (lower upper : closure) (x : Z -> R).
Hypothesis Hclos : closures_for false lower upper.
Let n := points_expected false d ncells lower upper.
Let el := equations lower d.
Let eu := equations upper d.
Lemma open_counts : 1 <= d /\ 1 <= ncells /\ 0 <= el <= d / 2 /\ 0 <= eu <= d / 2 /\ n = ncells + d - el - eu /\ 2 * (d / 2) <= d.
Proof.
  pose proof (f_d _ _ _ _ _ _ _ F). pose proof (f_n _ _ _ _ _ _ _ F). pose proof (eqs_range _ _ _ _ _ _ _ F lower). pose proof (eqs_range _ _ _ _ _ _ _ F upper).
  repeat split; try assumption; try apply H1; try apply H2. apply Z.mul_div_le. lia.
Qed.
Lemma greville_increases i j : 0 <= i < j -> j < ncells + d -> (greville t d i < greville t d j)%R.
Proof.
  destruct open_counts as (Hd & Hn & _). apply (strict_steps (greville t d) (ncells + d)). intros k H1 H2.
  pose proof (greville_step t d k Hd) as E.
  assert (G : (t (k + 1)%Z < t (k + d + 1)%Z)%R).
  { set (c := Z.max d (k + 1)). pose proof (f_cell _ _ _ _ _ _ _ F c ltac:(unfold c; lia)). pose proof (f_mono _ _ _ _ _ _ _ F (k + 1) c ltac:(unfold c; lia)). pose proof (f_mono _ _ _ _ _ _ _ F (c + 1) (k + d + 1) ltac:(unfold c; lia)). lra. }
  assert (0 < (t (k + d + 1)%Z - t (k + 1)%Z) / IZR d)%R; [|lra]. apply Rdiv_lt_0_compat; [lra | apply IZR_lt; lia].
Qed.
Theorem greville_well_posed : (forall i, 0 <= i < n -> x i = greville t d (i + el)) -> (forall i, 0 <= i < n -> (a <= x i <= b)%R) -> well_posed false t a b d ncells lower upper n x.
Proof.
  intros Hx Hin. destruct open_counts as (Hd & Hn & Hel & Heu & En & Hh).
  assert (Hinc : increasing_points n x). { intros i j H1 H2 H3. rewrite !Hx by lia. apply greville_increases; lia. }
  apply (schoenberg_whitney s d ncells t a b F lower upper n x Hclos eq_refl Hin Hinc). split.
  - intros i Hi. rewrite Hx by lia. fold el. pose proof (greville_in t d (i + el) Hd (f_mono _ _ _ _ _ _ _ F)) as G. split; intros K.
    + pose proof (f_cell _ _ _ _ _ _ _ F (i + el) ltac:(lia)). lra.
    + pose proof (f_cell _ _ _ _ _ _ _ F (i + el + d) ltac:(lia)). lra.
  - intros Ho.
    destruct (bs_uniform RA s) eqn:Eu.
    + pose proof (space_uniform _ _ _ _ _ _ _ HS Eu) as Et. apply (f_equal negb) in Ho. rewrite Z.negb_odd in Ho. apply Z.even_spec in Ho. destruct Ho as [q Eq].
      assert (Dq : d / 2 = q) by lia. assert (Ed : (IZR d = 2 * IZR q)%R) by (rewrite Eq, mult_IZR; reflexivity).
      assert (Hhp : (0 < (b - a) / IZR ncells)%R) by (apply Rdiv_lt_0_compat; [pose proof (f_ab _ _ _ _ _ _ _ F); lra | apply IZR_lt; lia]).
      assert (EL : forall c, 0 < equations c d -> equations c d = q) by (intros [ | | | ]; cbn [equations]; lia).
      assert (Hb : (b = a + IZR ncells * ((b - a) / IZR ncells))%R) by (field; apply not_0_IZR; lia).
      split; intros He; rewrite Hx by lia; fold el eu; rewrite Et, greville_uniform by lia; unfold uniform_knots.
      * assert (el = q) as -> by (unfold el; apply EL; exact He). replace (0 + q - d) with (- q) by lia. rewrite opp_IZR, Ed. nra.
      * assert (E2 : eu = q) by (unfold eu; apply EL; exact He). replace (n - 1 + el - d) with (ncells - 1 - q) by lia. rewrite Ed, !minus_IZR. nra.
    + destruct (clamped _ _ _ _ _ _ HS Eu) as [CL CR]. split; intros He; rewrite Hx by lia; fold el eu.
      * assert (E : greville t d 0 = a).
        { apply Rle_antisym; apply (greville_bounds _ d 0 a a Hd); intros k Hk; rewrite CL by lia; lra. }
        rewrite <- E. fold el in He. apply greville_increases; lia.
      * assert (E : greville t d (ncells + d - 1) = b).
        { apply Rle_antisym; apply (greville_bounds _ d _ b b Hd); intros k Hk; rewrite CR by lia; lra. }
        rewrite <- E. fold eu in He. apply greville_increases; lia.
Qed.
(** The break points, derivatives given at both ends, odd degrees. *)
Theorem breaks_well_posed : Z.odd d = true -> is_hermite lower = true -> is_hermite upper = true -> (forall i, 0 <= i < n -> x i = t (d + i)) -> n = ncells + 1 /\ well_posed false t a b d ncells lower upper n x.
Proof.
  intros Ho Hl Hu Hx. destruct open_counts as (Hd & Hn & Hel & Heu & En & Hh).
  assert (E1 : el = d / 2) by (unfold el; destruct lower; try discriminate; reflexivity). assert (E2 : eu = d / 2) by (unfold eu; destruct upper; try discriminate; reflexivity).
  pose proof (Zodd_mod d) as Om. rewrite Ho in Om. symmetry in Om. apply Zeq_bool_eq in Om. pose proof (Z.div_mod d 2 ltac:(lia)) as DM.
  split; [lia|]. assert (En' : n = ncells + 1) by lia.
  assert (Hin : forall i, 0 <= i < n -> (a <= x i <= b)%R). { intros i Hi. rewrite (Hx i Hi), <- (f_first _ _ _ _ _ _ _ F), <- (f_last _ _ _ _ _ _ _ F). split; apply (f_mono _ _ _ _ _ _ _ F); lia. }
  assert (Hinc : increasing_points n x). { intros i j H1 H2 H3. rewrite !Hx by lia. apply (knots_strict s d ncells t a b F lower upper n x Hin); lia. }
  apply (schoenberg_whitney s d ncells t a b F lower upper n x Hclos eq_refl Hin Hinc). split; [|intros C; congruence].
  intros i Hi. rewrite Hx by lia. fold el. split; intros K; apply (knots_strict s d ncells t a b F lower upper n x Hin); lia.
Qed.
End Open.

Section UniformPoints.
Context (s : bspline_space RA) (d ncells : Z) (a b : R).
Let t := uniform_knots d a b ncells.
Hypothesis HS : spline_space s d false ncells t a b.
Let F : facts s d false ncells t a b := space_facts _ _ _ _ _ _ _ HS.
Context (lower upper : closure) (x : Z -> R).
Hypothesis Hclos : closures_for false lower upper.
Let n := points_expected false d ncells lower upper.
Theorem uniform_points_well_posed : 2 <= ncells -> (forall i, 0 <= i < n -> x i = uniform_point (is_greville lower) (is_greville upper) d a b ((b - a) / IZR ncells) n i) ->
  (forall i, 0 <= i < n -> (a <= x i <= b)%R) -> increasing_points n x -> well_posed false t a b d ncells lower upper n x.
Proof.
  intros Hn2 Hx Hin Hinc. pose proof (open_counts s d ncells t a b HS lower upper x) as K0; cbv zeta in K0; destruct K0 as (Hd & Hn & Hel & Heu & En & Hh). change (points_expected false d ncells lower upper) with n in En.
  set (el := equations lower d) in *. set (eu := equations upper d) in *. set (h := ((b - a) / IZR ncells)%R) in *.
  assert (Hhp : (0 < h)%R) by (apply Rdiv_lt_0_compat; [pose proof (f_ab _ _ _ _ _ _ _ F); lra | apply IZR_lt; lia]).
  assert (Hb : (b = a + IZR ncells * h)%R) by (unfold h; field; apply not_0_IZR; lia).
  assert (EL : el = if is_greville lower then 0 else d / 2) by (unfold el; destruct lower; try reflexivity; destruct Hclos as [C _]; congruence).
  assert (EU : eu = if is_greville upper then 0 else d / 2) by (unfold eu; destruct upper; try reflexivity; destruct Hclos as [_ C]; congruence).
  pose proof (Z.div_mod d 2 ltac:(lia)) as DM. pose proof (Z.mod_pos_bound d 2 ltac:(lia)) as MB.
  assert (HF : (half_if_even d = (1 - IZR (d mod 2)) / 2)%R). { unfold half_if_even. rewrite Zeven_mod. destruct (Z.eqb_spec (d mod 2) 0) as [E|E]; [rewrite E; cbn; lra|]. replace (d mod 2) with 1 by lia. cbn. lra. }
  assert (ED : (IZR d = 2 * IZR (d / 2) + IZR (d mod 2))%R) by (rewrite <- (mult_IZR 2), <- (plus_IZR _ (d mod 2)), <- DM; reflexivity).
  assert (Hdp : (1 <= IZR d)%R) by (apply (IZR_le 1); lia).
  assert (EDGE : forall k, 0 <= k <= d / 2 -> (0 <= PointsSpec.edge_point d h k < (IZR k + 1) * h)%R).
  { intros k Hk. unfold PointsSpec.edge_point. assert (K0 : (0 <= IZR k)%R) by (apply (IZR_le 0); lia). assert (K1 : (IZR k <= IZR d)%R) by (apply IZR_le; lia). rewrite mult_IZR, plus_IZR. split.
    - apply Rmult_le_pos; [apply Rmult_le_pos; [lra | nra] | left; apply Rinv_0_lt_compat; lra].
    - apply Rmult_lt_reg_r with (2 * IZR d)%R; [lra|]. unfold Rdiv. rewrite Rmult_assoc, Rinv_l, Rmult_1_r by lra. assert (P : (0 < (IZR k + 1) * h)%R) by nra. assert (IZR k < 2 * IZR d)%R by lra. pose proof (Rmult_lt_compat_l _ _ _ P H). lra. }
  apply (schoenberg_whitney s d ncells t a b F lower upper n x Hclos eq_refl Hin Hinc). split.
  - intros i Hi. fold el. rewrite (Hx i Hi). unfold uniform_point. fold h. unfold t, uniform_knots. fold h.
    destruct (is_greville lower && (i <=? d / 2)) eqn:T1; [|destruct (is_greville upper && (n - 1 - i <=? d / 2)) eqn:T2].
    + assert (is_greville lower = true) as G by (destruct (is_greville lower); [reflexivity | discriminate]). rewrite G in EL. pose proof (EDGE i ltac:(lia)) as E. split; intros K; [lia|]. replace (i + el + d + 1 - d) with (i + 1) by lia. rewrite plus_IZR. lra.
    + assert (is_greville upper = true) as G by (destruct (is_greville upper); [reflexivity | discriminate]). rewrite G in EU. set (k := n - 1 - i) in *. pose proof (EDGE k ltac:(lia)) as E. split; intros K; [|lia].
      replace (i + el - d) with (ncells - (k + 1)) by lia. rewrite minus_IZR, plus_IZR. nra.
    + assert (Ei : i - (if is_greville lower then d / 2 else 0) = i + el - d / 2) by (destruct (is_greville lower); lia). rewrite Ei, HF.
      replace (i + el + d + 1 - d) with (i + el + 1) by lia. rewrite !minus_IZR, !plus_IZR, ED. assert (0 <= IZR (d / 2))%R by (apply (IZR_le 0); lia). assert (0 <= IZR (d mod 2) <= 1)%R by (split; [apply (IZR_le 0) | apply (IZR_le _ 1)]; lia). split; intros _; nra.
  - intros Ho. assert (M0 : d mod 2 = 0) by (rewrite Zmod_odd, Ho; reflexivity). rewrite M0 in HF. cbn in HF.
    split; intros He.
    + fold el in He. rewrite (Hx 0) by lia. unfold uniform_point. fold h. assert (G : is_greville lower = false) by (destruct (is_greville lower); [lia | reflexivity]). rewrite G in *. cbn [andb].
      replace (is_greville upper && (n - 1 - 0 <=? d / 2)) with false by (destruct (is_greville upper); cbn [andb]; [symmetry; apply Z.leb_gt; lia | reflexivity]). change (IZR (0 - 0)) with 0%R. rewrite HF. lra.
    + fold eu in He. rewrite (Hx (n - 1)) by lia. unfold uniform_point. fold h. assert (G : is_greville upper = false) by (destruct (is_greville upper); [lia | reflexivity]). rewrite G in *. cbn [andb].
      replace (is_greville lower && (n - 1 <=? d / 2)) with false by (destruct (is_greville lower); cbn [andb]; [symmetry; apply Z.leb_gt; lia | reflexivity]).
      assert (E : n - 1 - (if is_greville lower then d / 2 else 0) = ncells - 1) by (destruct (is_greville lower); lia). rewrite E, HF, minus_IZR. lra.
Qed.
End UniformPoints.

Section Periodic.
Context (s : bspline_space RA) (d ncells : Z) (t : Z -> R) (a b : R).
Hypothesis HS : spline_space s d true ncells t a b.
Let F : facts s d true ncells t a b := space_facts _ _ _ _ _ _ _ HS.
Context (x : Z -> R).
Let Hclos : closures_for true PERIODIC PERIODIC := conj eq_refl eq_refl.
Lemma periodic_count : ncells = points_expected true d ncells PERIODIC PERIODIC.
Proof. unfold points_expected, unknowns. cbn [equations]. lia. Qed.
Theorem odd_well_posed shift : (forall i, 0 <= i < ncells -> (a <= x i <= b)%R) -> increasing_points ncells x -> Z.odd ncells = true -> nested_periodic t a b d shift ncells x ->
  well_posed true t a b d ncells PERIODIC PERIODIC ncells x.
Proof. intros H1 H2 H3 H4. apply (unique_well_posed s d true ncells t a b F PERIODIC PERIODIC ncells x Hclos periodic_count). exact (unique_odd s d ncells t a b F x shift H1 H2 H3 H4). Qed.
Theorem periodic_breaks_well_posed : Z.odd d = true -> (forall i, 0 <= i < ncells -> x i = t (d + i)) -> well_posed true t a b d ncells PERIODIC PERIODIC ncells x.
Proof. intros H1 H2. apply (unique_well_posed s d true ncells t a b F PERIODIC PERIODIC ncells x Hclos periodic_count). exact (unique_knots s d ncells t a b F x H1 H2). Qed.
Theorem periodic_greville_well_posed m : (bs_uniform RA s = true \/ Z.odd ncells = true) -> (forall i, 0 <= i < ncells -> x i = greville t d (i + m)) -> (forall i, 0 <= i < ncells -> (a <= x i <= b)%R) ->
  well_posed true t a b d ncells PERIODIC PERIODIC ncells x.
Proof.
  intros Hc Hx Hin. pose proof (f_d _ _ _ _ _ _ _ F) as Hd. pose proof (f_n _ _ _ _ _ _ _ F) as Hn. destruct Hc as [Hu|Ho].
  - apply (unique_well_posed s d true ncells t a b F PERIODIC PERIODIC ncells x Hclos periodic_count). pose proof (space_uniform _ _ _ _ _ _ _ HS Hu) as Et.
    apply (unique_uniform s d ncells t a b F x m); [|exact Hin|].
    + intros k. rewrite Et. unfold uniform_knots. replace (k + 1 - d) with (k - d + 1) by lia. rewrite plus_IZR. ring.
    + intros i Hi. rewrite (Hx i Hi), Et. apply greville_uniform. exact Hd.
  - pose proof (per_cells s d ncells t a b F) as Hcells.
    assert (GS : forall i, (greville t d i < greville t d (i + 1))%R).
    { intros i. pose proof (greville_step t d i Hd) as E. assert (G : (t (i + 1)%Z < t (i + d + 1)%Z)%R) by (pose proof (Hcells (i + 1)); pose proof (f_mono _ _ _ _ _ _ _ F (i + 1 + 1) (i + d + 1) ltac:(lia)); lra).
      assert (0 < (t (i + d + 1)%Z - t (i + 1)%Z) / IZR d)%R; [|lra]. apply Rdiv_lt_0_compat; [lra | apply IZR_lt; lia]. }
    assert (GI : forall i j, i < j -> (greville t d i < greville t d j)%R).
    { intros i j Hij. pose proof (strict_steps (fun k => greville t d (i + k)) (j - i + 1)) as K. cbv beta in K. specialize (K ltac:(intros k K1 K2; replace (i + (k + 1)) with (i + k + 1) by lia; apply GS) 0 (j - i) ltac:(lia) ltac:(lia)).
      replace (i + 0) with i in K by lia. replace (i + (j - i)) with j in K by lia. exact K. }
    apply (odd_well_posed m); [exact Hin | | exact Ho|].
    + intros i j H1 H2 H3. rewrite !Hx by lia. apply GI. lia.
    + split.
      * rewrite !Hx by lia. pose proof (greville_shift t d (0 + m) ncells (b - a) Hd (f_period _ _ _ _ _ _ _ F eq_refl)) as E. rewrite <- E. apply GI. lia.
      * intros i Hi. rewrite Hx by lia. pose proof (greville_in t d (i + m) Hd (f_mono _ _ _ _ _ _ _ F)) as G. pose proof (Hcells (i + m)). pose proof (Hcells (i + m + d)). lra.
Qed.
End Periodic.
