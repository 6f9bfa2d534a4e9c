(** C56: the points of the library, builders in three dimensions, problems that are not well posed, examples. *)
From Coq Require Import Bool Reals ZArith Lia Lra ZifyBool List.
From Verif Require Import SamplingProofs BSplineSpec BSplineMath BSplineDeriv EvaluatorSpec EvaluatorSpace EvaluatorProofs EvaluatorLemmas BuilderSpec BuilderLemmas BuilderTheorems BuilderPoints PointsModel PointsSpec PointsLemmas PointsProofs3 Spline2DSpec Spline2DBuild Spline2DTheorems
  Spline3DModel Spline3DSpec Spline3DMath Spline3DBuild Spline3DTheorems WellPosedSpec WellPosedProofs WellPosedPoints WellPosedBuild WellPosedAlternative LinearGauss.
Import ListNotations.
Local Open Scope bool_scope. Local Open Scope Z_scope.

Lemma boundary_equations c d : 1 <= d < 2 ^ 31 -> n_boundary_equations c d = equations c d.
Proof.
  intros Hd. destruct c; cbn [n_boundary_equations equations]; try reflexivity; apply i32_small; pose proof (Z.div_lt d 2); pose proof (Z.div_pos d 2); lia.
Qed.

(** The points that the library computes for non uniform spaces, *)
Theorem library_open : forall q d (l : list R) lower upper junk, 1 <= d -> (2 <= length l)%nat -> strictly_increasing l -> Z.of_nat (length l) + 3 * d < 2 ^ 31 -> lower <> PERIODIC -> upper <> PERIODIC ->
  let ncells := Z.of_nat (length l) - 1 in let N := points_expected false d ncells lower upper in
  exists s x, nb_construct RA junk d false l = Ok (Some s) /\ ng_points_with_bcs RA q lower upper s = Ok (Some (mk_ns RA (points_of N x) 0)) /\
    well_posed false (knots false d l) (first_point l) (last_point l) d ncells lower upper N x.
Proof.
  intros q d l lower upper junk Hd Hl Hs Hb Hlo Hup ncells N. destruct (pts_open q d l lower upper junk Hd Hl Hs Hb) as (s & E1 & _ & E2 & _ & Hin & _).
  rewrite !boundary_equations in * by lia. exists s, (fun k => greville (knots false d l) d (k + equations lower d)). split; [exact E1|]. split; [exact E2|].
  apply (greville_well_posed (NonUniform s)); [|split; assumption | intros; reflexivity | exact Hin]. exact (non_uniform_space junk d false l s Hd Hl Hs ltac:(lia) E1).
Qed.
(** for uniform spaces with a Greville end, *)
Theorem library_uniform : forall q d (a b : R) ncells lower upper, 1 <= d <= 8 -> 3 <= ncells -> (a < b)%R -> ncells + 1 + 2 * d < 2 ^ 31 -> lower <> PERIODIC -> upper <> PERIODIC ->
  let N := points_expected false d ncells lower upper in
  exists s x, ub_construct RA q d false a b ncells = Ok s /\ ug_points RA lower upper s = Ok (Some (mk_ns RA (points_of N x) 0)) /\
    well_posed false (uniform_knots d a b ncells) a b d ncells lower upper N x.
Proof.
  intros q d a b ncells lower upper Hd Hn Hab Hb Hlo Hup N. destruct (pts_uniform_greville q d a b ncells lower upper ltac:(lia) ltac:(lia) Hab Hb Hlo Hup) as (s & E1 & _ & _ & _ & K & _).
  rewrite !boundary_equations in K by lia. destruct (K ltac:(lia) Hn) as (E2 & Hinc & Hin). eexists s, _. split; [exact E1|]. split; [exact E2|].
  apply (uniform_points_well_posed (Uniform s) d ncells a b); [| split; assumption | lia | intros; reflexivity | exact Hin | intros i j H1 H2 H3; exact (Hinc i j (conj H1 H2) H3)].
  exact (uniform_space q d false a b ncells s ltac:(lia) ltac:(lia) Hab Hb E1).
Qed.
(** for uniform spaces without, periodic or not, *)
Theorem library_uniform_sampling : forall q d (periodic : bool) (a b : R) ncells lower upper, 1 <= d -> 1 <= ncells -> (a < b)%R -> ncells + 1 + 2 * d < 2 ^ 31 ->
  is_uniform_points lower upper d periodic = true -> closures_for periodic lower upper ->
  let N := points_expected periodic d ncells lower upper in
  exists s u x, ub_construct RA q d periodic a b ncells = Ok s /\ ug_sampling RA s = Ok u /\ (forall k, 0 <= k < N -> us_coordinate RA u k = (x k : num RA)) /\
    well_posed periodic (uniform_knots d a b ncells) a b d ncells lower upper N x.
Proof.
  intros q d periodic a b ncells lower upper Hd Hn Hab Hb Hu Hc N. destruct (pts_uniform q d periodic a b ncells lower upper Hd Hn Hab Hb Hu Hc) as (s & u & E1 & E2 & _ & E3 & _ & _ & Hin & _).
  pose proof (uniform_space q d periodic a b ncells s Hd Hn Hab Hb E1) as HS. pose proof (Z.div_mod d 2 ltac:(lia)) as DM.
  assert (HN : N = if periodic then ncells else ncells + d mod 2).
  { unfold N, points_expected, unknowns. unfold is_uniform_points in Hu. rewrite !boundary_equations in Hu by lia. destruct periodic; [destruct Hc as [-> ->]; cbn [equations]; lia|].
    destruct lower, upper; cbn [equations] in *; try (exfalso; cbn in Hu; lia); lia. }
  exists s, u, (fun k => greville (uniform_knots d a b ncells) d (k + d / 2)). split; [exact E1|]. split; [exact E2|].
  split. { intros k Hk. apply E3. destruct periodic; rewrite HN in Hk; pose proof (Z.mod_pos_bound d 2 ltac:(lia)); lia. }
  rewrite <- HN in Hin. destruct periodic.
  - destruct Hc as [-> ->]. rewrite HN in *. apply (periodic_greville_well_posed (Uniform s) d ncells _ a b HS _ (d / 2)); [left; reflexivity | intros; reflexivity | exact Hin].
  - apply (greville_well_posed (Uniform s) d ncells _ a b HS lower upper _ Hc); [|exact Hin]. intros i Hi. do 2 f_equal.
    unfold is_uniform_points in Hu. rewrite !boundary_equations in Hu by lia. destruct lower; cbn [equations] in *; try reflexivity; cbn in Hu; discriminate.
Qed.
(** and for periodic non uniform spaces with an odd number of cells. *)
Theorem library_periodic : forall q d (l : list R) junk, 1 <= d -> (2 <= length l)%nat -> strictly_increasing l -> Z.of_nat (length l) + 3 * d < 2 ^ 31 ->
  let ncells := Z.of_nat (length l) - 1 in d <= ncells -> Z.odd ncells = true ->
  exists s x, nb_construct RA junk d true l = Ok (Some s) /\ ng_points_with_bcs RA q PERIODIC PERIODIC s = Ok (Some (mk_ns RA (points_of (ncells + 1) x) 0)) /\
    well_posed true (knots true d l) (first_point l) (last_point l) d ncells PERIODIC PERIODIC ncells x.
Proof.
  intros q d l junk Hd Hl Hs Hb ncells Hn Ho. destruct (pts_periodic q d l junk Hd Hl Hs Hb Hn) as (s & m & E1 & _ & _ & E2 & _ & Hin & _). eexists s, _. split; [exact E1|]. split; [exact E2|].
  apply (periodic_greville_well_posed (NonUniform s) d ncells _ _ _ (non_uniform_space junk d true l s Hd Hl Hs ltac:(lia) E1) _ m); [right; exact Ho | intros; reflexivity|].
  intros i Hi. specialize (Hin i Hi). cbv beta in *. lra.
Qed.

(** A problem that is not well posed: for some values and derivatives the builder returns nothing, whatever the solver. *)
Theorem singular : forall s d periodic ncells t a b lower upper start n coord x,
  interpolation GINKGO s d periodic ncells t a b lower upper start n coord x -> n = points_expected periodic d ncells lower upper -> ~ well_posed periodic t a b d ncells lower upper n x ->
  exists v wl wu, forall m bd X junk sp vals dl du c, builder_construct RA s m GINKGO lower upper start n coord = Ok bd -> exact_solvers X -> has_coefficients sp (ncells + d) ->
    (forall i, 0 <= i < n -> a_at vals i = v i) -> (forall i, 0 <= i < equations lower d -> asked lower dl i = wl i) -> (forall i, 0 <= i < equations upper d -> asked upper du i = wu i) ->
    build RA s lower upper X bd junk sp vals dl du <> Ok c.
Proof.
  intros until x. intros IP Hn NW. pose proof (space_facts _ _ _ _ _ _ _ (i_space _ _ _ _ _ _ _ _ _ _ _ _ _ _ IP)) as F. pose proof (i_closures _ _ _ _ _ _ _ _ _ _ _ _ _ _ IP) as Hc.
  destruct (unreachable s d periodic ncells t a b F lower upper n x Hc Hn) as (v & wl & wu & K).
  { intros U. apply NW. exact (unique_well_posed s d periodic ncells t a b F lower upper n x Hc Hn U). }
  exists v, wl, wu. intros m bd X junk sp vals dl du c E Hex Hsp Hv Hl Hu R. destruct (sparse_exact _ _ _ _ _ _ _ _ _ _ _ _ _ IP m bd E X junk sp vals dl du c Hex Hsp R) as (_ & I1 & I2 & I3 & I4).
  apply (K (coefficient c)). split; [intros i Hi; rewrite <- (Hv i Hi); exact (I1 i Hi)|]. split; [intros i Hi; rewrite <- (Hl i Hi); exact (I2 i Hi)|]. split; [intros i Hi; rewrite <- (Hu i Hi); exact (I3 i Hi) | exact I4].
Qed.

(** Points at the knots, even degrees, even number of cells: accepted, not well posed. *)
Theorem even_knots : forall s d ncells a b start coord x, let t := uniform_knots d a b ncells in
  interpolation GINKGO s d true ncells t a b PERIODIC PERIODIC start ncells coord x -> Z.even d = true -> Z.even ncells = true -> (forall i, 0 <= i < ncells -> x i = t (d + i)) ->
  (forall m, exists bd, builder_construct RA s m GINKGO PERIODIC PERIODIC start ncells coord = Ok bd) /\ ~ well_posed true t a b d ncells PERIODIC PERIODIC ncells x.
Proof.
  intros s d ncells a b start coord x t IP Hed Hen Hx. pose proof (space_facts _ _ _ _ _ _ _ (i_space _ _ _ _ _ _ _ _ _ _ _ _ _ _ IP)) as F. pose proof (f_d _ _ _ _ _ _ _ F) as Hd. pose proof (f_n _ _ _ _ _ _ _ F) as Hn.
  assert (Hinc : increasing_points ncells x). { intros i j H1 H2 H3. rewrite !Hx by lia. pose proof (per_cells s d ncells t a b F (d + i)). pose proof (f_mono _ _ _ _ _ _ _ F (d + i + 1) (d + j) ltac:(lia)). lra. }
  split.
  - intros m. destruct (constructs _ _ _ _ _ _ _ _ _ _ _ _ _ _ IP Hinc ltac:(unfold points_expected, unknowns; cbn [equations]; lia)) with (m := m) as (off & _ & K).
    + intros c [Hc H]. assert (E : points_in ncells x (t c) (t (c + 1)) <= 2); [|lia]. apply (points_in_few ncells x _ _ (c - d)); [lia | lia|]. intros i Hi [G1 G2]. rewrite Hx in G1, G2 by exact Hi.
      destruct (Z.lt_ge_cases (d + i) c) as [L|L].
      * exfalso. pose proof (per_cells s d ncells t a b F (d + i)). pose proof (f_mono _ _ _ _ _ _ _ F (d + i + 1) c ltac:(lia)). lra.
      * destruct (Z.lt_ge_cases (c + 1) (d + i)) as [L'|L']; [|lia]. exfalso. pose proof (per_cells s d ncells t a b F (c + 1)). pose proof (f_mono _ _ _ _ _ _ _ F (c + 1 + 1) (d + i) ltac:(lia)). lra.
    + destruct (K I) as (bd & E & _). exists bd. exact E.
  - intros [U _]. revert U. apply Z.even_spec in Hed. destruct Hed as [q Eq]. apply (alternating_not_unique s d ncells a b (q - 1) x F Hen). intros i Hi. split.
    + exact (proj2 (i_points _ _ _ _ _ _ _ _ _ _ _ _ _ _ IP i Hi)).
    + rewrite (Hx i Hi). unfold t, uniform_knots. rewrite Eq, mult_IZR. replace (2 * q + i - 2 * q) with (i + (q - 1) - 2 * q + (q + 1)) by lia. rewrite (plus_IZR _ (q + 1)), (plus_IZR q 1). field. apply not_0_IZR. lia.
Qed.
(** Break points, derivatives at both ends, even degrees: rejected. *)
Theorem even_breaks_rejected : forall solver s d ncells t a b lower upper start coord x m,
  interpolation solver s d false ncells t a b lower upper start (ncells + 1) coord x -> Z.even d = true -> is_hermite lower = true -> is_hermite upper = true ->
  builder_construct RA s m solver lower upper start (ncells + 1) coord = Rejected.
Proof.
  intros solver s d ncells t a b lower upper start coord x m IP He Hl Hu. apply (number_rejected _ _ _ _ _ _ _ _ _ _ _ _ _ _ IP). apply Z.even_spec in He. destruct He as [q Eq].
  unfold points_expected, unknowns. destruct lower, upper; try discriminate; cbn [equations]; rewrite Eq; rewrite (Z.mul_comm 2 q), Z.div_mul by lia; lia.
Qed.

(** Three dimensions. *)
Theorem posed_builds_3d : forall s1 s2 s3 A1 A2 A3 X bd1 bd2 bd3, builder_for GINKGO s1 A1 bd1 -> builder_for GINKGO s2 A2 bd2 -> builder_for GINKGO s3 A3 bd3 -> posed A1 -> posed A2 -> posed A3 ->
  (ax_periodic A1 = true -> 0 <= bd_offset bd1 <= ax_degree A1) -> (ax_periodic A2 = true -> 0 <= bd_offset bd2 <= ax_degree A2) -> (ax_periodic A3 = true -> 0 <= bd_offset bd3 <= ax_degree A3) ->
  exact_solvers X -> regular_bicgstab X -> forall D, data_given_3d A1 A2 A3 D -> supported A2 A3 ->
  forall junk work work23 sp, has_coefficients_nd sp [ax_size A1; ax_size A2; ax_size A3] ->
  exists c, run_3d s1 s2 s3 A1 A2 A3 X bd1 bd2 bd3 junk work work23 sp D = Ok c /\ has_coefficients_nd c [ax_size A1; ax_size A2; ax_size A3] /\
    interpolates_3d A1 A2 A3 D (coefficient_nd c) /\ periodic_nd [A1; A2; A3] (coefficient_nd c).
Proof.
  intros s1 s2 s3 A1 A2 A3 X bd1 bd2 bd3 B1 B2 B3 P1 P2 P3 O1 O2 O3 Hex Hreg D HD Sup junk work work23 sp Hsp.
  destruct (builds_3d GINKGO GINKGO GINKGO s1 s2 s3 A1 A2 A3 X bd1 bd2 bd3 B1 B2 B3 D HD Sup (posed_never_fails _ _ _ _ P1 B1 O1 Hex Hreg) (posed_never_fails _ _ _ _ P2 B2 O2 Hex Hreg) (posed_never_fails _ _ _ _ P3 B3 O3 Hex Hreg) junk work work23 sp Hsp) as (c & E).
  exists c. split; [exact E|]. destruct (build_3d_interpolates GINKGO GINKGO GINKGO s1 s2 s3 A1 A2 A3 X bd1 bd2 bd3 B1 B2 B3 Hex D HD Sup junk work work23 sp c Hsp E) as [H1 H2]. split; [exact H1|]. split; [exact H2|].
  exact (builds_periodic GINKGO GINKGO GINKGO s1 s2 s3 A1 A2 A3 X bd1 bd2 bd3 B1 B2 B3 Hex D HD Sup (posed_determined _ P2) (posed_determined _ P3) junk work work23 sp c Hsp E).
Qed.
Theorem same_result_3d : forall A1 A2 A3, determined A1 -> determined A2 -> determined A3 ->
  forall solver1 solver2 solver3 s1 s2 s3 bd1 bd2 bd3 X solver1' solver2' solver3' s1' s2' s3' bd1' bd2' bd3' X',
  builder_for solver1 s1 A1 bd1 -> builder_for solver2 s2 A2 bd2 -> builder_for solver3 s3 A3 bd3 -> exact_solvers X ->
  builder_for solver1' s1' A1 bd1' -> builder_for solver2' s2' A2 bd2' -> builder_for solver3' s3' A3 bd3' -> exact_solvers X' ->
  forall D, data_given_3d A1 A2 A3 D -> supported A2 A3 -> forall junk work work23 sp c junk' work' work23' sp' c',
  has_coefficients_nd sp [ax_size A1; ax_size A2; ax_size A3] -> has_coefficients_nd sp' [ax_size A1; ax_size A2; ax_size A3] ->
  run_3d s1 s2 s3 A1 A2 A3 X bd1 bd2 bd3 junk work work23 sp D = Ok c -> run_3d s1' s2' s3' A1 A2 A3 X' bd1' bd2' bd3' junk' work' work23' sp' D = Ok c' ->
  forall i j k, 0 <= i < ax_size A1 -> 0 <= j < ax_size A2 -> 0 <= k < ax_size A3 -> coefficient_nd c [i; j; k] = coefficient_nd c' [i; j; k].
Proof.
  intros A1 A2 A3 D1 D2 D3 solver1 solver2 solver3 s1 s2 s3 bd1 bd2 bd3 X solver1' solver2' solver3' s1' s2' s3' bd1' bd2' bd3' X' B1 B2 B3 Hex B1' B2' B3' Hex' D (f2 & f3 & Hf2 & Hf3 & HD) Sup
    junk work work23 sp c junk' work' work23' sp' c' Hsp Hsp' E E' i j k Hi Hj Hk.
  destruct (run_lines solver1 solver2 solver3 s1 s2 s3 A1 A2 A3 X bd1 bd2 bd3 B1 B2 B3 D f2 f3 Hf3 Sup HD junk work work23 sp c Hex Hsp E) as (_ & u & L1 & L).
  destruct (run_lines solver1' solver2' solver3' s1' s2' s3' A1 A2 A3 X' bd1' bd2' bd3' B1' B2' B3' D f2 f3 Hf3 Sup HD junk' work' work23' sp' c' Hex' Hsp' E') as (_ & u' & L1' & L').
  assert (K1 : forall t2 t3, valid_site A2 t2 -> valid_site A3 t3 -> u i t2 t3 = u' i t2 t3). { intros t2 t3 H2 H3. exact (D1 _ _ _ _ (L1 t2 t3 H2 H3) (L1' t2 t3 H2 H3) i Hi). }
  destruct (L i Hi) as (p & sd & L3 & L2). destruct (L' i Hi) as (p' & sd' & L3' & L2').
  assert (K : forall t3, valid_site A3 t3 -> of_site (p j) (fun e => sd e j) t3 = of_site (p' j) (fun e => sd' e j) t3).
  { intros t3 H3. refine (D2 _ _ (fun j => of_site (p j) (fun e => sd e j) t3) (fun j => of_site (p' j) (fun e => sd' e j) t3) _ (L2' t3 H3) j Hj). eapply interp_ext; [| |exact (L2 t3 H3)].
    - intros q Hq. exact (K1 (AtPoint q) t3 Hq H3).
    - intros e q Hq. exact (K1 (AtEdge e q) t3 Hq H3). }
  unfold coefficient_nd. refine (D3 _ _ (fun k => cn_at c [i; j; k]) (fun k => cn_at c' [i; j; k]) _ (L3' j Hj) k Hk). eapply interp_ext; [| |exact (L3 j Hj)].
  - intros q Hq. exact (K (AtPoint q) Hq).
  - intros e q Hq. exact (K (AtEdge e q) Hq).
Qed.

(** The statements of C56. *)
Theorem whitney : forall s d ncells t a b lower upper x, spline_space s d false ncells t a b -> closures_for false lower upper ->
  let n := points_expected false d ncells lower upper in (forall i, 0 <= i < n -> (a <= x i <= b)%R) -> increasing_points n x ->
  (well_posed false t a b d ncells lower upper n x <-> nested t d ncells (equations lower d) n x /\ anchored d lower upper a b n x).
Proof. intros s d ncells t a b lower upper x HS Hc n Hx Hi. exact (schoenberg_whitney s d ncells t a b (space_facts _ _ _ _ _ _ _ HS) lower upper n x Hc eq_refl Hx Hi). Qed.
Theorem unique_or_impossible : forall s d periodic ncells t a b lower upper x, spline_space s d periodic ncells t a b -> closures_for periodic lower upper ->
  let n := points_expected periodic d ncells lower upper in
  (at_most_one periodic t a b d ncells lower upper n x <-> forall v wl wu, exists c, solution periodic t a b d ncells lower upper n x v wl wu c) /\
  (~ well_posed periodic t a b d ncells lower upper n x -> exists v wl wu, forall c, ~ solution periodic t a b d ncells lower upper n x v wl wu c).
Proof.
  intros s d periodic ncells t a b lower upper x HS Hc n. pose proof (space_facts _ _ _ _ _ _ _ HS) as F.
  pose proof (alternative s d periodic ncells t a b F lower upper n x Hc eq_refl) as K. split; [exact K|]. intros NW. apply (unreachable s d periodic ncells t a b F lower upper n x Hc eq_refl).
  intros U. apply NW. split; [exact U | exact (proj1 K U)].
Qed.
Theorem greville_posed : forall s d ncells t a b lower upper x, spline_space s d false ncells t a b -> closures_for false lower upper ->
  let n := points_expected false d ncells lower upper in (forall i, 0 <= i < n -> x i = greville t d (i + equations lower d) /\ (a <= x i <= b)%R) ->
  well_posed false t a b d ncells lower upper n x.
Proof. intros s d ncells t a b lower upper x HS Hc n H. apply (greville_well_posed s d ncells t a b HS lower upper x Hc); intros i Hi; apply (H i Hi). Qed.
Theorem breaks_posed : forall s d ncells t a b lower upper x, spline_space s d false ncells t a b -> is_hermite lower = true -> is_hermite upper = true -> Z.odd d = true ->
  (forall i, 0 <= i <= ncells -> x i = t (d + i)) -> points_expected false d ncells lower upper = ncells + 1 /\ well_posed false t a b d ncells lower upper (ncells + 1) x.
Proof.
  intros s d ncells t a b lower upper x HS Hl Hu Hd Hx. assert (Hc : closures_for false lower upper). { split; intros ->; discriminate. }
  assert (En : points_expected false d ncells lower upper = ncells + 1).
  { apply (breaks_well_posed s d ncells t a b HS lower upper (fun i => t (d + i)) Hc Hd Hl Hu). reflexivity. }
  split; [exact En|]. destruct (breaks_well_posed s d ncells t a b HS lower upper x Hc Hd Hl Hu) as [_ W]; [intros i Hi; apply Hx; lia|]. rewrite En in W. exact W.
Qed.
Theorem periodic_greville_posed : forall s d ncells t a b x m, spline_space s d true ncells t a b -> bs_uniform RA s = true \/ Z.odd ncells = true ->
  (forall i, 0 <= i < ncells -> x i = greville t d (i + m) /\ (a <= x i <= b)%R) -> well_posed true t a b d ncells PERIODIC PERIODIC ncells x.
Proof. intros s d ncells t a b x m HS Hu H. apply (periodic_greville_well_posed s d ncells t a b HS x m Hu); intros i Hi; apply (H i Hi). Qed.
Theorem odd_posed : forall s d ncells t a b x m, spline_space s d true ncells t a b -> Z.odd ncells = true -> (forall i, 0 <= i < ncells -> (a <= x i <= b)%R) -> increasing_points ncells x ->
  nested_periodic t a b d m ncells x -> well_posed true t a b d ncells PERIODIC PERIODIC ncells x.
Proof. intros s d ncells t a b x m HS Ho Hx Hi N. exact (odd_well_posed s d ncells t a b HS x m Hx Hi Ho N). Qed.
Theorem builds_posed : forall s d periodic ncells t a b lower upper start n coord x,
  interpolation GINKGO s d periodic ncells t a b lower upper start n coord x -> well_posed periodic t a b d ncells lower upper n x ->
  forall m bd, builder_construct RA s m GINKGO lower upper start n coord = Ok bd -> (periodic = true -> 0 <= bd_offset bd <= d) ->
  forall X junk sp v dl du, exact_solvers X -> regular_bicgstab X -> has_coefficients sp (ncells + d) -> derivatives_given lower d dl -> derivatives_given upper d du -> a_len v = n ->
  exists c, build RA s lower upper X bd junk sp v dl du = Ok c /\ has_coefficients c (ncells + d) /\
    interpolates periodic t a b d ncells n lower upper x (a_at v) dl du (coefficient c) /\
    forall c', interpolates periodic t a b d ncells n lower upper x (a_at v) dl du c' -> forall i, 0 <= i < ncells + d -> c' i = coefficient c i.
Proof. intros until x. intros IP [U _]. exact (builds_unique s d periodic ncells t a b lower upper start n coord x IP U). Qed.
