(** The theorems on splines in three dimensions, from those on any number of dimensions; instances. *)
From Coq Require Import Bool Reals ZArith Lia Lra List.
From Verif Require Export Spline3DSpec.
From Verif Require Import Spline2DBuild Spline2DTheorems SplineNDEval SplineNDEval2 SplineNDIntegral SplineNDAgree SplineNDTheorems Spline3DBuild BuilderTheorems BuilderLemmas EvaluatorLemmas.
Import ListNotations SplineNDSpec.
Local Open Scope bool_scope. Local Open Scope Z_scope.

(** * The builder *)
Theorem builds_3d : forall solver1 solver2 solver3 s1 s2 s3 A1 A2 A3 X bd1 bd2 bd3, builder_for solver1 s1 A1 bd1 -> builder_for solver2 s2 A2 bd2 -> builder_for solver3 s3 A3 bd3 ->
  forall D, data_given_3d A1 A2 A3 D -> supported A2 A3 -> never_fails s1 A1 X bd1 -> never_fails s2 A2 X bd2 -> never_fails s3 A3 X bd3 ->
  forall junk work work23 sp, has_coefficients_nd sp [ax_size A1; ax_size A2; ax_size A3] -> exists c, run_3d s1 s2 s3 A1 A2 A3 X bd1 bd2 bd3 junk work work23 sp D = Ok c.
Proof.
  intros * B1 B2 B3 D (f2 & f3 & Hf2 & Hf3 & HD) Sup N1 N2 N3 junk work work23 sp Hsp.
  exact (run_3d_total solver1 solver2 solver3 s1 s2 s3 A1 A2 A3 X bd1 bd2 bd3 B1 B2 B3 D f2 f3 Hf3 Sup HD junk work work23 sp N1 N2 N3 Hsp).
Qed.
Theorem build_3d_interpolates : forall solver1 solver2 solver3 s1 s2 s3 A1 A2 A3 X bd1 bd2 bd3, builder_for solver1 s1 A1 bd1 -> builder_for solver2 s2 A2 bd2 -> builder_for solver3 s3 A3 bd3 -> exact_solvers X ->
  forall D, data_given_3d A1 A2 A3 D -> supported A2 A3 ->
  forall junk work work23 sp c, has_coefficients_nd sp [ax_size A1; ax_size A2; ax_size A3] -> run_3d s1 s2 s3 A1 A2 A3 X bd1 bd2 bd3 junk work work23 sp D = Ok c ->
  has_coefficients_nd c [ax_size A1; ax_size A2; ax_size A3] /\ interpolates_3d A1 A2 A3 D (coefficient_nd c).
Proof.
  intros * B1 B2 B3 HX D (f2 & f3 & Hf2 & Hf3 & HD) Sup junk work work23 sp c Hsp E.
  exact (run_3d_sound solver1 solver2 solver3 s1 s2 s3 A1 A2 A3 X bd1 bd2 bd3 B1 B2 B3 D f2 f3 Hf3 Sup HD junk work work23 sp c HX Hsp E).
Qed.
Theorem builds_periodic : forall solver1 solver2 solver3 s1 s2 s3 A1 A2 A3 X bd1 bd2 bd3, builder_for solver1 s1 A1 bd1 -> builder_for solver2 s2 A2 bd2 -> builder_for solver3 s3 A3 bd3 -> exact_solvers X ->
  forall D, data_given_3d A1 A2 A3 D -> supported A2 A3 -> determined A2 -> determined A3 ->
  forall junk work work23 sp c, has_coefficients_nd sp [ax_size A1; ax_size A2; ax_size A3] -> run_3d s1 s2 s3 A1 A2 A3 X bd1 bd2 bd3 junk work work23 sp D = Ok c ->
  periodic_nd [A1; A2; A3] (coefficient_nd c).
Proof.
  intros * B1 B2 B3 HX D (f2 & f3 & Hf2 & Hf3 & HD) Sup D2 D3 junk work work23 sp c Hsp E.
  exact (run_3d_periodic solver1 solver2 solver3 s1 s2 s3 A1 A2 A3 X bd1 bd2 bd3 B1 B2 B3 D f2 f3 Hf3 Sup HD junk work work23 sp c HX Hsp E D2 D3).
Qed.
Lemma three_of {X Y} (P : X -> Y -> Prop) a b c x y z : P a x -> P b y -> P c z -> Forall2 P [a; b; c] [x; y; z].
Proof. intros. do 3 (constructor; [assumption|]). constructor. Qed.
Lemma takes_value : forall As is F v, length is = length As ->
  mixed_derivative_nd (map (fun '(A, t) => site_order A t) (combine As (map AtPoint is))) F (map (fun '(A, t) => site_position A t) (combine As (map AtPoint is))) v ->
  F (map (fun '(A, i) => ax_point A i) (combine As is)) = v.
Proof.
  induction As as [|A As IH]; intros [|i is] F v L H; try discriminate; [exact H|]. cbn [map combine mixed_derivative_nd site_order site_position] in H. destruct H as (K & G & HK & HG & <-).
  cbn [nth_derivative] in HG. cbn [map combine]. rewrite <- HG. exact (IH is (fun ys => F (ax_point A i :: ys)) _ ltac:(cbn in L; lia) (HK _)).
Qed.
Theorem evaluates_3d : forall solver1 solver2 solver3 s1 s2 s3 A1 A2 A3 X bd1 bd2 bd3, builder_for solver1 s1 A1 bd1 -> builder_for solver2 s2 A2 bd2 -> builder_for solver3 s3 A3 bd3 -> exact_solvers X ->
  forall D vals, data_given_3d A1 A2 A3 D -> supported A2 A3 -> D Inside Inside Inside = Some vals ->
  forall junk work work23 sp c, has_coefficients_nd sp [ax_size A1; ax_size A2; ax_size A3] -> run_3d s1 s2 s3 A1 A2 A3 X bd1 bd2 bd3 junk work work23 sp D = Ok c ->
  forall m1 m2 m3 l1 u1 l2 u2 l3 u3 i j k, 0 <= i < ax_points A1 -> 0 <= j < ax_points A2 -> 0 <= k < ax_points A3 ->
  eval_3d RA s1 s2 s3 m1 m2 m3 l1 u1 l2 u2 l3 u3 (ax_point A1 i) (ax_point A2 j) (ax_point A3 k) c = Ok (cn_at vals [i; j; k] : num RA).
Proof.
  intros * B1 B2 B3 HX D vals HD Sup Hv junk work work23 sp c Hsp E m1 m2 m3 l1 u1 l2 u2 l3 u3 i j k Hi Hj Hk.
  destruct (build_3d_interpolates _ _ _ _ _ _ _ _ _ _ _ _ _ B1 B2 B3 HX D HD Sup junk work work23 sp c Hsp E) as [Hc HI].
  pose proof (HI (AtPoint i) (AtPoint j) (AtPoint k) Hi Hj Hk) as T. unfold takes in T. apply (takes_value [A1; A2; A3] [i; j; k]) in T; [|reflexivity].
  rewrite <- agree_3. etransitivity; [apply (eval_nd_inside [(s1, m1); (s2, m2); (s3, m3)] [A1; A2; A3]); [apply three_of; [exact (builder_space _ _ _ _ B1) | exact (builder_space _ _ _ _ B2) | exact (builder_space _ _ _ _ B3)] | reflexivity | exact Hc |]|].
  - apply three_of; [exact (points_inside _ _ _ _ B1 i Hi) | exact (points_inside _ _ _ _ B2 j Hj) | exact (points_inside _ _ _ _ B3 k Hk)].
  - f_equal. etransitivity; [exact T|]. unfold asked_3d. cbn [kind_of hermite andb]. rewrite Hv. reflexivity.
Qed.

(** * The evaluator *)
Section Evaluator.
Context (A1 A2 A3 : axis) (s1 s2 s3 : bspline_space RA) (S1 : space_of s1 A1) (S2 : space_of s2 A2) (S3 : space_of s3 A3) (m1 m2 m3 : scratch RA).
Lemma three : spaces_of [(s1, m1); (s2, m2); (s3, m3)] [A1; A2; A3].
Proof. apply three_of; assumption. Qed.
Notation As := [A1; A2; A3].
Notation sizes := [ax_size A1; ax_size A2; ax_size A3].
Theorem inside_3d l1 u1 l2 u2 l3 u3 x y z (c : chunk_nd RA) : has_coefficients_nd c sizes -> inside A1 x -> inside A2 y -> inside A3 z ->
  eval_3d RA s1 s2 s3 m1 m2 m3 l1 u1 l2 u2 l3 u3 x y z c = Ok (spline_nd As (coefficient_nd c) [x; y; z] : num RA).
Proof. intros Hc Hx Hy Hz. rewrite <- agree_3. apply (eval_nd_inside _ As three); [reflexivity | exact Hc | apply three_of; assumption]. Qed.
Theorem wraps_3d l1 u1 l2 u2 l3 u3 x y z x' y' z' (c : chunk_nd RA) : has_coefficients_nd c sizes -> periodic_nd As (coefficient_nd c) -> lands A1 x x' -> lands A2 y y' -> lands A3 z z' ->
  eval_3d RA s1 s2 s3 m1 m2 m3 l1 u1 l2 u2 l3 u3 x y z c = Ok (spline_nd As (coefficient_nd c) [x'; y'; z'] : num RA).
Proof. intros Hc Hp Hx Hy Hz. rewrite <- agree_3. apply (eval_nd_lands _ As three); [reflexivity | exact Hc | exact Hp | exact (conj Hx (conj Hy (conj Hz I)))]. Qed.
Theorem derivative_3d o1 o2 o3 x y z (c : chunk_nd RA) : has_coefficients_nd c sizes -> inside A1 x -> inside A2 y -> inside A3 z -> order_valid A1 o1 -> order_valid A2 o2 -> order_valid A3 o3 ->
  exists k1 k2 k3 (v : R), let ks := [k1; k2; k3] in let on_cell ys := all3 (fun A k y => (ax_knots A k <= y <= ax_knots A (k + 1)%Z)%R) As ks ys in
    on_cell [x; y; z] /\ all3 (fun A k n => ax_degree A <= k < ax_degree A + n) As ks (map ax_cells As) /\
    (forall ys, on_cell ys -> spline_nd As (coefficient_nd c) ys = piece_nd As ks (coefficient_nd c) ys) /\
    eval_no_bc_3d RA s1 s2 s3 m1 m2 m3 o1 o2 o3 x y z c = Ok v /\
    mixed_derivative_nd (map (fun o => Z.to_nat (order_of o)) [o1; o2; o3]) (piece_nd As ks (coefficient_nd c)) [x; y; z] v.
Proof.
  intros Hc Hx Hy Hz H1 H2 H3. destruct (derivative_nd _ As three [o1; o2; o3] [x; y; z] c Hc) as (ks & v & K1 & K2 & K3 & K4); [apply three_of; assumption..|].
  destruct ks as [|k1 [|k2 [|k3 [|]]]]; cbn [all3] in K1; try tauto. exists k1, k2, k3, v. cbv zeta. rewrite <- no_bc_3. cbn [all3 map]. split; [tauto|]. split; [tauto|]. split; [exact K2|]. split; [exact K3 | exact K4].
Qed.
Theorem outside_3 l1 u1 l2 u2 l3 u3 x y z (c : chunk_nd RA) : exists x' y' z', reduced A1 x x' /\ reduced A2 y y' /\ reduced A3 z z' /\
  let r := eval_3d RA s1 s2 s3 m1 m2 m3 l1 u1 l2 u2 l3 u3 x y z c in
  let fine A x := ax_periodic A = true \/ inside A x in
  (ax_periodic A1 = false -> ((x < ax_min A1)%R -> r = l1 [x'; y'; z'] c) /\ ((ax_max A1 < x)%R -> r = u1 [x'; y'; z'] c)) /\
  (ax_periodic A2 = false -> fine A1 x -> ((y < ax_min A2)%R -> r = l2 [x'; y'; z'] c) /\ ((ax_max A2 < y)%R -> r = u2 [x'; y'; z'] c)) /\
  (ax_periodic A3 = false -> fine A1 x -> fine A2 y -> ((z < ax_min A3)%R -> r = l3 [x'; y'; z'] c) /\ ((ax_max A3 < z)%R -> r = u3 [x'; y'; z'] c)).
Proof.
  destruct (eval_nd_outside _ As three [(l1, u1); (l2, u2); (l3, u3)] [x; y; z] c eq_refl eq_refl) as (xs & R & K). destruct xs as [|x' [|y' [|z' [|]]]]; cbn [all3] in R; try tauto.
  exists x', y', z'. split; [tauto|]. split; [tauto|]. split; [tauto|]. cbv zeta. rewrite <- !agree_3. split; [|split].
  - intros Hp. apply (K 0%nat A1 x l1 u1 eq_refl eq_refl eq_refl Hp). intros j A' x0 Hj. lia.
  - intros Hp F1. apply (K 1%nat A2 y l2 u2 eq_refl eq_refl eq_refl Hp). intros [|j] A' x0 Hj Ha Hx; [|lia]. cbn in Ha, Hx. congruence.
  - intros Hp F1 F2. apply (K 2%nat A3 z l3 u3 eq_refl eq_refl eq_refl Hp). intros [|[|j]] A' x0 Hj Ha Hx; [| |lia]; cbn in Ha, Hx; congruence.
Qed.
Theorem batched_3d l1 u1 l2 u2 l3 u3 nbatch f1 n1 f2 n2 f3 n3 (coords where_ : Z -> list Z -> R * R * R) (coef out : Z -> chunk_nd RA) :
  0 <= nbatch -> mesh [f1; f2; f3] [n1; n2; n3] -> (forall j, 0 <= j < nbatch -> on_mesh (out j) [f1; f2; f3] [n1; n2; n3]) ->
  (forall j k1 k2 k3, 0 <= j < nbatch -> 0 <= k1 < n1 -> 0 <= k2 < n2 -> 0 <= k3 < n3 -> has_coefficients_nd (coef j) sizes /\ periodic_nd As (coefficient_nd (coef j)) /\
     all3 lands As (as_list (coords j [f1 + k1; f2 + k2; f3 + k3])) (as_list (where_ j [k1; k2; k3]))) ->
  exists out', evaluate_3d RA s1 s2 s3 m1 m2 m3 l1 u1 l2 u2 l3 u3 nbatch f1 n1 f2 n2 f3 n3 coords coef out = Ok out' /\
    forall j, 0 <= j < nbatch -> on_mesh (out' j) [f1; f2; f3] [n1; n2; n3] /\
      forall k1 k2 k3, 0 <= k1 < n1 -> 0 <= k2 < n2 -> 0 <= k3 < n3 -> cn_at (out' j) [k1; k2; k3] = spline_nd As (coefficient_nd (coef j)) (as_list (where_ j [k1; k2; k3])).
Proof.
  intros Hb Hm Ho H. destruct (evaluate_nd_lands _ As three [(l1, u1); (l2, u2); (l3, u3)] nbatch [f1; f2; f3] [n1; n2; n3] (fun j e => as_list (coords j e)) (fun j e => as_list (where_ j e)) coef out eq_refl Hb Hm Ho) as (out' & E & K).
  - intros j idx Hj Hi. inversion Hi as [|? k1 ? i1 H1 Hi1]; subst. inversion Hi1 as [|? k2 ? i2 H2 Hi2]; subst. inversion Hi2 as [|? k3 ? i3 H3 Hi3]; subst. inversion Hi3; subst. exact (H j k1 k2 k3 Hj H1 H2 H3).
  - exists out'. split; [rewrite <- evaluate_3; exact E|]. intros j Hj. destruct (K j Hj) as [K1 K2]. split; [exact K1|]. intros k1 k2 k3 H1 H2 H3. apply K2. apply three_of; lia.
Qed.
Theorem deriv_batched_3d o1 o2 o3 nbatch f1 n1 f2 n2 f3 n3 (coords : Z -> list Z -> R * R * R) (coef out : Z -> chunk_nd RA) :
  0 <= nbatch -> mesh [f1; f2; f3] [n1; n2; n3] -> (forall j, 0 <= j < nbatch -> on_mesh (out j) [f1; f2; f3] [n1; n2; n3]) -> order_valid A1 o1 -> order_valid A2 o2 -> order_valid A3 o3 ->
  (forall j k1 k2 k3, 0 <= j < nbatch -> 0 <= k1 < n1 -> 0 <= k2 < n2 -> 0 <= k3 < n3 -> has_coefficients_nd (coef j) sizes /\ Forall2 inside As (as_list (coords j [f1 + k1; f2 + k2; f3 + k3]))) ->
  exists out', deriv_3d RA s1 s2 s3 m1 m2 m3 o1 o2 o3 nbatch f1 n1 f2 n2 f3 n3 coords coef out = Ok out' /\
    forall j, 0 <= j < nbatch -> on_mesh (out' j) [f1; f2; f3] [n1; n2; n3] /\
      forall k1 k2 k3, 0 <= k1 < n1 -> 0 <= k2 < n2 -> 0 <= k3 < n3 -> let '(x, y, z) := coords j [f1 + k1; f2 + k2; f3 + k3] in
        eval_no_bc_3d RA s1 s2 s3 m1 m2 m3 o1 o2 o3 x y z (coef j) = Ok (cn_at (out' j) [k1; k2; k3] : num RA).
Proof.
  intros Hb Hm Ho V1 V2 V3 H. destruct (deriv_nd_batched _ As three [o1; o2; o3] nbatch [f1; f2; f3] [n1; n2; n3] (fun j e => as_list (coords j e)) coef out Hb Hm Ho) as (out' & E & K); [apply three_of; assumption | |].
  - intros j idx Hj Hi. inversion Hi as [|? k1 ? i1 H1 Hi1]; subst. inversion Hi1 as [|? k2 ? i2 H2 Hi2]; subst. inversion Hi2 as [|? k3 ? i3 H3 Hi3]; subst. inversion Hi3; subst. exact (H j k1 k2 k3 Hj H1 H2 H3).
  - exists out'. split; [rewrite <- deriv_3; exact E|]. intros j Hj. destruct (K j Hj) as [K1 K2]. split; [exact K1|]. intros k1 k2 k3 H1 H2 H3. specialize (K2 [k1; k2; k3] ltac:(apply three_of; lia)).
    cbn [element_at combine map] in K2. destruct (coords j [f1 + k1; f2 + k2; f3 + k3]) as [[x y] z]. cbn [as_list] in K2. rewrite no_bc_3 in K2. exact K2.
Qed.
Theorem integrates_3d q1 q2 q3 k1 k2 k3 nbatch (coef : Z -> chunk_nd RA) (out : arr R) : 0 <= nbatch -> a_len out = nbatch ->
  (bs_uniform RA s1 = true -> ax_periodic A1 = false -> ax_degree A1 <= ax_cells A1) -> (bs_uniform RA s2 = true -> ax_periodic A2 = false -> ax_degree A2 <= ax_cells A2) ->
  (bs_uniform RA s3 = true -> ax_periodic A3 = false -> ax_degree A3 <= ax_cells A3) ->
  (forall j, 0 <= j < nbatch -> has_coefficients_nd (coef j) sizes /\ periodic_nd As (coefficient_nd (coef j))) ->
  exists out', integrate_3d RA s1 s2 s3 m1 m2 m3 q1 q2 q3 k1 k2 k3 0 (ax_size A1) 0 (ax_size A2) 0 (ax_size A3) nbatch coef out = Ok out' /\ a_len out' = nbatch /\
    forall j, 0 <= j < nbatch -> integral_nd (map (fun A => (ax_min A, ax_max A)) As) (spline_nd As (coefficient_nd (coef j))) (a_at out' j).
Proof.
  intros Hb Ho U1 U2 U3 H. destruct (integrate_nd_values _ As three [(q1, k1); (q2, k2); (q3, k3)] nbatch coef out eq_refl Hb Ho) as (out' & E & K); [apply three_of; assumption | exact H|].
  exists out'. split; [rewrite <- integrate_3; exact E | exact K].
Qed.
End Evaluator.

(** * Instances *)
(** Degree 3 on [0, 20] with 20 cells, the points 0, 1, ..., 20 and derivatives at both ends. *)
Definition slope_axis : axis := mk_axis 3 false 20 (uniform_knots 3 0 20 20) 0 20 HERMITE HERMITE 21 line_point.
Lemma slope_builder : exists s bd, builder_for GINKGO s slope_axis bd.
Proof.
  destruct (proj1 spaces_exist 0%nat 3 false 0%R 20%R 20 ltac:(lia) ltac:(lia) ltac:(lra) ltac:(lia)) as (s0 & Hs & _). exists (Uniform s0).
  assert (IP : interpolation GINKGO (Uniform s0) 3 false 20 (uniform_knots 3 0 20 20) 0 20 HERMITE HERMITE 0 21 line_coord line_point).
  { constructor; try discriminate; try lia.
    - exact Hs.
    - split; discriminate.
    - intros i Hi. split; [reflexivity|]. unfold line_point. split; apply IZR_le; lia.
    - intros _. vm_compute. reflexivity.
    - cbn -[Z.pow]. lia. }
  pose (m := mk_scratch (A := RA) (fun _ => 0%R) (fun _ => 0%R) (fun _ => 0%R) (fun _ _ => 0%R) (fun _ _ => 0%R) (fun _ _ => 0%R)).
  assert (Hinc : increasing_points 21 line_point) by (intros i j Hi Hij Hj; apply IZR_lt; lia).
  destruct (constructs GINKGO (Uniform s0) 3 false 20 _ 0%R 20%R HERMITE HERMITE 0 21 line_coord line_point IP Hinc eq_refl) with (m := m) as (off & Eo & K).
  { intros c [Hc H]. rewrite !circle_knot in H. pose proof (points_in_few 21 line_point (IZR (c - 3)) (IZR (c + 1 - 3)) (c - 3) ltac:(lia) ltac:(lia)) as L.
    assert (points_in 21 line_point (IZR (c - 3)) (IZR (c + 1 - 3)) <= 2); [|lia]. apply L. intros i Hi [G1 G2]. unfold line_point in *. apply le_IZR in G1, G2. lia. }
  destruct (K I) as (bd & Hbd & _). exists bd, 0, line_coord, m. split; [exact IP|]. split; [exact Hbd|]. split; [exact I | discriminate].
Qed.
