(** C42 and C53 for the constructor, and an instance of the hypotheses of C41. *)
From Coq Require Import Bool Reals Lia Lra ZifyBool List.
From Coquelicot Require Import Coquelicot.
From Verif Require Import BuilderSpec LoopModel LoopProofs BSplineMath BSplineDeriv IntegralMath IntegralProofs SamplingProofs LinearProofs LinearProofs2 LinearProofs3 LinearLemmas.
From Verif Require Import EvaluatorSpace EvaluatorProofs EvaluatorProofs2 EvaluatorLemmas BuilderMath BuilderProofs BuilderProofs2 BuilderProofs3 BuilderProofs4 BuilderGrid BuilderLemmas PointsModel PointsSpec PointsProofs BuilderPoints BuilderQuadrature.
Import ListNotations.
Local Open Scope bool_scope. Local Open Scope Z_scope.

Section Constructor.
Context (solver : spline_solver) (s : bspline_space RA) (d : Z) (periodic : bool) (ncells : Z) (t : Z -> R) (a b : R) (lower upper : closure)
  (start n : Z) (coord : Z -> res R) (x : Z -> R).
Context (IP : interpolation solver s d periodic ncells t a b lower upper start n coord x).
Let F : facts s d periodic ncells t a b := space_facts _ _ _ _ _ _ _ (i_space _ _ _ _ _ _ _ _ _ _ _ _ _ _ IP).
Let Hcompat : compatible_closures RA s lower upper = true := proj1 (closures_compat s periodic lower upper (f_per _ _ _ _ _ _ _ F)) (i_closures _ _ _ _ _ _ _ _ _ _ _ _ _ _ IP).
Lemma grid_rejected m : check_valid_grid RA s lower upper start n coord = Rejected -> builder_construct RA s m solver lower upper start n coord = Rejected.
Proof.
  intros E. unfold builder_construct. rewrite (f_rmin _ _ _ _ _ _ _ F). cbn [rbind]. rewrite (f_rmax _ _ _ _ _ _ _ F). cbn [rbind]. rewrite E. reflexivity.
Qed.
Theorem number_rejected m : n <> points_expected periodic d ncells lower upper -> builder_construct RA s m solver lower upper start n coord = Rejected.
Proof.
  intros Hne. apply grid_rejected. destruct (space_breaks _ _ _ _ _ _ _ (i_space _ _ _ _ _ _ _ _ _ _ _ _ _ _ IP)) as [Hfront Hknot].
  exact (valid_number s d periodic ncells t a b F Hfront Hknot start n coord x (i_points _ _ _ _ _ _ _ _ _ _ _ _ _ _ IP) lower upper Hcompat Hne).
Qed.
Lemma expected_bounds : n = points_expected periodic d ncells lower upper -> 0 <= n <= ncells + d.
Proof.
  intros En. pose proof (N_pos s d periodic ncells t a b F lower upper Hcompat) as HN. unfold points_expected in En.
  pose proof (f_n _ _ _ _ _ _ _ F). pose proof (f_d _ _ _ _ _ _ _ F). assert (Hq : forall cl, 0 <= equations cl d) by (intros [ | | | ]; cbn [equations]; try lia; apply Z.div_pos; lia).
  pose proof (Hq lower). pose proof (Hq upper). lia.
Qed.
Theorem crowded_rejected m c : increasing_points n x -> occupied t d ncells n x -> crowded t d ncells n x c -> builder_construct RA s m solver lower upper start n coord = Rejected.
Proof.
  intros Hinc Hocc Hcr. destruct (Z.eq_dec n (points_expected periodic d ncells lower upper)) as [En|En]; [|now apply number_rejected].
  apply grid_rejected. destruct (space_breaks _ _ _ _ _ _ _ (i_space _ _ _ _ _ _ _ _ _ _ _ _ _ _ IP)) as [Hfront Hknot]. pose proof (expected_bounds En).
  pose proof (i_start _ _ _ _ _ _ _ _ _ _ _ _ _ _ IP). pose proof (i_small _ _ _ _ _ _ _ _ _ _ _ _ _ _ IP).
  assert (Hs : 0 <= start /\ start + n < 2 ^ 63) by (pose proof (f_d _ _ _ _ _ _ _ F); lia).
  exact (valid_complete s d periodic ncells t a b F Hfront Hknot start n coord x ltac:(lia) Hs (i_points _ _ _ _ _ _ _ _ _ _ _ _ _ _ IP) Hinc lower upper Hcompat c Hocc Hcr).
Qed.
Theorem rejection_reason m : increasing_points n x -> builder_construct RA s m solver lower upper start n coord = Rejected ->
  n <> points_expected periodic d ncells lower upper \/ exists c, crowded t d ncells n x c.
Proof.
  intros Hinc Hrej. destruct (Z.eq_dec n (points_expected periodic d ncells lower upper)) as [En|En]; [right | now left]. pose proof (expected_bounds En) as Hb.
  apply (rejected_iff solver s d periodic ncells t a b lower upper start n coord x IP m) in Hrej; [|lia].
  destruct (space_breaks _ _ _ _ _ _ _ (i_space _ _ _ _ _ _ _ _ _ _ _ _ _ _ IP)) as [Hfront Hknot].
  pose proof (i_start _ _ _ _ _ _ _ _ _ _ _ _ _ _ IP). pose proof (i_small _ _ _ _ _ _ _ _ _ _ _ _ _ _ IP).
  assert (Hs : 0 <= start /\ start + n < 2 ^ 63) by (pose proof (f_d _ _ _ _ _ _ _ F); lia).
  destruct (valid_sound s d periodic ncells t a b F Hfront Hknot start n coord x ltac:(lia) Hs (i_points _ _ _ _ _ _ _ _ _ _ _ _ _ _ IP) Hinc lower upper Hcompat En) as [K | [_ K]]; [|exact K].
  change (num RA) with R in *. pose proof (eq_trans (eq_sym K) Hrej). discriminate.
Qed.
End Constructor.
Theorem rejected_exactly : forall solver s d periodic ncells t a b lower upper start n coord x,
  interpolation solver s d periodic ncells t a b lower upper start n coord x -> increasing_points n x -> occupied t d ncells n x ->
  forall m, builder_construct RA s m solver lower upper start n coord = Rejected <->
    n <> points_expected periodic d ncells lower upper \/ exists c, crowded t d ncells n x c.
Proof.
  intros until x. intros IP Hinc Hocc m. split; [now apply (rejection_reason solver s d periodic ncells t a b lower upper start n coord x IP)|].
  intros [H | [c H]]; [now apply (number_rejected solver s d periodic ncells t a b lower upper start n coord x IP) | now apply (crowded_rejected solver s d periodic ncells t a b lower upper start n coord x IP m c)].
Qed.

(** C53, and the same for the equations of closures. *)
Theorem stored_matrix : forall solver s d periodic ncells t a b lower upper start n coord x,
  interpolation solver s d periodic ncells t a b lower upper start n coord x ->
  forall m bd, builder_construct RA s m solver lower upper start n coord = Ok bd ->
  suited solver (bs_uniform RA s) periodic t a b d ncells lower upper x (bd_offset bd) ->
  let N := unknowns periodic d ncells in
  forall i j, 0 <= i < N -> 0 <= j < N -> get_element RA (bd_matrix bd) i j = Ok (collocation periodic t a b d ncells lower upper x (bd_offset bd) i j : num RA).
Proof.
  intros until x. intros IP m bd Hbd Hs N i j Hi Hj. destruct (constructed_points _ _ _ _ _ _ _ _ _ _ _ _ _ _ IP m bd Hbd) as [En Eo].
  pose proof (suited_representable _ _ _ _ _ _ _ _ _ _ _ _ _ _ IP En _ Eo Hs) as Hr.
  destruct (construct_facts solver s d periodic ncells t a b lower upper start n coord x IP m bd Hbd Hr) as (_ & _ & _ & p0 & hist & H1 & H2 & H3 & _ & H4).
  pose proof (shape_N s d periodic ncells lower upper solver) as EN.
  destruct (store_ok RA _ hist (i_matrix _ _ _ _ _ _ _ _ _ _ _ _ _ _ IP) H3) as (q0 & q & F1 & F2 & _ & G). assert (q0 = p0) as -> by congruence. rewrite H2 in F2.
  assert (q = bd_matrix bd) as -> by congruence. rewrite EN in G. rewrite G by assumption. cbn [nofz RA]. f_equal. apply H4; assumption.
Qed.
Theorem periodic_rows : forall solver s d ncells t a b start n coord x,
  interpolation solver s d true ncells t a b PERIODIC PERIODIC start n coord x ->
  forall m bd, builder_construct RA s m solver PERIODIC PERIODIC start n coord = Ok bd ->
  suited solver (bs_uniform RA s) true t a b d ncells PERIODIC PERIODIC x (bd_offset bd) ->
  n = ncells /\ exists A : Z -> Z -> R, (forall i j, 0 <= i < ncells -> 0 <= j < ncells -> get_element RA (bd_matrix bd) i j = Ok (A i j : num RA)) /\
  forall c, periodic_coefficients c d ncells -> forall i, 0 <= i < ncells ->
    rsum ncells (fun j => A i j * c ((j + bd_offset bd) mod ncells)%Z)%R = spline t b d ncells c (x i).
Proof.
  intros until x. intros IP m bd Hbd Hs. destruct (constructed_points _ _ _ _ _ _ _ _ _ _ _ _ _ _ IP m bd Hbd) as [En _]. cbn [points_expected unknowns equations] in En. unfold points_expected, unknowns in En. cbn [equations] in En.
  split; [lia|]. pose proof (space_facts _ _ _ _ _ _ _ (i_space _ _ _ _ _ _ _ _ _ _ _ _ _ _ IP)) as F.
  pose proof (proj1 (closures_compat s true PERIODIC PERIODIC (f_per _ _ _ _ _ _ _ F)) (conj eq_refl eq_refl)) as Hcompat.
  exists (collocation true t a b d ncells PERIODIC PERIODIC x (bd_offset bd)). split; [exact (stored_matrix solver s d true ncells t a b PERIODIC PERIODIC start n coord x IP m bd Hbd Hs)|].
  intros c Hc i Hi.
  destruct (row_meaning s d true ncells t a b F PERIODIC PERIODIC Hcompat x (fun j => c ((j + bd_offset bd) mod ncells)) c (bd_offset bd)) as (P1 & _).
  - intros k Hk. cbn iota. rewrite Zplus_mod_idemp_l. replace (k - bd_offset bd + bd_offset bd) with k by ring. pose proof (f_n _ _ _ _ _ _ _ F). apply (coef_mod s d true ncells t a b F c Hc (Z.to_nat (k + 1)) k); nia.
  - cbn [unknowns equations] in P1. apply (P1 i). lia.
Qed.
(** Positions that do not start near 0. *)
Theorem shifted_domain : forall solver s d ncells a b start n coord x,
  let t := uniform_knots d a b ncells in
  interpolation solver s d true ncells t a b PERIODIC PERIODIC start n coord x -> n = ncells -> bs_uniform RA s = true ->
  (forall i, 0 <= i < ncells -> x i = greville t d (i + d / 2)) -> d / 2 < start ->
  forall m bd, builder_construct RA s m solver PERIODIC PERIODIC start n coord = Ok bd ->
  forall X junk sp v dl du c, build RA s PERIODIC PERIODIC X bd junk sp v dl du <> Ok c.
Proof.
  intros until x. intros t IP Hn Hu Hx Hs m bd Hbd X junk sp v dl du c Hb. pose proof (space_facts _ _ _ _ _ _ _ (i_space _ _ _ _ _ _ _ _ _ _ _ _ _ _ IP)) as F.
  pose proof (proj1 (closures_compat s true PERIODIC PERIODIC (f_per _ _ _ _ _ _ _ F)) (conj eq_refl eq_refl)) as Hcompat.
  destruct (construct_inv s d true ncells t a b F PERIODIC PERIODIC m solver start n coord bd Hbd) as [_ E].
  pose proof (uniform_offset solver s d ncells a b start n coord x IP Hn Hu Hx m) as E'. change (num RA) with R in *. rewrite E in E'. assert (Ho : bd_offset bd = d / 2 - start) by congruence.
  unfold build in Hb. rewrite (f_per _ _ _ _ _ _ _ F) in Hb. cbn [put_closure] in Hb.
  destruct (assert_ _ _) eqn:E1 in Hb; [|discriminate|discriminate].
  unfold assert_ in E1 at 1. destruct (_ =? _) in E1; [|discriminate]. unfold assert_ in E1 at 1. destruct (_ && _) in E1; [|discriminate].
  cbn [rbind] in E1. unfold fill_part in E1 at 1. unfold inside in E1 at 1. rewrite Ho in E1. replace (0 <=? d / 2 - start) with false in E1 by lia. cbn [andb assert_ rbind] in E1. discriminate.
Qed.

(** An instance: splines of degree 1 on two cells of length 1, with the break points as points. *)
Definition line_point (i : Z) : R := IZR i.
Definition line_coord (i : Z) : res R := Ok (IZR i).
Definition unit3 (i j : Z) : R := if i =? j then 1%R else 0%R.
Definition is_unit3 (A : Z -> Z -> R) : bool :=
  forallb (fun i => forallb (fun j => if Req_EM_T (A i j) (unit3 i j) then true else false) [0; 1; 2]) [0; 1; 2].
Definition solve_unit3 (a : arr2 R) (tr : bool) (b : arr R) : res (arr R) :=
  if (a2_n a =? 3) && (a2_m a =? 3) && is_unit3 (a2_at a) then Ok b else Rejected.
Definition unit_solvers : solvers RA := @mk_solvers RA solve_unit3 (fun _ _ _ _ _ => Rejected) (fun _ _ => Rejected) (fun _ _ _ => Rejected) solve_unit3.
Lemma unit3_spec A : is_unit3 A = true <-> forall i j, 0 <= i < 3 -> 0 <= j < 3 -> A i j = unit3 i j.
Proof.
  unfold is_unit3. split.
  - intros H i j Hi Hj. rewrite forallb_forall in H. specialize (H i ltac:(cbn; lia)). rewrite forallb_forall in H. specialize (H j ltac:(cbn; lia)). now destruct (Req_EM_T (A i j) (unit3 i j)).
  - intros H. apply forallb_forall. intros i Hi. apply forallb_forall. intros j Hj. destruct (Req_EM_T _ _) as [|C]; [reflexivity|]. exfalso. apply C, H; cbn in Hi, Hj; lia.
Qed.
Lemma unit_exact : exact_solvers unit_solvers.
Proof.
  assert (K : forall a tr, a2_m a = a2_n a -> exact_for (a2_n a) (a2_at a) tr (solve_unit3 a tr)).
  { intros a tr Ha b x Hb E. unfold solve_unit3 in E. destruct ((a2_n a =? 3) && (a2_m a =? 3)) eqn:E1; [|discriminate]. cbn [andb] in E. destruct (is_unit3 (a2_at a)) eqn:E2; [|discriminate].
    assert (x = b) as -> by congruence. split; [exact Hb|]. rewrite unit3_spec in E2. assert (a2_n a = 3) as -> by lia. intros i Hi.
    transitivity (rsum 3 (fun j => unit3 i j * a_at b j)%R). { apply rsum_ext. intros j Hj. destruct tr; rewrite E2 by lia; [|reflexivity]. unfold unit3. rewrite Z.eqb_sym. reflexivity. }
    assert (i = 0 \/ i = 1 \/ i = 2) as [-> | [-> | ->]] by lia; unfold rsum; change (Z.to_nat 3) with 3%nat; cbn; ring. }
  split; [exact K|]. split; [discriminate|]. split; [discriminate|]. split; [discriminate | exact K].
Qed.
Lemma unit_total : forall A : arr2 R, a2_n A = 3 -> a2_m A = 3 -> (forall i j, 0 <= i < 3 -> 0 <= j < 3 -> a2_at A i j = unit3 i j) -> forall tr, total_for 3 (bicgstab unit_solvers A tr).
Proof.
  intros A H1 H2 H3 tr b Hb. cbn [bicgstab unit_solvers]. unfold solve_unit3. rewrite (proj2 (unit3_spec _) H3). change (num RA) with R in *. rewrite H1, H2. cbn [Z.eqb Pos.eqb andb]. exists b. now split.
Qed.
Lemma line_knot k : uniform_knots 1 0 2 2 k = IZR (k - 1). Proof. unfold uniform_knots. field. Qed.
Lemma line_collocation i j : 0 <= i < 3 -> 0 <= j < 3 -> collocation false (uniform_knots 1 0 2 2) 0 2 1 2 GREVILLE GREVILLE line_point 0 i j = unit3 i j.
Proof.
  intros Hi Hj. unfold collocation, unknowns. cbn [equations]. replace (i <? 0) with false by lia. replace (i <? 2 + 1 - 0) with true by lia. change (Z.to_nat 1) with 1%nat.
  assert (i = 0 \/ i = 1 \/ i = 2) as Ei by lia. assert (j = 0 \/ j = 1 \/ j = 2) as Ej by lia.
  destruct Ei as [-> | [-> | ->]], Ej as [-> | [-> | ->]]; unfold bspline, unit3, line_point; cbn [cox_de_boor Z.eqb Pos.eqb]; unfold indicator, ratio; cbn [Z.of_nat Pos.of_succ_nat Z.add Z.sub Z.opp Z.pos_sub Pos.add Pos.succ Pos.pred_double];
    rewrite ?line_knot; cbn [Z.of_nat Pos.of_succ_nat Z.add Z.sub Z.opp Z.pos_sub Pos.add Pos.succ Pos.pred_double];
    repeat match goal with |- context [Req_EM_T ?u ?v] => destruct (Req_EM_T u v); try (exfalso; lra) | |- context [Rle_dec ?u ?v] => destruct (Rle_dec u v); try (exfalso; lra) | |- context [Rlt_dec ?u ?v] => destruct (Rlt_dec u v); try (exfalso; lra) end; lra.
Qed.
Lemma line_not_crowded c : ~ crowded (uniform_knots 1 0 2 2) 1 2 3 line_point c.
Proof.
  intros [Hc H]. unfold points_in in H. rewrite !line_knot in H. change (Z.to_nat 3) with 3%nat in H. cbn [seq filter] in H. unfold line_point in H.
  change (Z.of_nat 0) with 0 in H. change (Z.of_nat 1) with 1 in H. change (Z.of_nat 2) with 2 in H.
  assert (c = 1 \/ c = 2) as [-> | ->] by lia; cbn [Z.sub Z.add Z.opp Z.pos_sub Pos.add Pos.succ Pos.pred_double Pos.add_carry] in H;
    repeat match type of H with context [Rle_dec ?u ?v] => destruct (Rle_dec u v); try (exfalso; lra) end; cbn in H; lia.
Qed.
Lemma line_increasing : increasing_points 3 line_point. Proof. intros i j Hi Hij Hj. apply IZR_lt. lia. Qed.
Lemma line_occupied : occupied (uniform_knots 1 0 2 2) 1 2 3 line_point.
Proof. intros c Hc. exists (c - 1). split; [lia|]. rewrite !line_knot. unfold line_point. split; [lra|]. apply IZR_lt. lia. Qed.
Lemma line_problem solver : exists s, interpolation solver s 1 false 2 (uniform_knots 1 0 2 2) 0 2 GREVILLE GREVILLE 0 3 line_coord line_point.
Proof.
  destruct (proj1 spaces_exist 0%nat 1 false 0%R 2%R 2 ltac:(lia) ltac:(lia) ltac:(lra) ltac:(lia)) as (s & Hs & _). exists (Uniform s). constructor; try discriminate; try lia.
  - exact Hs.
  - split; discriminate.
  - intros i Hi. split; [reflexivity|]. unfold line_point. split; apply IZR_le; lia.
  - destruct solver; cbn; lia.
Qed.
Lemma line_suited solver s : spline_space s 1 false 2 (uniform_knots 1 0 2 2) 0 2 -> suited solver (bs_uniform RA s) false (uniform_knots 1 0 2 2) 0 2 1 2 GREVILLE GREVILLE line_point 0.
Proof.
  intros Hs. apply greville_suited; [exact Hs|]. intros i Hi. rewrite greville_uniform by lia. rewrite line_knot. cbn [equations]. unfold line_point. rewrite Z.add_0_r, minus_IZR. field.
Qed.
Lemma line_construct solver s m : interpolation solver s 1 false 2 (uniform_knots 1 0 2 2) 0 2 GREVILLE GREVILLE 0 3 line_coord line_point ->
  exists bd, builder_construct RA s m solver GREVILLE GREVILLE 0 3 line_coord = Ok bd /\ bd_offset bd = 0.
Proof.
  intros IP. destruct (constructs _ _ _ _ _ _ _ _ _ _ _ _ _ _ IP line_increasing eq_refl line_not_crowded m) as (off & E & K).
  assert (Ho : off = 0). { unfold compute_offset in E. rewrite (f_per _ _ _ _ _ _ _ (space_facts _ _ _ _ _ _ _ (i_space _ _ _ _ _ _ _ _ _ _ _ _ _ _ IP))) in E. congruence. }
  subst off. exact (K (line_suited solver s (i_space _ _ _ _ _ _ _ _ _ _ _ _ _ _ IP))).
Qed.

(** What the evaluator then returns. *)
Lemma falling_mono d k k' : 0 <= d -> (k <= k')%nat -> Z.of_nat k' <= d -> 1 <= falling_z d k <= falling_z d k'.
Proof.
  intros Hd Hk Hk'. induction k' as [|k' IH].
  - assert (k = 0%nat) as -> by lia. cbn. lia.
  - destruct (Nat.eq_dec k (S k')) as [-> | Ne].
    + split; [|lia]. assert (G : forall j, Z.of_nat j <= d -> 1 <= falling_z d j). { induction j as [|j IHj]; intros Hj; cbn [falling_z]; [lia|]. specialize (IHj ltac:(lia)). nia. } now apply G.
    + specialize (IH ltac:(lia) ltac:(lia)). cbn [falling_z]. nia.
Qed.
Section Evaluates.
Context (solver : spline_solver) (s : bspline_space RA) (d : Z) (periodic : bool) (ncells : Z) (t : Z -> R) (a b : R) (lower upper : closure)
  (start n : Z) (coord : Z -> res R) (x : Z -> R).
Context (IP : interpolation solver s d periodic ncells t a b lower upper start n coord x).
Context (v : Z -> R) (dl du : option (chunk_1d RA)) (c : chunk_1d RA) (Hc : has_coefficients c (ncells + d))
  (HI : interpolates periodic t a b d ncells n lower upper x v dl du (coefficient c)).
Let HS := i_space _ _ _ _ _ _ _ _ _ _ _ _ _ _ IP.
Let F : facts s d periodic ncells t a b := space_facts _ _ _ _ _ _ _ HS.
Lemma strict i j : d <= i -> i < j -> j <= d + ncells -> (t i < t j)%R.
Proof. intros H1 H2 H3. pose proof (f_cell _ _ _ _ _ _ _ F i ltac:(lia)). pose proof (f_mono _ _ _ _ _ _ _ F (i + 1) j ltac:(lia)). lra. Qed.
Lemma end_derivative m k z w g cl i : (z = a /\ k = d) \/ (z = b /\ k = d + ncells - 1) -> is_hermite cl = true -> (is_hermite cl = true -> is_hermite lower || is_hermite upper = true) -> 0 <= i < equations cl d ->
  nth_derivative (BuilderSpec.order d i) (spline_piece t k d ncells (coefficient c)) g -> g z = w ->
  eval_no_bc RA s m (if i + d mod 2 =? 0 then None else Some (i + d mod 2)) z c = Ok (w : num RA).
Proof.
  intros Hz Hh Hw Hi Hg <-. pose proof (f_d _ _ _ _ _ _ _ F) as Hd. pose proof (f_n _ _ _ _ _ _ _ F) as Hn. pose proof (f_ab _ _ _ _ _ _ _ F) as Hab.
  pose proof (f_first _ _ _ _ _ _ _ F) as Ea. pose proof (f_last _ _ _ _ _ _ _ F) as Eb.
  assert (Ho : equations cl d = d / 2) by (destruct cl; try discriminate; reflexivity). pose proof (Z_div_mod_eq_full d 2) as E2. pose proof (Z.mod_pos_bound d 2 ltac:(lia)) as B2.
  assert (Hzab : (a <= z <= b)%R) by (destruct Hz as [[-> _] | [-> _]]; lra).
  assert (Hpiece : forall cc, d <= cc < d + ncells -> (t cc <= z <= t (cc + 1)%Z)%R -> cc = k).
  { intros cc Hcc Hin. destruct Hz as [[-> ->] | [-> ->]].
    - destruct (Z.eq_dec cc d); [assumption|]. pose proof (strict d cc ltac:(lia) ltac:(lia) ltac:(lia)). lra.
    - destruct (Z.eq_dec cc (d + ncells - 1)); [assumption|]. pose proof (strict (cc + 1) (d + ncells) ltac:(lia) ltac:(lia) ltac:(lia)). lra. }
  destruct (i + d mod 2 =? 0) eqn:E0.
  - unfold BuilderSpec.order in Hg. replace (Z.to_nat (i + d mod 2)) with 0%nat in Hg by lia. cbn [nth_derivative] in Hg. rewrite <- Hg.
    assert (Hk : d <= k < d + ncells) by lia. assert (Hin : (t k <= z <= t (k + 1)%Z)%R).
    { destruct Hz as [[-> ->] | [-> ->]]; [rewrite Ea; pose proof (f_mono _ _ _ _ _ _ _ F d (d + 1) ltac:(lia)); lra|]. replace (d + ncells - 1 + 1) with (d + ncells) by ring. rewrite Eb. pose proof (f_mono _ _ _ _ _ _ _ F (d + ncells - 1) (d + ncells) ltac:(lia)). lra. }
    rewrite (eval_no_bc_ok s d periodic ncells t a b F m c z Hc Hzab). f_equal. exact (piece_closed s d periodic ncells t a b F k (coefficient c) z Hk Hin).
  - assert (Hfal : falling_z d (Z.to_nat (i + d mod 2)) < 2 ^ 31).
    { pose proof (i_factorials _ _ _ _ _ _ _ _ _ _ _ _ _ _ IP (Hw Hh)). pose proof (falling_mono d (Z.to_nat (i + d mod 2)) (Z.to_nat (d / 2)) ltac:(lia) ltac:(lia) ltac:(lia)). lia. }
    destruct (deriv_value s d periodic ncells t a b HS m c z (i + d mod 2) Hc Hzab ltac:(lia) Hfal) as (cc & g' & Hcc & Hlt & Hin & _ & Hg' & E).
    rewrite E. f_equal. rewrite (Hpiece cc Hcc Hin) in Hg'. exact (nd_unique _ _ _ _ _ (fun _ => eq_refl) Hg' Hg z).
Qed.
Theorem evaluates_section m el eu :
  (forall i, 0 <= i < n -> eval RA s m el eu (x i) c = Ok (v i : num RA)) /\
  (forall i, 0 <= i < equations lower d -> eval_no_bc RA s m (if i + d mod 2 =? 0 then None else Some (i + d mod 2)) a c = Ok (asked lower dl i : num RA)) /\
  (forall i, 0 <= i < equations upper d -> eval_no_bc RA s m (if i + d mod 2 =? 0 then None else Some (i + d mod 2)) b c = Ok (asked upper du i : num RA)).
Proof.
  destruct HI as (H1 & H2 & H3 & _).
  assert (Hh : forall cl i, 0 <= i < equations cl d -> is_hermite cl = true) by (intros [ | | | ] i Hi; cbn [equations] in Hi; try lia; reflexivity).
  split; [|split].
  - intros i Hi. rewrite (eval_inside s d periodic ncells t a b HS m el eu c (x i) Hc (proj2 (i_points _ _ _ _ _ _ _ _ _ _ _ _ _ _ IP i Hi))). f_equal. apply H1. exact Hi.
  - intros i Hi. destruct (H2 i Hi) as (g & Hg & Ew). apply (end_derivative m d a _ g lower i); [now left | now apply (Hh lower i) | intros ->; reflexivity | exact Hi | exact Hg | exact Ew].
  - intros i Hi. destruct (H3 i Hi) as (g & Hg & Ew). apply (end_derivative m (d + ncells - 1) b _ g upper i); [now right | now apply (Hh upper i) | intros ->; apply orb_true_r | exact Hi | exact Hg | exact Ew].
Qed.
End Evaluates.
Theorem evaluates : forall solver s d periodic ncells t a b lower upper start n coord x,
  interpolation solver s d periodic ncells t a b lower upper start n coord x ->
  forall v dl du c, has_coefficients c (ncells + d) -> interpolates periodic t a b d ncells n lower upper x v dl du (coefficient c) ->
  forall m el eu,
  (forall i, 0 <= i < n -> eval RA s m el eu (x i) c = Ok (v i : num RA)) /\
  (forall i, 0 <= i < equations lower d -> eval_no_bc RA s m (if i + d mod 2 =? 0 then None else Some (i + d mod 2)) a c = Ok (asked lower dl i : num RA)) /\
  (forall i, 0 <= i < equations upper d -> eval_no_bc RA s m (if i + d mod 2 =? 0 then None else Some (i + d mod 2)) b c = Ok (asked upper du i : num RA)).
Proof.
  intros until x. intros IP v dl du c Hc HI m el eu. exact (evaluates_section solver s d periodic ncells t a b lower upper start n coord x IP v dl du c Hc HI m el eu).
Qed.

(** C43 *)
Theorem quadrature_plain : forall solver s d periodic ncells t a b lower upper start n coord x,
  interpolation solver s d periodic ncells t a b lower upper start n coord x ->
  forall m bd, builder_construct RA s m solver lower upper start n coord = Ok bd ->
  suited solver (bs_uniform RA s) periodic t a b d ncells lower upper x (bd_offset bd) ->
  (bs_uniform RA s = true -> periodic = false -> d <= ncells) -> (periodic = true -> bs_uniform RA s = true \/ bd_offset bd = 0) ->
  none_negligible (shape_of (problem_of solver (bs_uniform RA s) periodic d ncells lower upper)) (collocation periodic t a b d ncells lower upper x (bd_offset bd)) ->
  lower <> HOMOGENEOUS_HERMITE -> upper <> HOMOGENEOUS_HERMITE ->
  forall X q junk junk_rows (wl w wu : arr R), exact_solvers X ->
  quadrature_coefficients RA s m lower upper X bd q junk junk_rows = Ok (wl, w, wu) ->
  a_len wl = given_derivatives lower d /\ a_len wu = given_derivatives upper d /\ a_len w = n /\
  forall v dl du c, interpolates periodic t a b d ncells n lower upper x v dl du c ->
    integral (spline t b d ncells c) a b
      (weighted (given_derivatives lower d) n (given_derivatives upper d) (a_at wl) (a_at w) (a_at wu) (asked lower dl) v (asked upper du)).
Proof.
  intros until x. intros IP m bd Hbd Hs Hfew Hoff Hneg Hl Hu X q junk junk_rows wl w wu HX Eq.
  assert (Hz : forall cl, cl <> HOMOGENEOUS_HERMITE -> equations cl d - given_derivatives cl d = 0) by (intros [ | | | ] Hcl; cbn [equations given_derivatives]; try lia; contradiction).
  destruct (quadrature_exact solver s d periodic ncells t a b lower upper start n coord x IP m bd Hbd Hs Hfew Hoff Hneg X q junk junk_rows wl w wu HX Eq) as (A1 & A2 & A3 & K).
  rewrite (Hz lower Hl), (Hz upper Hu) in A3. split; [exact A1|]. split; [exact A2|]. split; [lia|]. intros v dl du c HI. specialize (K v dl du c HI).
  rewrite (Hz lower Hl) in K. unfold weighted in *. rewrite (rsum_ext n (fun i => a_at w i * v i)%R (fun i => a_at w (i + 0)%Z * v i)%R); [exact K|]. intros i Hi. now rewrite Z.add_0_r.
Qed.
Theorem quadrature_runs : forall solver s d periodic ncells t a b lower upper start n coord x,
  interpolation solver s d periodic ncells t a b lower upper start n coord x ->
  forall m bd, builder_construct RA s m solver lower upper start n coord = Ok bd ->
  suited solver (bs_uniform RA s) periodic t a b d ncells lower upper x (bd_offset bd) ->
  (bs_uniform RA s = true -> periodic = false -> d <= ncells) ->
  let sh := shape_of (problem_of solver (bs_uniform RA s) periodic d ncells lower upper) in 1 <= sh_main sh \/ sh_kind sh = General ->
  forall X q junk junk_rows, total_solvers X ->
  exists wl w wu, quadrature_coefficients RA s m lower upper X bd q junk junk_rows = Ok (wl, w, wu).
Proof.
  intros until x. intros IP m bd Hbd Hs Hfew sh Hsh X q junk junk_rows HX. destruct (constructed_points _ _ _ _ _ _ _ _ _ _ _ _ _ _ IP m bd Hbd) as [En Eo].
  pose proof (suited_representable _ _ _ _ _ _ _ _ _ _ _ _ _ _ IP En _ Eo Hs) as Hr.
  exact (quadrature_total solver s d periodic ncells t a b lower upper start n coord x IP m bd Hbd Hr Hfew X q junk junk_rows HX Hsh).
Qed.
Theorem quadrature_shift : forall solver s d ncells t a b start n coord x,
  interpolation solver s d true ncells t a b PERIODIC PERIODIC start n coord x ->
  forall m bd, builder_construct RA s m solver PERIODIC PERIODIC start n coord = Ok bd ->
  suited solver (bs_uniform RA s) true t a b d ncells PERIODIC PERIODIC x (bd_offset bd) ->
  none_negligible (shape_of (problem_of solver (bs_uniform RA s) true d ncells PERIODIC PERIODIC)) (collocation true t a b d ncells PERIODIC PERIODIC x (bd_offset bd)) ->
  forall X q junk junk_rows (wl w wu : arr R), exact_solvers X ->
  quadrature_coefficients RA s m PERIODIC PERIODIC X bd q junk junk_rows = Ok (wl, w, wu) ->
  forall v dl du c, interpolates true t a b d ncells n PERIODIC PERIODIC x v dl du c ->
    integral (spline t b d ncells (fun j => c ((j mod ncells + bd_offset bd) mod ncells))) a b (rsum n (fun i => a_at w i * v i)%R).
Proof.
  intros until x. intros IP m bd Hbd Hs Hneg X q junk junk_rows wl w wu HX Eq v dl du c HI. pose proof (i_space _ _ _ _ _ _ _ _ _ _ _ _ _ _ IP) as HS. pose proof (space_facts _ _ _ _ _ _ _ HS) as F.
  destruct (constructed_points _ _ _ _ _ _ _ _ _ _ _ _ _ _ IP m bd Hbd) as [En Eo].
  pose proof (suited_representable _ _ _ _ _ _ _ _ _ _ _ _ _ _ IP En _ Eo Hs) as Hr.
  destruct (quadrature_pairing solver s d true ncells t a b PERIODIC PERIODIC start n coord x IP m bd Hbd Hr ltac:(discriminate) X q junk junk_rows wl w wu HX Hneg Eq) as (_ & _ & _ & w0 & W & P).
  specialize (P v dl du c HI). cbn [given_derivatives equations] in P. unfold weighted in P. rewrite (rsum_ext n (fun i => a_at w i * v i)%R (fun i => a_at w (i + (0 - 0))%Z * v i)%R) by (intros i Hi; now rewrite Z.add_0_r).
  replace (rsum n (fun i => a_at w (i + (0 - 0))%Z * v i)%R) with (rsum (unknowns true d ncells) (fun j => w0 j * of_spline true ncells bd c j)%R).
  2:{ rewrite P. change (rsum 0 _) with 0%R. ring. }
  clear P. unfold unknowns in *. unfold of_spline. rewrite rsum_zsum. pose proof (f_n _ _ _ _ _ _ _ F) as Hn.
  assert (Hper : true = true -> periodic_coefficients (fun j => c ((j mod ncells + bd_offset bd) mod ncells)) d ncells).
  { intros _ i Hi. replace ((ncells + i) mod ncells) with (i mod ncells); [reflexivity|]. replace (ncells + i) with (i + 1 * ncells) by ring. now rewrite Z.mod_add by lia. }
  pose proof (spline_integral s d true ncells t a b F _ w0 Hper W) as K. cbn iota in K. unfold integral in *.
  rewrite (zsum_ext _ _ (fun i => c ((i mod ncells + bd_offset bd) mod ncells)%Z * w0 i)%R); [exact K|]. intros i Hi. rewrite (Z.mod_small i ncells) by lia. ring.
Qed.
(** An instance for periodic spaces. *)
Lemma circle_knot k : uniform_knots 3 0 20 20 k = IZR (k - 3). Proof. unfold uniform_knots. field. Qed.
Lemma points_in_few n (x : Z -> R) lo hi k : 0 <= n -> 0 <= k -> (forall i, 0 <= i < n -> (lo <= x i <= hi)%R -> k <= i <= k + 1) -> points_in n x lo hi <= 2.
Proof.
  intros Hn Hk H. unfold points_in. set (f := fun k0 : nat => _). assert (Hf : forall j, In j (seq 0 (Z.to_nat n)) -> f j = true -> j = Z.to_nat k \/ j = S (Z.to_nat k)).
  { intros j Hj Ej. apply in_seq in Hj. unfold f in Ej. destruct (Rle_dec lo (x (Z.of_nat j))) as [L|]; [|discriminate]. destruct (Rle_dec (x (Z.of_nat j)) hi) as [L'|]; [|discriminate].
    specialize (H (Z.of_nat j) ltac:(lia) (conj L L')). lia. }
  assert (Hnd : NoDup (filter f (seq 0 (Z.to_nat n)))) by (apply NoDup_filter, seq_NoDup).
  assert (Hinc : incl (filter f (seq 0 (Z.to_nat n))) [Z.to_nat k; S (Z.to_nat k)]).
  { intros j Hj. apply filter_In in Hj. destruct (Hf j (proj1 Hj) (proj2 Hj)) as [-> | ->]; cbn; tauto. }
  pose proof (NoDup_incl_length Hnd Hinc) as L. cbn [length] in L. lia.
Qed.
Lemma circle : forall solver, exists s, interpolation solver s 3 true 20 (uniform_knots 3 0 20 20) 0 20 PERIODIC PERIODIC 0 20 line_coord line_point /\
  forall m, exists bd, builder_construct RA s m solver PERIODIC PERIODIC 0 20 line_coord = Ok bd /\
  suited solver (bs_uniform RA s) true (uniform_knots 3 0 20 20) 0 20 3 20 PERIODIC PERIODIC line_point (bd_offset bd).
Proof.
  intros solver. destruct (proj1 spaces_exist 0%nat 3 true 0%R 20%R 20 ltac:(lia) ltac:(lia) ltac:(lra) ltac:(lia)) as (s0 & Hs & _). exists (Uniform s0).
  assert (IP : interpolation solver (Uniform s0) 3 true 20 (uniform_knots 3 0 20 20) 0 20 PERIODIC PERIODIC 0 20 line_coord line_point).
  { constructor; try discriminate; try lia.
    - exact Hs.
    - split; reflexivity.
    - intros i Hi. split; [reflexivity|]. unfold line_point. split; apply IZR_le; lia.
    - destruct solver; cbn -[Z.pow]; [|lia]. unfold periodic_storage. cbn -[Z.pow]. lia. }
  split; [exact IP|]. intros m.
  assert (Hx : forall i, 0 <= i < 20 -> line_point i = greville (uniform_knots 3 0 20 20) 3 (i + 3 / 2)).
  { intros i Hi. rewrite greville_uniform by lia. rewrite circle_knot. unfold line_point. change (3 / 2) with 1. rewrite minus_IZR, plus_IZR. field. }
  assert (Hinc : increasing_points 20 line_point) by (intros i j Hi Hij Hj; apply IZR_lt; lia).
  destruct (constructs solver (Uniform s0) 3 true 20 _ 0%R 20%R PERIODIC PERIODIC 0 20 line_coord line_point IP Hinc eq_refl) with (m := m) as (off & Eo & K).
  { intros c [Hc H]. rewrite !circle_knot in H. pose proof (points_in_few 20 line_point (IZR (c - 3)) (IZR (c + 1 - 3)) (c - 3) ltac:(lia) ltac:(lia)) as L.
    assert (points_in 20 line_point (IZR (c - 3)) (IZR (c + 1 - 3)) <= 2); [|lia]. apply L. intros i Hi [G1 G2]. unfold line_point in *. apply le_IZR in G1, G2. lia. }
  pose proof (uniform_offset solver (Uniform s0) 3 20 0%R 20%R 0 20 line_coord line_point IP eq_refl eq_refl Hx m) as Eo'. change (num RA) with R in *. rewrite Eo in Eo'. assert (off = 3 / 2) as -> by (assert (off = 3 / 2 - 0) by congruence; lia).
  pose proof (uniform_suited solver (Uniform s0) 3 20 0%R 20%R 0 20 line_coord line_point IP eq_refl Hx) as Hsu.
  destruct (K Hsu) as (bd & Hbd & Eb). exists bd. split; [exact Hbd|]. rewrite Eb. exact Hsu.
Qed.

Lemma own_domain (s : bspline_space RA) w :
  0 <= bs_degree RA s < 2 ^ 31 -> c1_front RA w = fst (derivs_domain RA s HERMITE) -> c1_size RA w = snd (derivs_domain RA s HERMITE) ->
  derivatives_given HERMITE (bs_degree RA s) (Some w) <-> bs_degree RA s mod 2 = 1.
Proof.
  intros Hd H1 H2. cbn [derivatives_given derivs_domain fst snd s_nbv n_boundary_equations] in *. rewrite H1, H2, i32_small by (pose proof (Z.div_le_upper_bound (bs_degree RA s) 2 (bs_degree RA s)); pose proof (Z.div_pos (bs_degree RA s) 2); lia). split.
  - intros [H _]. now symmetry.
  - intros H. now split.
Qed.
