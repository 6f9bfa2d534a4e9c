(** The theorems on the builder, in the form of the properties. *)
From Coq Require Import Bool Reals Lia Lra ZifyBool List.
From Coquelicot Require Import Coquelicot.
From Verif Require Import BuilderSpec BuilderMath BuilderProofs BuilderProofs2 BuilderProofs3 BuilderProofs4 BuilderBand BuilderGrid.
From Verif Require Import LoopModel LoopProofs SamplingProofs EvaluatorSpace EvaluatorLemmas LinearLemmas LinearProofs LinearProofs2.
Import ListNotations.
Local Open Scope Z_scope.
Local Arguments Z.pow : simpl never.

(** ** C41 *)
Lemma space_uniform s d periodic ncells t a b : spline_space s d periodic ncells t a b -> bs_uniform RA s = true -> t = uniform_knots d a b ncells.
Proof. intros S. destruct S; cbn [bs_uniform]; intros H'; [reflexivity | discriminate]. Qed.
Theorem interpolates_exact : forall solver s d periodic ncells t a b lower upper start n coord x,
  interpolation solver s d periodic ncells t a b lower upper start n coord x ->
  forall m bd, builder_construct RA s m solver lower upper start n coord = Ok bd ->
  let sh := shape_of (problem_of solver (bs_uniform RA s) periodic d ncells lower upper) in
  let M := collocation periodic t a b d ncells lower upper x (bd_offset bd) in
  representable sh M -> none_negligible sh M ->
  forall X junk sp v dl du c, exact_solvers X -> has_coefficients sp (ncells + d) -> build RA s lower upper X bd junk sp v dl du = Ok c ->
  has_coefficients c (ncells + d) /\ interpolates periodic t a b d ncells n lower upper x (a_at v) dl du (coefficient c).
Proof. intros until x. intros IP m bd Hbd sh M Hr Hn X junk sp v dl du c HX Hsp Hb. exact (build_exact solver s d periodic ncells t a b lower upper start n coord x IP m bd Hbd Hr X junk sp v dl du Hsp c HX Hn Hb). Qed.

Theorem sparse_exact : forall s d periodic ncells t a b lower upper start n coord x,
  interpolation GINKGO s d periodic ncells t a b lower upper start n coord x ->
  forall m bd, builder_construct RA s m GINKGO lower upper start n coord = Ok bd ->
  forall X junk sp v dl du c, exact_solvers X -> has_coefficients sp (ncells + d) -> build RA s lower upper X bd junk sp v dl du = Ok c ->
  has_coefficients c (ncells + d) /\ interpolates periodic t a b d ncells n lower upper x (a_at v) dl du (coefficient c).
Proof.
  intros until x. intros IP m bd Hbd X junk sp v dl du c HX Hsp Hb.
  exact (build_exact GINKGO s d periodic ncells t a b lower upper start n coord x IP m bd Hbd (sparse_representable _ _ _ _ _ _ _) X junk sp v dl du Hsp c HX (sparse_negligible _ _ _ _ _ _ _) Hb).
Qed.

Lemma offset_open solver s d ncells t a b lower upper start n coord x m bd : interpolation solver s d false ncells t a b lower upper start n coord x ->
  builder_construct RA s m solver lower upper start n coord = Ok bd -> bd_offset bd = 0.
Proof.
  intros IP Hbd. pose proof (space_facts _ _ _ _ _ _ _ (i_space _ _ _ _ _ _ _ _ _ _ _ _ _ _ IP)) as F.
  pose proof (proj1 (closures_compat s false lower upper (f_per _ _ _ _ _ _ _ F)) (i_closures _ _ _ _ _ _ _ _ _ _ _ _ _ _ IP)) as Hcompat.
  destruct (construct_inv s d false ncells t a b F lower upper m solver start n coord bd Hbd) as [_ E].
  unfold compute_offset in E. rewrite (f_per _ _ _ _ _ _ _ F) in E. congruence.
Qed.
Theorem suited_representable : forall solver s d periodic ncells t a b lower upper start n coord x,
  interpolation solver s d periodic ncells t a b lower upper start n coord x -> n = points_expected periodic d ncells lower upper ->
  forall shift, (periodic = false -> shift = 0) -> suited solver (bs_uniform RA s) periodic t a b d ncells lower upper x shift ->
  representable (shape_of (problem_of solver (bs_uniform RA s) periodic d ncells lower upper)) (collocation periodic t a b d ncells lower upper x shift).
Proof.
  intros until x. intros IP En shift Hshift Hs. destruct solver; [apply sparse_representable|]. unfold suited in Hs.
  pose proof (space_facts _ _ _ _ _ _ _ (i_space _ _ _ _ _ _ _ _ _ _ _ _ _ _ IP)) as F.
  pose proof (proj1 (closures_compat s periodic lower upper (f_per _ _ _ _ _ _ _ F)) (i_closures _ _ _ _ _ _ _ _ _ _ _ _ _ _ IP)) as Hcompat.
  pose proof IP as IP'. destruct IP' as [HS HC Hpts Hcells Hst Hsm Hfa Hsens]. unfold points_expected in En.
  assert (Hx : forall i, 0 <= i < n -> (a <= x i <= b)%R) by (intros i Hi; apply Hpts; exact Hi).
  destruct (bool_dec periodic true) as [Ep | Ep%not_true_is_false]; subst periodic.
  - unfold closures_for in HC. destruct HC as [-> ->]. cbn [unknowns equations] in En. destruct Hs as [Ho Hs].
    destruct (bs_uniform RA s) eqn:Eu.
    + pose proof (space_uniform _ _ _ _ _ _ _ HS Eu) as ->. apply (uniform_periodic_representable s d true ncells a b F PERIODIC PERIODIC Hcompat x shift eq_refl (Hcells eq_refl) Ho).
      * intros i Hi. apply Hx. lia.
      * intros i Hi. exact (Hs i Hi).
    + apply (periodic_representable s d true ncells t a b F PERIODIC PERIODIC Hcompat x shift eq_refl (Hcells eq_refl) Ho).
      * intros i Hi. apply Hx. lia.
      * intros i Hi. exact (Hs i Hi).
  - rewrite (Hshift eq_refl). cbn [unknowns] in En. destruct (bs_uniform RA s) eqn:Eu.
    + pose proof (space_uniform _ _ _ _ _ _ _ HS Eu) as ->. apply (uniform_blocks_representable s d false ncells a b F lower upper Hcompat x eq_refl); cbn [unknowns].
      * intros i Hi. apply Hx. lia.
      * intros i Hi. exact (Hs i Hi).
    + apply (blocks_representable s d false ncells t a b F lower upper Hcompat x eq_refl); cbn [unknowns].
      * intros i Hi. apply Hx. lia.
      * intros i Hi. exact (Hs i Hi).
Qed.
Lemma constructed_points solver s d periodic ncells t a b lower upper start n coord x : interpolation solver s d periodic ncells t a b lower upper start n coord x ->
  forall m bd, builder_construct RA s m solver lower upper start n coord = Ok bd -> n = points_expected periodic d ncells lower upper /\ (periodic = false -> bd_offset bd = 0).
Proof.
  intros IP m bd Hbd. pose proof (space_facts _ _ _ _ _ _ _ (i_space _ _ _ _ _ _ _ _ _ _ _ _ _ _ IP)) as F.
  pose proof (proj1 (closures_compat s periodic lower upper (f_per _ _ _ _ _ _ _ F)) (i_closures _ _ _ _ _ _ _ _ _ _ _ _ _ _ IP)) as Hcompat.
  destruct (construct_inv s d periodic ncells t a b F lower upper m solver start n coord bd Hbd) as [Ev _].
  split; [unfold points_expected; rewrite (valid_points s d periodic ncells t a b F lower upper Hcompat start n coord Ev); lia|].
  intros ->. exact (offset_open _ _ _ _ _ _ _ _ _ _ _ _ _ _ _ IP Hbd).
Qed.
Theorem suited_exact : forall solver s d periodic ncells t a b lower upper start n coord x,
  interpolation solver s d periodic ncells t a b lower upper start n coord x ->
  forall m bd, builder_construct RA s m solver lower upper start n coord = Ok bd ->
  suited solver (bs_uniform RA s) periodic t a b d ncells lower upper x (bd_offset bd) ->
  none_negligible (shape_of (problem_of solver (bs_uniform RA s) periodic d ncells lower upper)) (collocation periodic t a b d ncells lower upper x (bd_offset bd)) ->
  forall X junk sp v dl du c, exact_solvers X -> has_coefficients sp (ncells + d) -> build RA s lower upper X bd junk sp v dl du = Ok c ->
  has_coefficients c (ncells + d) /\ interpolates periodic t a b d ncells n lower upper x (a_at v) dl du (coefficient c).
Proof.
  intros until x. intros IP m bd Hbd Hs Hn X junk sp v dl du c HX Hsp Hb. destruct (constructed_points _ _ _ _ _ _ _ _ _ _ _ _ _ _ IP m bd Hbd) as [En Eo].
  pose proof (suited_representable _ _ _ _ _ _ _ _ _ _ _ _ _ _ IP En _ Eo Hs) as Hr.
  exact (build_exact solver s d periodic ncells t a b lower upper start n coord x IP m bd Hbd Hr X junk sp v dl du Hsp c HX Hn Hb).
Qed.
(** Every accepted grid whose points are suited gives a builder. *)
Theorem constructs : forall solver s d periodic ncells t a b lower upper start n coord x,
  interpolation solver s d periodic ncells t a b lower upper start n coord x -> increasing_points n x ->
  n = points_expected periodic d ncells lower upper -> (forall c, ~ crowded t d ncells n x c) ->
  forall m, exists off, compute_offset RA s m start coord = Ok off /\
    (suited solver (bs_uniform RA s) periodic t a b d ncells lower upper x off ->
     exists bd, builder_construct RA s m solver lower upper start n coord = Ok bd /\ bd_offset bd = off).
Proof.
  intros until x. intros IP Hinc En Hcr m. pose proof (i_space _ _ _ _ _ _ _ _ _ _ _ _ _ _ IP) as HS. pose proof (space_facts _ _ _ _ _ _ _ HS) as F.
  pose proof (proj1 (closures_compat s periodic lower upper (f_per _ _ _ _ _ _ _ F)) (i_closures _ _ _ _ _ _ _ _ _ _ _ _ _ _ IP)) as Hcompat.
  pose proof IP as IP'. destruct IP' as [_ HC Hpts Hcells Hst Hsm Hfa Hsens]. destruct (space_breaks _ _ _ _ _ _ _ HS) as [Hfront Hknot].
  pose proof (N_pos s d periodic ncells t a b F lower upper Hcompat) as HN. unfold points_expected in En. pose proof (f_d _ _ _ _ _ _ _ F) as Hd. pose proof (f_n _ _ _ _ _ _ _ F) as Hc.
  assert (Hu : unknowns periodic d ncells <= ncells + d) by (unfold unknowns; destruct periodic; lia).
  assert (Hq : forall cl, 0 <= equations cl d) by (intros [ | | | ]; cbn [equations]; try lia; apply Z.div_pos; lia). pose proof (Hq lower) as Hq1. pose proof (Hq upper) as Hq2.
  destruct (offset_ok s d periodic ncells t a b F lower upper Hcompat m start n coord x Hst Hsm Hpts Hcells Hfa ltac:(lia)) as (off & Eoff & Oo & _).
  exists off. split; [exact Eoff|]. intros Hs.
  destruct (valid_sound s d periodic ncells t a b F Hfront Hknot start n coord x ltac:(lia) ltac:(lia) Hpts Hinc lower upper Hcompat En) as [Ev | [_ [c Hc']]]; [|now destruct (Hcr c)].
  destruct (BuilderProofs3.construct_ok s d periodic ncells t a b F lower upper Hcompat m solver start n coord x Hst Hsm Hpts Hcells Hfa Hsens off Ev Eoff) as (p0 & p & _ & E & _).
  { exact (suited_representable _ _ _ _ _ _ _ _ _ _ _ _ _ _ IP En _ Oo Hs). }
  exists (mk_builder off (((b - a) / IZR ncells)%R : num RA) p). split; [exact E | reflexivity].
Qed.
(** The builder then runs to its end, whatever the values, if the solvers do. *)
Theorem builds : forall solver s d periodic ncells t a b lower upper start n coord x,
  interpolation solver s d periodic ncells t a b lower upper start n coord x ->
  forall m bd, builder_construct RA s m solver lower upper start n coord = Ok bd ->
  suited solver (bs_uniform RA s) periodic t a b d ncells lower upper x (bd_offset bd) -> 0 <= bd_offset bd <= d ->
  let sh := shape_of (problem_of solver (bs_uniform RA s) periodic d ncells lower upper) in 1 <= sh_main sh \/ sh_kind sh = General ->
  forall X junk sp v dl du, total_solvers X -> has_coefficients sp (ncells + d) -> derivatives_given lower d dl -> derivatives_given upper d du -> a_len v = n ->
  exists c, build RA s lower upper X bd junk sp v dl du = Ok c.
Proof.
  intros until x. intros IP m bd Hbd Hs Ho sh Hm X junk sp v dl du HX Hsp Gl Gu Hv. destruct (constructed_points _ _ _ _ _ _ _ _ _ _ _ _ _ _ IP m bd Hbd) as [En Eo].
  pose proof (suited_representable _ _ _ _ _ _ _ _ _ _ _ _ _ _ IP En _ Eo Hs) as Hr.
  exact (build_total solver s d periodic ncells t a b lower upper start n coord x IP m bd Hbd Hr X junk sp v dl du Hsp HX Hm Gl Gu Hv Ho).
Qed.
(** The same for the sparse matrix, for a solver that solves this system. *)
Theorem sparse_builds : forall s d periodic ncells t a b lower upper start n coord x,
  interpolation GINKGO s d periodic ncells t a b lower upper start n coord x ->
  forall m bd, builder_construct RA s m GINKGO lower upper start n coord = Ok bd -> 0 <= bd_offset bd <= d ->
  let N := unknowns periodic d ncells in let M := collocation periodic t a b d ncells lower upper x (bd_offset bd) in
  forall X, exact_solvers X ->
  (forall A : arr2 R, a2_n A = N -> a2_m A = N -> (forall i j, 0 <= i < N -> 0 <= j < N -> a2_at A i j = M i j) -> total_for N (bicgstab X A false)) ->
  forall junk sp v dl du, has_coefficients sp (ncells + d) -> derivatives_given lower d dl -> derivatives_given upper d du -> a_len v = n ->
  exists c, build RA s lower upper X bd junk sp v dl du = Ok c /\ has_coefficients c (ncells + d) /\
    interpolates periodic t a b d ncells n lower upper x (a_at v) dl du (coefficient c).
Proof.
  intros until x. intros IP m bd Hbd Ho N M X HX Ht junk sp v dl du Hsp Gl Gu Hv.
  assert (E : exists c, build RA s lower upper X bd junk sp v dl du = Ok c).
  { pose proof (i_space _ _ _ _ _ _ _ _ _ _ _ _ _ _ IP) as HS. pose proof (space_facts _ _ _ _ _ _ _ HS) as F.
    pose proof (proj1 (closures_compat s periodic lower upper (f_per _ _ _ _ _ _ _ F)) (i_closures _ _ _ _ _ _ _ _ _ _ _ _ _ _ IP)) as Hcompat.
    pose proof (sparse_representable (bs_uniform RA s) periodic d ncells lower upper M) as Hr.
    destruct (construct_facts GINKGO s d periodic ncells t a b lower upper start n coord x IP m bd Hbd Hr) as (En & O1 & Ebd & p0 & hist & H1 & H2 & H3 & H4 & H5).
    pose proof (rows_enough GINKGO s d periodic ncells t a b lower upper start n coord x IP m bd Hbd Hr) as Hreq.
    pose proof IP as IP'; destruct IP' as [_ _ Hpts Hcells Hst Hsm Hfa Hsens].
    apply given_iff in Gl, Gu. rewrite En in Hv.
    destruct (build_ok s d periodic ncells t a b F lower upper Hcompat X _ _ Ho O1 Hreq Hcells junk sp v dl du Gl Gu Hv Hsp) as (rhs & R1 & _ & R3).
    destruct (store_ok RA (problem_of GINKGO (bs_uniform RA s) periodic d ncells lower upper) hist Hsens H3) as (q0 & q & Q1 & Q2 & Q3 & Q4).
    pose proof (eq_trans (eq_sym H1) Q1) as Q. assert (q0 = p0) by congruence. subst q0. pose proof (eq_trans (eq_sym H2) Q2) as Q'. assert (q = bd_matrix bd) by congruence. subst q.
    cbn [problem_of create] in H1. unfold new_sparse in H1. cbn [rbind] in H1.
    assert (Sp : forall h p q, set_all RA p h = Ok q -> (exists A, p = Elementary (Sparse A)) -> exists A, q = Elementary (Sparse A)).
    { clear. induction h as [|((i & j) & w) h IH] using rev_ind; intros p q E [A ->]; [injection E as <-; now exists A|].
      rewrite set_all_snoc in E. destruct (set_all RA (Elementary (Sparse A)) h) as [q'| |] eqn:Eh; cbn [rbind] in E; try discriminate.
      destruct (IH _ _ Eh) as [A' ->]; [now exists A|]. cbn [set_element elem_set] in E. destruct (aset2 A' i j w) as [A2| |] eqn:EA; cbn [rbind] in E; try discriminate.
      exists A2. congruence. }
    destruct (Sp _ _ _ H2) as [A EA]; [eexists; injection H1 as <-; reflexivity|]. change (num RA) with R in *.
    rewrite EA in H4, R3, R1, Q4. cbn [setup_and_solve] in R3. unfold wf_prob in H4. cbn [shape_of problem_of sh_top sh_main sh_n sh_kind] in H4, Q4. destruct H4 as (_ & _ & W).
    pose proof (wf_size _ _ _ _ W) as Wz. destruct W as (_ & W1 & W2). fold N in W1, W2, Wz, Q4.
    assert (HA : forall i j, 0 <= i < N -> 0 <= j < N -> a2_at A i j = M i j).
    { intros i j Hi Hj. specialize (Q4 i j Hi Hj). cbn [get_element elem_get] in Q4. rewrite aget2_ok in Q4 by lia. injection Q4 as Q4. rewrite Q4. exact (H5 i j Hi Hj). }
    destruct (Ht A W1 W2 HA rhs) as (y & Ey & Ly). { rewrite R1. cbn [required_rows]. exact Wz. }
    assert (Es : elem_solve RA X (@Sparse RA A) rhs false = Ok y).
    { unfold elem_solve, assert_. destruct (_ =? _) eqn:Q9; [exact Ey | exfalso; apply Z.eqb_neq in Q9; apply Q9; exact R1]. }
    change (num RA) with R in Es. rewrite Es in R3. destruct (R3 (Z.eq_le_incl _ _ (eq_sym Ly))) as (c & E & _). exists c. rewrite Ebd, EA. exact E. }
  destruct E as [c E]. exists c. split; [exact E|].
  exact (sparse_exact s d periodic ncells t a b lower upper start n coord x IP m bd Hbd X junk sp v dl du c HX Hsp E).
Qed.
