(** C41: the coefficients interpolate. *)
From Coq Require Import Bool Reals Lia Lra ZifyBool List.
From Verif Require Import BuilderSpec LoopProofs BSplineMath BSplineDeriv IntegralProofs SamplingProofs MathProofs LinearProofs LinearProofs2 LinearProofs3 LinearLemmas EvaluatorSpace EvaluatorProofs BuilderMath BuilderProofs BuilderProofs2 BuilderProofs3.
Import ListNotations.
Local Open Scope bool_scope. Local Open Scope Z_scope.

Lemma closures_compat s periodic lower upper : bs_periodic RA s = periodic -> closures_for periodic lower upper <-> compatible_closures RA s lower upper = true.
Proof. intros E. unfold closures_for, compatible_closures. rewrite E. destruct periodic, lower, upper; cbn; intuition (try congruence; try discriminate). Qed.
Lemma given_iff c d w : derivatives_given c d w <-> given c d w.
Proof. unfold derivatives_given, given. destruct c, w; cbn [equations]; tauto. Qed.

Section Solution.
Context (s : bspline_space RA) (d : Z) (periodic : bool) (ncells : Z) (t : Z -> R) (a b : R) (F : facts s d periodic ncells t a b).
Context (lower upper : closure) (Hcompat : compatible_closures RA s lower upper = true).
Let Hd : 1 <= d := f_d _ _ _ _ _ _ _ F.
Let Hn : 1 <= ncells := f_n _ _ _ _ _ _ _ F.
Let N := unknowns periodic d ncells.
Let first := equations lower d.
Let last := N - equations upper d.
Let h := ((b - a) / IZR ncells)%R.
(** The left-hand side of the equations, in terms of the spline. *)
Lemma row_meaning (x y c : Z -> R) off : (forall k, 0 <= k < ncells + d -> c k = y (if periodic then (k - off) mod ncells else k)) ->
  let M := collocation periodic t a b d ncells lower upper x off in
  (forall i, 0 <= i < last - first -> rsum N (fun j => M (first + i)%Z j * y j)%R = spline t b d ncells c (x i)) /\
  (forall i, 0 <= i < first -> exists g, nth_derivative (order d i) (spline_piece t d d ncells c) g /\ rsum N (fun j => M i j * y j)%R = (h ^ order d i * g a)%R) /\
  (forall i, 0 <= i < N - last -> exists g, nth_derivative (order d i) (spline_piece t (d + ncells - 1) d ncells c) g /\ rsum N (fun j => M (last + i)%Z j * y j)%R = (h ^ order d i * g b)%R) /\
  (periodic = true -> periodic_coefficients c d ncells).
Proof.
  intros Hc M. pose proof (N_pos s d periodic ncells t a b F lower upper Hcompat) as HN. fold N first last in HN.
  pose proof (half_d s d periodic ncells t a b F) as Hh.
  assert (Hord : forall cl i, 0 <= i < equations cl d -> Z.of_nat (order d i) <= d).
  { intros cl i Hi. unfold order. destruct cl; cbn [equations] in Hi; lia. }
  assert (NP : 0 < equations lower d \/ 0 < equations upper d -> periodic = false).
  { intros H. destruct (bool_dec periodic true) as [Ep | Ep%not_true_is_false]; [|exact Ep].
    destruct (compat_periodic s d periodic ncells t a b F lower upper Hcompat Ep) as [El Eu]. rewrite El, Eu in H. cbn [equations] in H. lia. }
  split; [|split; [|split]].
  - intros i Hi. rewrite rsum_zsum. unfold M, collocation. fold N first last.
    replace (first + i <? first) with false by lia. replace (first + i <? last) with true by lia. replace (first + i - first) with i by lia.
    destruct (bool_dec periodic true) as [Ep | Ep%not_true_is_false].
    + assert (EN : N = ncells) by (unfold N, unknowns; now rewrite Ep). rewrite Ep, EN in *. symmetry.
      exact (proj2 (periodic_row s d periodic ncells t a b F y c off (x i) Hc)).
    + assert (EN : N = ncells + d) by (unfold N, unknowns; now rewrite Ep). rewrite Ep, EN in *. unfold spline. rewrite sum_first_zsum. replace (Z.of_nat (Z.to_nat (ncells + d))) with (ncells + d) by lia || idtac.
      apply zsum_ext. intros j Hj. rewrite Hc by lia. ring.
  - intros i Hi. assert (Ep : periodic = false) by (apply NP; left; fold first; lia). rewrite Ep in *.
    destruct (derivative_row s d periodic ncells t a b F N d (order d i) a y c h) as (g & G1 & G2).
    + unfold N, unknowns. now rewrite Ep. + lia. + apply (Hord lower). exact Hi. + exact Hc.
    + exists g. split; [exact G1|]. rewrite rsum_zsum, <- G2. unfold M, collocation. fold N first last h.
      replace (i <? first) with true by lia. reflexivity.
  - intros i Hi. assert (Ep : periodic = false). { apply NP. right. unfold last in Hi. lia. } rewrite Ep in *.
    destruct (derivative_row s d periodic ncells t a b F N (d + ncells - 1) (order d i) b y c h) as (g & G1 & G2).
    + unfold N, unknowns. now rewrite Ep. + lia. + apply (Hord upper). unfold last in Hi. lia. + exact Hc.
    + exists g. split; [exact G1|]. rewrite rsum_zsum, <- G2. unfold M, collocation. fold N first last h.
      replace (last + i <? first) with false by lia. replace (last + i <? last) with false by lia. replace (last + i - last) with i by lia. reflexivity.
  - intros Ep. rewrite Ep in *. exact (proj1 (periodic_row s d periodic ncells t a b F y c off a Hc)).
Qed.
End Solution.

Lemma shape_bounds c : sensible c -> 0 <= sh_top (shape_of c) /\ 0 <= sh_main (shape_of c) /\ sh_top (shape_of c) + sh_main (shape_of c) <= sh_n (shape_of c).
Proof.
  destruct c as [n | n | n kl ku pds | n kl ku pds bottom top | n kl ku pds]; cbn [sensible shape_of]; unfold periodic_shape; try destruct (_ <=? _); cbn [sh_n sh_main sh_top]; lia.
Qed.
Lemma negligible_ext sh (M M' : Z -> Z -> R) : 0 <= sh_top sh -> sh_top sh + sh_main sh <= sh_n sh ->
  (forall i j, 0 <= i < sh_n sh -> 0 <= j < sh_n sh -> M' i j = M i j) -> none_negligible sh M -> none_negligible sh M'.
Proof.
  intros H1 H2 E [A B]. split.
  - intros i l Hi Hm Hl. rewrite E by lia. now apply A.
  - intros j y Hj Hm Hy l Hl. apply (B j y Hj Hm); [|exact Hl]. intros i Hi. rewrite <- (E (sh_top sh + i) j) by lia. rewrite <- (Hy i Hi).
    rewrite !rsum_zsum. apply zsum_ext. intros k Hk. now rewrite E by lia.
Qed.
Section Theorems.
Context (solver : spline_solver) (s : bspline_space RA) (d : Z) (periodic : bool) (ncells : Z) (t : Z -> R) (a b : R) (lower upper : closure).
Context (start n : Z) (coord : Z -> res R) (x : Z -> R) (IP : interpolation solver s d periodic ncells t a b lower upper start n coord x).
Let F : facts s d periodic ncells t a b := space_facts _ _ _ _ _ _ _ (i_space _ _ _ _ _ _ _ _ _ _ _ _ _ _ IP).
Let Hcompat : compatible_closures RA s lower upper = true := proj1 (closures_compat s periodic lower upper (f_per _ _ _ _ _ _ _ F)) (i_closures _ _ _ _ _ _ _ _ _ _ _ _ _ _ IP).
Let cr := problem_of solver (bs_uniform RA s) periodic d ncells lower upper.
Let N := unknowns periodic d ncells.
Let first := equations lower d.
Let last := N - equations upper d.
Let h := ((b - a) / IZR ncells)%R.
Context (m : scratch RA) (bd : builder RA) (Hbd : builder_construct RA s m solver lower upper start n coord = Ok bd).
Let M := collocation periodic t a b d ncells lower upper x (bd_offset bd).
Hypothesis Hrep : representable (shape_of cr) M.

Lemma construct_facts : n = last - first /\ (periodic = false -> bd_offset bd = 0) /\ bd = mk_builder (bd_offset bd) (h : num RA) (bd_matrix bd) /\
  exists p0 hist, create RA cr = Ok p0 /\ set_all RA p0 hist = Ok (bd_matrix bd) /\ assignments RA (shape_of cr) hist /\
    wf_prob RA (shape_of cr) (bd_matrix bd) /\
    forall i j, 0 <= i < N -> 0 <= j < N -> kept 0%R (shape_of cr) hist i j = M i j.
Proof.
  pose proof IP as IP'; destruct IP' as [_ _ Hpts Hcells Hst Hsm Hfa Hsens].
  destruct (construct_inv s d periodic ncells t a b F lower upper m solver start n coord bd Hbd) as [Hv Ho].
  pose proof (valid_points s d periodic ncells t a b F lower upper Hcompat start n coord Hv) as En. split; [exact En|].
  destruct (offset_ok s d periodic ncells t a b F lower upper Hcompat m start n coord x Hst Hsm Hpts Hcells Hfa En) as (off & Eo & O1 & _).
  assert (off = bd_offset bd) as -> by congruence. split; [exact O1|].
  destruct (construct_ok s d periodic ncells t a b F lower upper Hcompat m solver start n coord x Hst Hsm Hpts Hcells Hfa Hsens _ Hv Ho Hrep) as (p0 & p & E0 & E1 & hist & H1 & H2 & H3).
  rewrite Hbd in E1. assert (Hinj : forall u v : builder RA, Ok u = Ok v -> u = v) by congruence. apply Hinj in E1. rewrite E1 at 1 2. cbn [bd_offset bd_matrix]. split; [rewrite E1; reflexivity|].
  assert (Ep : bd_matrix bd = p) by now rewrite E1. rewrite Ep.
  exists p0, hist. split; [exact E0|]. split; [exact H1|]. split; [exact H2|]. split; [|exact H3].
  fold cr in E0. destruct (store_ok RA cr hist Hsens H2) as (q0 & q & F1 & F2 & W & _). assert (q0 = p0) as -> by congruence. rewrite H1 in F2. assert (q = p) as -> by congruence. exact W.
Qed.
Lemma rows_enough : N <= required_rows (bd_matrix bd).
Proof.
  destruct construct_facts as (_ & _ & _ & p0 & hist & _ & _ & _ & W & _).
  pose proof (shape_N s d periodic ncells lower upper solver) as EN. fold N in EN. fold cr in EN.
  pose proof (N_pos s d periodic ncells t a b F lower upper Hcompat) as HN. fold N in HN. pose proof (f_big _ _ _ _ _ _ _ F). pose proof (f_d _ _ _ _ _ _ _ F). pose proof (f_n _ _ _ _ _ _ _ F).
  destruct (wf_rows _ _ W ltac:(rewrite EN; lia)) as [_ H']. rewrite EN in H'. exact H'.
Qed.
Context (X : solvers RA) (junk : Z -> R) (sp : chunk_1d RA) (v : arr R) (dl du : option (chunk_1d RA)) (Hsp : has_coefficients sp (ncells + d)).
Let rhs_of := right_hand_side d periodic ncells a b lower upper v dl du.

(** A successful build solved the equations. *)
Lemma build_run c : build RA s lower upper X bd junk sp v dl du = Ok c ->
  derivatives_given lower d dl /\ derivatives_given upper d du /\ a_len v = n /\ 0 <= bd_offset bd <= d /\
  exists rhs y : arr R, setup_and_solve RA X (bd_matrix bd) rhs false = Ok y /\ a_len rhs = required_rows (bd_matrix bd) /\ (forall i, 0 <= i < N -> a_at rhs i = rhs_of i) /\
    (N <= a_len y -> has_coefficients c (ncells + d) /\ forall k, 0 <= k < ncells + d -> coefficient c k = a_at y (if periodic then (k - bd_offset bd) mod ncells else k)).
Proof.
  intros Hb. destruct construct_facts as (En & O1 & Ebd & _).
  pose proof IP as IP'; destruct IP' as [_ _ Hpts Hcells Hst Hsm Hfa Hsens]. pose proof rows_enough as Hreq.
  rewrite Ebd in Hb.
  destruct (build_inv s d periodic ncells t a b F lower upper Hcompat start n coord x Hst Hsm Hpts Hcells Hfa X _ _ junk sp v dl du c O1 Hsp Hb) as (Gl & Gu & Hv & Ho).
  split; [now apply given_iff|]. split; [now apply given_iff|]. split; [rewrite En; exact Hv|]. split; [exact Ho|].
  destruct (build_ok s d periodic ncells t a b F lower upper Hcompat X _ _ Ho O1 Hreq Hcells junk sp v dl du Gl Gu Hv Hsp) as (rhs & R1 & R2 & R3).
  change (num RA) with R in *. exists rhs.
  destruct (setup_and_solve RA X (bd_matrix bd) rhs false) as [y| |] eqn:Es.
  - exists y. split; [reflexivity|]. split; [exact R1|]. split; [exact R2|]. intros Hy. destruct (R3 Hy) as (c' & E & H1 & H2).
    pose proof (eq_trans (eq_sym Hb) E) as E'. assert (c' = c) as -> by congruence. split; assumption.
  - pose proof (eq_trans (eq_sym Hb) R3). discriminate.
  - pose proof (eq_trans (eq_sym Hb) R3). discriminate.
Qed.
(** A build succeeds if the solver does. *)
Lemma build_total : total_solvers X -> 1 <= sh_main (shape_of cr) \/ sh_kind (shape_of cr) = General ->
  derivatives_given lower d dl -> derivatives_given upper d du -> a_len v = n -> 0 <= bd_offset bd <= d ->
  exists c, build RA s lower upper X bd junk sp v dl du = Ok c.
Proof.
  intros HX Hm Gl Gu Hv Ho. destruct construct_facts as (En & O1 & Ebd & p0 & hist & H1 & H2 & H3 & _).
  pose proof IP as IP'; destruct IP' as [_ _ Hpts Hcells Hst Hsm Hfa Hsens]. pose proof rows_enough as Hreq.
  apply given_iff in Gl, Gu. rewrite En in Hv.
  destruct (build_ok s d periodic ncells t a b F lower upper Hcompat X _ _ Ho O1 Hreq Hcells junk sp v dl du Gl Gu Hv Hsp) as (rhs & R1 & _ & R3).
  destruct (st_total X cr hist p0 (bd_matrix bd) false rhs HX Hsens H3 H1 H2 Hm R1) as (y & Ey & Ly).
  change (num RA) with R in *. rewrite Ey in R3. destruct R3 as (c & E & _); [rewrite Ly, R1; exact Hreq|]. exists c. rewrite Ebd. exact E.
Qed.
(** With exact solvers, and no entry dropped, the spline interpolates. *)
Lemma build_exact c : exact_solvers X -> none_negligible (shape_of cr) M -> build RA s lower upper X bd junk sp v dl du = Ok c ->
  has_coefficients c (ncells + d) /\ interpolates periodic t a b d ncells n lower upper x (a_at v) dl du (coefficient c).
Proof.
  intros HX Hneg Hb. destruct (build_run c Hb) as (Gl & Gu & Hv & Ho & rhs & y & Ey & R1 & R2 & R3).
  destruct construct_facts as (En & O1 & Ebd & p0 & hist & H1 & H2 & H3 & _ & H4). pose proof rows_enough as Hreq.
  pose proof (i_matrix _ _ _ _ _ _ _ _ _ _ _ _ _ _ IP) as Hsens.
  pose proof (shape_N s d periodic ncells lower upper solver) as EN. fold cr N in EN.
  pose proof (N_pos s d periodic ncells t a b F lower upper Hcompat) as HN. fold N first last in HN.
  pose proof (f_n _ _ _ _ _ _ _ F) as Hn. pose proof (f_ab _ _ _ _ _ _ _ F) as Hab.
  assert (Hh : h <> 0%R). { pose proof (IZR_lt 0 ncells ltac:(lia)). unfold h. assert (0 < (b - a) / IZR ncells)%R by (apply Rdiv_lt_0_compat; lra). lra. }
  destruct (shape_bounds cr Hsens) as (S1 & S2 & S3).
  assert (Hneg' : none_negligible (shape_of cr) (kept 0%R (shape_of cr) hist)).
  { apply (negligible_ext _ M); [exact S1 | exact S3 | | exact Hneg]. rewrite EN. exact H4. }
  destruct (st_exact X cr hist p0 (bd_matrix bd) false rhs y HX Hsens H3 H1 H2 Hneg' Ey) as (_ & L2 & L3). rewrite EN in L3.
  change (num RA) with R in *. destruct (R3 ltac:(rewrite L2, R1; exact Hreq)) as [C1 C2]. split; [exact C1|].
  assert (Hrow : forall i, 0 <= i < N -> rsum N (fun j => M i j * a_at y j)%R = rhs_of i).
  { intros i Hi. rewrite <- R2, <- (L3 i Hi) by exact Hi. rewrite !rsum_zsum. apply zsum_ext. intros j Hj. cbn iota. now rewrite H4. }
  destruct (row_meaning s d periodic ncells t a b F lower upper Hcompat x (a_at y) (coefficient c) (bd_offset bd) C2) as (P1 & P2 & P3 & P4). fold N first last in P1, P2, P3. fold h in P2, P3.
  unfold rhs_of, right_hand_side in Hrow. fold N first last h in Hrow. unfold interpolates. split; [|split; [|split]].
  - intros i Hi. rewrite <- P1 by lia. etransitivity; [apply (Hrow (first + i)); lia|]. replace (first + i <? first) with false by lia. replace (first + i <? last) with true by lia. f_equal. lia.
  - intros i Hi. destruct (P2 i Hi) as (g & G1 & G2). exists g. split; [exact G1|]. apply (Rmult_eq_reg_l (h ^ order d i)); [|now apply pow_nonzero].
    rewrite <- G2. etransitivity; [apply (Hrow i); fold first in Hi; lia|]. fold first in Hi. replace (i <? first) with true by lia. reflexivity.
  - intros i Hi. destruct (P3 i ltac:(unfold last; lia)) as (g & G1 & G2). exists g. split; [exact G1|]. apply (Rmult_eq_reg_l (h ^ order d i)); [|now apply pow_nonzero].
    rewrite <- G2. etransitivity; [apply (Hrow (last + i)); unfold last in *; lia|].
    replace (last + i <? first) with false by lia. replace (last + i <? last) with false by lia. replace (last + i - last) with i by lia. reflexivity.
  - exact P4.
Qed.
End Theorems.
