(** The builder in two dimensions. *)
From Coq Require Import Bool ZArith Lia Reals Lra FunctionalExtensionality.
From Verif Require Import Spline2DSpec LoopProofs SamplingProofs BSplineDeriv IntegralProofs EvaluatorSpace EvaluatorProofs BuilderLemmas BuilderBand Spline2DProofs Spline2DMath.
Local Open Scope bool_scope. Local Open Scope Z_scope.

Lemma builder_exact solver s A bd X : builder_for solver s A bd -> exact_solvers X ->
  forall junk sp v dl du c, has_coefficients sp (ax_size A) -> build RA s (ax_lower A) (ax_upper A) X bd junk sp v dl du = Ok c ->
  has_coefficients c (ax_size A) /\ interp A (a_at v) (fun e => match e with Lower => asked (ax_lower A) dl | Upper => asked (ax_upper A) du end) (coefficient c).
Proof.
  intros (start & coord & m & IP & Hbd & Hs & Hn) HX junk sp v dl du c Hsp Hb.
  assert (Hn' : none_negligible (shape_of (problem_of solver (bs_uniform RA s) (ax_periodic A) (ax_degree A) (ax_cells A) (ax_lower A) (ax_upper A)))
     (collocation (ax_periodic A) (ax_knots A) (ax_min A) (ax_max A) (ax_degree A) (ax_cells A) (ax_lower A) (ax_upper A) (ax_point A) (bd_offset bd))).
  { destruct solver; [apply sparse_negligible | now apply Hn]. }
  destruct (suited_exact _ _ _ _ _ _ _ _ _ _ _ _ _ _ IP m bd Hbd Hs Hn' X junk sp v dl du c HX Hsp Hb) as [H1 H2]. split; [exact H1 | now apply interpolates_interp].
Qed.
Lemma builder_space solver s A bd : builder_for solver s A bd -> space_of s A.
Proof. intros (start & coord & m & IP & _). exact (i_space _ _ _ _ _ _ _ _ _ _ _ _ _ _ IP). Qed.
Lemma builder_points solver s A bd : builder_for solver s A bd -> 0 <= ax_points A < 2 ^ 31.
Proof.
  intros (start & coord & m & IP & Hbd & _). pose proof (space_facts _ _ _ _ _ _ _ (i_space _ _ _ _ _ _ _ _ _ _ _ _ _ _ IP)) as F.
  destruct (constructed_points _ _ _ _ _ _ _ _ _ _ _ _ _ _ IP m bd Hbd) as [-> _]. unfold points_expected, unknowns, equations.
  pose proof (f_n _ _ _ _ _ _ _ F). pose proof (f_d _ _ _ _ _ _ _ F). pose proof (f_big _ _ _ _ _ _ _ F). pose proof (i_closures _ _ _ _ _ _ _ _ _ _ _ _ _ _ IP) as HC. unfold closures_for in HC.
  pose proof (Z.div_mod (ax_degree A) 2 ltac:(lia)). pose proof (Z.mod_pos_bound (ax_degree A) 2 ltac:(lia)).
  destruct (ax_periodic A); [destruct HC as [-> ->]; lia | destruct (ax_lower A), (ax_upper A); lia].
Qed.

(** Splines that are zero. *)
Lemma interp_zero A : interp A (fun _ => 0%R) (fun _ _ => 0%R) (fun _ => 0%R).
Proof.
  assert (Z0 : forall n (f : Z -> R), zsum n (fun i => 0 * f i)%R = 0%R). { intros n f. rewrite zsum_scal. ring. }
  split; [|split].
  - intros i _. rewrite spline_1d_sum, sum_first_zsum. apply Z0.
  - intros e l Hl. exists (fun _ => 0%R). split; [|reflexivity]. eapply nth_derivative_ext; [| |apply nd_zero]; [|reflexivity].
    intros x. symmetry. unfold spline_piece. rewrite sum_first_zsum. apply Z0.
  - intros _ i _. reflexivity.
Qed.

Section Build.
Context (s1 s2 : bspline_space RA) (A1 A2 : axis) (X : solvers RA) (bd1 bd2 : builder RA).
Notation f1 := (build RA s1 (ax_lower A1) (ax_upper A1) X bd1).
Notation f2 := (build RA s2 (ax_lower A2) (ax_upper A2) X bd2).
Notation chunk := (chunk_2d RA).
Notation bl1 := (build1 RA s1 (ax_lower A1) (ax_upper A1) X bd1).
Notation bl2 := (build2 RA s2 (ax_lower A2) (ax_upper A2) X bd2).
Definition ln1 := the_line (fun c : chunk => c2_front1 c) (fun c => a2_n (c2_vals c)) (fun c k i => a2_at (c2_vals c) i k).
Definition ln2 := the_line (fun c : chunk => c2_front2 c) (fun c => a2_m (c2_vals c)) (fun c k i => a2_at (c2_vals c) k i).
Definition oln1 (c : option chunk) (k : Z) := match c with None => None | Some c => Some (ln1 c k) end.
Definition oln2 (c : option chunk) (k : Z) := match c with None => None | Some c => Some (ln2 c k) end.
Definition batch1 (front n : Z) (c : option chunk) : Prop := match c with None => True | Some c => c2_front2 c = front /\ a2_m (c2_vals c) = n end.
Definition batch2 (front n : Z) (c : option chunk) : Prop := match c with None => True | Some c => c2_front1 c = front /\ a2_n (c2_vals c) = n end.
Hypothesis (Sz1 : bs_size RA s1 = ax_size A1 /\ 0 <= ax_size A1 < 2 ^ 32).

Section Along1.
Context (front n : Z) (work : Z -> Z -> R) (junk : Z -> Z -> R) (vals : chunk) (dmin dmax : option chunk).
Hypothesis (Hn : 0 <= n < 2 ^ 62) (V1 : c2_front2 vals = front) (V2 : a2_m (c2_vals vals) = n) (D1 : batch1 front n dmin) (D2 : batch1 front n dmax).
Let alloc : chunk := mk_chunk_2d (A := RA) 0 front (mk_arr2 (bs_size RA s1) n junk).
Lemma along1_sound r : (forall junk sp v dl du c, has_coefficients sp (ax_size A1) -> f1 junk sp v dl du = Ok c ->
    interp A1 (a_at v) (fun e => match e with Lower => asked (ax_lower A1) dl | Upper => asked (ax_upper A1) du end) (coefficient c)) ->
  bl1 front n work alloc vals dmin dmax = Ok r ->
  c2_front1 r = 0 /\ c2_front2 r = front /\ a2_n (c2_vals r) = ax_size A1 /\ a2_m (c2_vals r) = n /\
  forall k, 0 <= k < n -> interp A1 (fun i => a2_at (c2_vals vals) i k) (fun e => match e with Lower => asked (ax_lower A1) (oln1 dmin k) | Upper => asked (ax_upper A1) (oln1 dmax k) end) (fun i => a2_at (c2_vals r) i k).
Proof.
  intros Hex E.
  destruct (lines_sound (line1 RA) (put1 RA) (fun c => c2_front1 c) (fun c => c2_front2 c) (fun c => a2_m (c2_vals c)) (fun c => a2_n (c2_vals c)) (fun c k i => a2_at (c2_vals c) i k) line1_get put1_put
    f1 front n work alloc vals dmin dmax (ax_size A1) Hn eq_refl eq_refl eq_refl (proj1 Sz1) V1 V2 D1 D2 r E) as (R1 & R2 & R3 & R4 & R5).
  split; [exact R3|]. split; [exact R1|]. split; [exact R4|]. split; [exact R2|]. intros k Hk. destruct (R5 k Hk) as (l & c & L1 & L2 & L3).
  pose proof (Hex _ _ _ _ _ _ L1 L2) as I. cbn [a_at] in I. replace (fun i => a2_at (c2_vals r) i k) with (coefficient c) by (extensionality i; symmetry; apply L3). exact I.
Qed.
Lemma along1_total : (forall k, 0 <= k < n -> derivatives_given (ax_lower A1) (ax_degree A1) (oln1 dmin k) /\ derivatives_given (ax_upper A1) (ax_degree A1) (oln1 dmax k)) ->
  a2_n (c2_vals vals) = ax_points A1 -> never_fails s1 A1 X bd1 -> exists r, bl1 front n work alloc vals dmin dmax = Ok r.
Proof.
  intros HD HV HX.
  apply (lines_total (line1 RA) (put1 RA) (fun c => c2_front1 c) (fun c => c2_front2 c) (fun c => a2_m (c2_vals c)) (fun c => a2_n (c2_vals c)) (fun c k i => a2_at (c2_vals c) i k) line1_get put1_put
    f1 front n work alloc vals dmin dmax (ax_size A1) Hn eq_refl eq_refl eq_refl (proj1 Sz1) V1 V2 D1 D2).
  intros k l Hk Hl. destruct (HD k Hk) as [G1 G2]. apply HX; [exact Hl | exact G1 | exact G2 | exact HV].
Qed.
End Along1.

Section Along2.
Context (work : Z -> Z -> R) (sp vals : chunk) (dmin dmax : option chunk).
Notation n := (ax_size A1).
Hypothesis (Hsp : has_coefficients_2d sp n (ax_size A2)) (V1 : c2_front1 vals = 0) (V2 : a2_n (c2_vals vals) = n) (D1 : batch2 0 n dmin) (D2 : batch2 0 n dmax).
Lemma size_small : 0 <= n < 2 ^ 62. Proof. destruct Sz1. lia. Qed.
Lemma along2_sound r : (forall junk sp v dl du c, has_coefficients sp (ax_size A2) -> f2 junk sp v dl du = Ok c ->
    interp A2 (a_at v) (fun e => match e with Lower => asked (ax_lower A2) dl | Upper => asked (ax_upper A2) du end) (coefficient c)) ->
  bl2 0 n work sp vals dmin dmax = Ok r ->
  has_coefficients_2d r n (ax_size A2) /\
  forall k, 0 <= k < n -> interp A2 (fun j => a2_at (c2_vals vals) k j) (fun e => match e with Lower => asked (ax_lower A2) (oln2 dmin k) | Upper => asked (ax_upper A2) (oln2 dmax k) end) (fun j => a2_at (c2_vals r) k j).
Proof.
  intros Hex E. destruct Hsp as (P1 & P2 & P3 & P4).
  destruct (lines_sound (line2 RA) (put2 RA) (fun c => c2_front2 c) (fun c => c2_front1 c) (fun c => a2_n (c2_vals c)) (fun c => a2_m (c2_vals c)) (fun c k i => a2_at (c2_vals c) k i) line2_get put2_put
    f2 0 n work sp vals dmin dmax (ax_size A2) size_small P1 P3 P2 P4 V1 V2 D1 D2 r E) as (R1 & R2 & R3 & R4 & R5).
  split; [split; [exact R1|]; split; [exact R3|]; split; [exact R2 | exact R4]|]. intros k Hk. destruct (R5 k Hk) as (l & c & L1 & L2 & L3).
  pose proof (Hex _ _ _ _ _ _ L1 L2) as I. cbn [a_at] in I. replace (fun i => a2_at (c2_vals r) k i) with (coefficient c) by (extensionality i; symmetry; apply L3). exact I.
Qed.
Lemma along2_total : (forall k, 0 <= k < n -> derivatives_given (ax_lower A2) (ax_degree A2) (oln2 dmin k) /\ derivatives_given (ax_upper A2) (ax_degree A2) (oln2 dmax k)) ->
  a2_m (c2_vals vals) = ax_points A2 -> never_fails s2 A2 X bd2 -> exists r, bl2 0 n work sp vals dmin dmax = Ok r.
Proof.
  intros HD HV HX. destruct Hsp as (P1 & P2 & P3 & P4).
  apply (lines_total (line2 RA) (put2 RA) (fun c => c2_front2 c) (fun c => c2_front1 c) (fun c => a2_n (c2_vals c)) (fun c => a2_m (c2_vals c)) (fun c k i => a2_at (c2_vals c) k i) line2_get put2_put
    f2 0 n work sp vals dmin dmax (ax_size A2) size_small P1 P3 P2 P4 V1 V2 D1 D2).
  intros k l Hk Hl. destruct (HD k Hk) as [G1 G2]. apply HX; [exact Hl | exact G1 | exact G2 | exact HV].
Qed.
End Along2.
End Build.

Section Whole.
Context (solver1 solver2 : spline_solver) (s1 s2 : bspline_space RA) (A1 A2 : axis) (X : solvers RA) (bd1 bd2 : builder RA).
Hypothesis (B1 : builder_for solver1 s1 A1 bd1) (B2 : builder_for solver2 s2 A2 bd2).
Let Sp1 := builder_space _ _ _ _ B1.
Let Sp2 := builder_space _ _ _ _ B2.
Let F1 := space_facts _ _ _ _ _ _ _ Sp1.
Let F2 := space_facts _ _ _ _ _ _ _ Sp2.
Context (D : data_2d).
Hypothesis (HD : data_given A1 A2 D).
Lemma sz1 : bs_size RA s1 = ax_size A1 /\ 0 <= ax_size A1 < 2 ^ 32.
Proof. pose proof (f_size _ _ _ _ _ _ _ F1). pose proof (f_n _ _ _ _ _ _ _ F1). pose proof (f_d _ _ _ _ _ _ _ F1). pose proof (f_big _ _ _ _ _ _ _ F1). unfold ax_size. lia. Qed.
Lemma odd2 : s_odd RA s2 = ax_degree A2 mod 2.
Proof. unfold s_odd. now rewrite (f_deg _ _ _ _ _ _ _ F2). Qed.
Lemma half2 : bs_degree RA s2 / 2 = ax_degree A2 / 2 /\ 0 <= ax_degree A2 / 2 < 2 ^ 62.
Proof. rewrite (f_deg _ _ _ _ _ _ _ F2). pose proof (f_d _ _ _ _ _ _ _ F2). pose proof (f_n _ _ _ _ _ _ _ F2). pose proof (f_big _ _ _ _ _ _ _ F2). pose proof (Z.div_mod (ax_degree A2) 2 ltac:(lia)). pose proof (Z.mod_pos_bound (ax_degree A2) 2 ltac:(lia)). lia. Qed.
Lemma given_batch e (w : option (chunk_2d RA)) front n : given_1 A1 e w front n -> batch1 front n w.
Proof. unfold given_1. destruct (edge_closure A1 e), w as [w|]; cbn [batch1]; try tauto; discriminate. Qed.
Lemma given_lines e (w : option (chunk_2d RA)) front n k : given_1 A1 e w front n -> derivatives_given (edge_closure A1 e) (ax_degree A1) (oln1 w k).
Proof. unfold given_1. destruct (edge_closure A1 e), w as [w|]; cbn [derivatives_given oln1]; try tauto; try discriminate. Qed.
Lemma asked_line e (w : option (chunk_2d RA)) k j : asked (edge_closure A1 e) (oln1 w j) k = asked_2d (edge_closure A1 e) w k j.
Proof. destruct (edge_closure A1 e), w as [w|]; reflexivity. Qed.

(** The derivatives of the second dimension, as splines of the first. *)
Definition derivs_ok (e : side) (r : option (chunk_2d RA)) : Prop :=
  batch2 0 (ax_size A1) r /\ (forall k, 0 <= k < ax_size A1 -> derivatives_given (edge_closure A2 e) (ax_degree A2) (oln2 r k)).
Lemma approximate_sound e (Hex : exact_solvers X) junk work r :
  approximate_derivs RA s1 s2 (ax_lower A1) (ax_upper A1) X bd1 (edge_closure A2 e) junk work (dt_edge2 D e) (dt_corner D Lower e) (dt_corner D Upper e) = Ok r ->
  derivs_ok e r /\
  forall l, 0 <= l < edge_equations A2 e -> interp A1 (fun i => asked_2d (edge_closure A2 e) (dt_edge2 D e) i l)
    (fun e1 k => asked_corner (edge_closure A1 e1) (edge_closure A2 e) (dt_corner D e1 e) k l) (fun i => asked (edge_closure A2 e) (oln2 r i) l).
Proof.
  intros E. destruct HD as (HV1 & HV2 & HV3 & HE1 & HE2 & HC). destruct half2 as [H2 H2'].
  specialize (HE2 e). unfold given_2 in HE2. unfold approximate_derivs in E. pose proof (fun e1 => HC e1 e) as HCe. unfold derivs_ok, edge_equations. destruct (edge_closure A2 e) eqn:Ec.
  - injection E as <-. split; [split; [exact I | intros; exact I]|]. cbn [equations]. lia.
  - destruct (dt_edge2 D e) as [w|]; [|contradiction]. destruct HE2 as (W1 & W2 & W3). rewrite odd2, H2 in E.
    replace ((c2_front2 w =? ax_degree A2 mod 2) && (a2_m (c2_vals w) =? ax_degree A2 / 2)) with true in E by lia. cbn [assert_] in E.
    destruct (build1 _ _ _ _ _ _ _ _ _ _ _ _ _) as [q| |] eqn:Eq; cbn [rbind] in E; [|discriminate..]. injection E as <-.
    destruct (along1_sound s1 A1 X bd1 sz1 (ax_degree A2 mod 2) (ax_degree A2 / 2) work junk w (dt_corner D Lower e) (dt_corner D Upper e) H2' W1 W3
      (given_batch Lower _ _ _ (HCe Lower eq_refl)) (given_batch Upper _ _ _ (HCe Upper eq_refl)) q
      (fun junk sp v dl du c H1 H2 => proj2 (builder_exact solver1 s1 A1 bd1 X B1 Hex junk sp v dl du c H1 H2)) Eq) as (Q1 & Q2 & Q3 & Q4 & Q5).
    split; [split; [split; assumption | intros k Hk; split; assumption]|].
    intros l Hl. cbn [equations] in Hl. specialize (Q5 l Hl). cbn [asked_2d asked oln2 ln2 the_line c1_vals a_at].
    replace (fun e1 k => asked_corner (edge_closure A1 e1) HERMITE (dt_corner D e1 e) k l) with
      (fun e1 => match e1 with Lower => asked (ax_lower A1) (oln1 (dt_corner D Lower e) l) | Upper => asked (ax_upper A1) (oln1 (dt_corner D Upper e) l) end); [exact Q5|].
    extensionality e1. extensionality k. destruct e1; [rewrite (asked_line Lower) | rewrite (asked_line Upper)]; unfold asked_corner, asked_2d; cbn [edge_closure]; [destruct (ax_lower A1) | destruct (ax_upper A1)]; reflexivity.
  - injection E as <-. split; [split; [exact I | intros; exact I]|]. intros l Hl. cbn [asked_2d asked].
    replace (fun e1 k => asked_corner (edge_closure A1 e1) HOMOGENEOUS_HERMITE (dt_corner D e1 e) k l) with (fun (e1 : side) (k : Z) => 0%R); [apply interp_zero|].
    extensionality e1. extensionality k. unfold asked_corner, asked_2d. now destruct (edge_closure A1 e1).
  - injection E as <-. split; [split; [exact I | intros; exact I]|]. cbn [equations]. lia.
Qed.
Lemma build_2d_lines (Hex : exact_solvers X) junk junk_min junk_max work1 work_min work_max work2 sp c : has_coefficients_2d sp (ax_size A1) (ax_size A2) ->
  run_2d s1 s2 A1 A2 X bd1 bd2 junk junk_min junk_max work1 work_min work_max work2 sp D = Ok c ->
  has_coefficients_2d c (ax_size A1) (ax_size A2) /\ exists sp sd,
  (forall i, 0 <= i < ax_size A1 -> interp A2 (sp i) (fun e => sd e i) (coefficient_2d c i)) /\
  (forall j, 0 <= j < ax_points A2 -> interp A1 (fun i => a2_at (c2_vals (dt_values D)) i j) (fun e k => asked_2d (edge_closure A1 e) (dt_edge1 D e) k j) (fun i => sp i j)) /\
  (forall e l, 0 <= l < edge_equations A2 e -> interp A1 (fun i => asked_2d (edge_closure A2 e) (dt_edge2 D e) i l)
    (fun e1 k => asked_corner (edge_closure A1 e1) (edge_closure A2 e) (dt_corner D e1 e) k l) (fun i => sd e i l)).
Proof.
  intros Hsp E. unfold run_2d, build_2d in E. cbv zeta in E.
  destruct (approximate_derivs _ _ _ _ _ _ _ (ax_lower A2) _ _ _ _ _) as [rmin| |] eqn:Emin; cbn [rbind] in E; [|discriminate..].
  destruct (build1 _ _ _ _ _ _ _ _ _ _ _ _ _) as [q| |] eqn:Eq; cbn [rbind] in E; [|discriminate..].
  destruct (approximate_derivs _ _ _ _ _ _ _ (ax_upper A2) _ _ _ _ _) as [rmax| |] eqn:Emax; cbn [rbind] in E; [|discriminate..].
  destruct (approximate_sound Lower Hex _ _ _ Emin) as [[Bm Gm] Im]. destruct (approximate_sound Upper Hex _ _ _ Emax) as [[BM GM] IM].
  pose proof HD as (HV1 & HV2 & HV3 & HE1 & HE2 & HC). rewrite HV2 in Eq. pose proof (builder_points _ _ _ _ B2) as Hp2.
  destruct (along1_sound s1 A1 X bd1 sz1 (c2_front2 (dt_values D)) (ax_points A2) work1 junk (dt_values D) (dt_edge1 D Lower) (dt_edge1 D Upper) ltac:(lia) eq_refl HV2
      (given_batch Lower _ _ _ (HE1 Lower)) (given_batch Upper _ _ _ (HE1 Upper)) q
      (fun junk sp v dl du c H1 H2 => proj2 (builder_exact solver1 s1 A1 bd1 X B1 Hex junk sp v dl du c H1 H2)) Eq) as (Q1 & Q2 & Q3 & Q4 & Q5).
  destruct (_ && _); cbn [assert_] in E; [|discriminate]. rewrite (proj1 sz1) in E.
  destruct (along2_sound s1 s2 A1 A2 X bd2 sz1 work2 sp q rmin rmax Hsp Q1 Q3 Bm BM c
      (fun junk sp v dl du c H1 H2 => proj2 (builder_exact solver2 s2 A2 bd2 X B2 Hex junk sp v dl du c H1 H2)) E) as [Hc L2].
  split; [exact Hc|].
  set (sd := fun e i => match e with Lower => asked (ax_lower A2) (oln2 rmin i) | Upper => asked (ax_upper A2) (oln2 rmax i) end).
  assert (L2' : forall i, 0 <= i < ax_size A1 -> interp A2 (a2_at (c2_vals q) i) (fun e => sd e i) (coefficient_2d c i)).
  { intros i Hi. exact (L2 i Hi). }
  assert (L1 : forall j, 0 <= j < ax_points A2 -> interp A1 (fun i => a2_at (c2_vals (dt_values D)) i j) (fun e k => asked_2d (edge_closure A1 e) (dt_edge1 D e) k j) (fun i => a2_at (c2_vals q) i j)).
  { intros j Hj. replace (fun e k => asked_2d (edge_closure A1 e) (dt_edge1 D e) k j) with
      (fun e => match e with Lower => asked (ax_lower A1) (oln1 (dt_edge1 D Lower) j) | Upper => asked (ax_upper A1) (oln1 (dt_edge1 D Upper) j) end); [exact (Q5 j Hj)|].
    extensionality e. extensionality k. destruct e; [apply (asked_line Lower) | apply (asked_line Upper)]. }
  assert (Ld : forall e l, 0 <= l < edge_equations A2 e -> interp A1 (fun i => asked_2d (edge_closure A2 e) (dt_edge2 D e) i l)
    (fun e1 k => asked_corner (edge_closure A1 e1) (edge_closure A2 e) (dt_corner D e1 e) k l) (fun i => sd e i l)).
  { intros [|] l Hl; [exact (Im l Hl) | exact (IM l Hl)]. }
  exists (a2_at (c2_vals q)), sd. split; [exact L2'|]. split; [exact L1 | exact Ld].
Qed.
Theorem build_2d_sound (Hex : exact_solvers X) junk junk_min junk_max work1 work_min work_max work2 sp c : has_coefficients_2d sp (ax_size A1) (ax_size A2) ->
  run_2d s1 s2 A1 A2 X bd1 bd2 junk junk_min junk_max work1 work_min work_max work2 sp D = Ok c ->
  has_coefficients_2d c (ax_size A1) (ax_size A2) /\ interpolates_2d A1 A2 D (coefficient_2d c).
Proof.
  intros Hsp E. destruct (build_2d_lines Hex _ _ _ _ _ _ _ _ _ Hsp E) as (Hc & sp' & sd & L2' & L1 & Ld). split; [exact Hc|].
  split; [|split; [|split; [|split]]].
  - exact (values_2d A1 A2 (coefficient_2d c) sp' sd (a2_at (c2_vals (dt_values D))) _ L2' L1).
  - intros e k j Hk Hj. exact (edge_1_holds A1 A2 (coefficient_2d c) sp' sd (a2_at (c2_vals (dt_values D))) (fun e => asked_2d (edge_closure A1 e) (dt_edge1 D e)) L2' L1 e k j Hk Hj).
  - intros e i l Hi Hl. refine (edge_2_holds A1 A2 s2 Sp2 (coefficient_2d c) sp' sd (fun e => asked_2d (edge_closure A2 e) (dt_edge2 D e)) _ L2' Ld e i l Hi Hl).
  - intros e1 e2 k l Hk Hl. refine (corner_holds A1 A2 s2 Sp2 (coefficient_2d c) sp' sd _ (fun e1 e2 => asked_corner (edge_closure A1 e1) (edge_closure A2 e2) (dt_corner D e1 e2)) L2' Ld e1 e2 k l Hk Hl).
  - intros Hp i Hi. exact (proj2 (proj2 (L2' i Hi)) Hp).
Qed.
(** Lines with the same data. *)
Lemma interp_ext A v v' w w' c : (forall i, 0 <= i < ax_points A -> v i = v' i) -> (forall e l, 0 <= l < edge_equations A e -> w e l = w' e l) -> interp A v w c -> interp A v' w' c.
Proof.
  intros Hv Hw (I1 & I2 & I3). split; [|split; [|exact I3]].
  - intros i Hi. rewrite <- Hv by exact Hi. now apply I1.
  - intros e l Hl. destruct (I2 e l Hl) as (g & Hg & Eg). exists g. split; [exact Hg|]. rewrite <- Hw by exact Hl. exact Eg.
Qed.
Theorem build_2d_periodic (Hex : exact_solvers X) junk junk_min junk_max work1 work_min work_max work2 sp c : has_coefficients_2d sp (ax_size A1) (ax_size A2) ->
  run_2d s1 s2 A1 A2 X bd1 bd2 junk junk_min junk_max work1 work_min work_max work2 sp D = Ok c -> determined A2 -> periodic_2d A1 A2 (coefficient_2d c).
Proof.
  intros Hsp E Hd. destruct (build_2d_lines Hex _ _ _ _ _ _ _ _ _ Hsp E) as (Hc & sp' & sd & L2' & L1 & Ld).
  pose proof (f_n _ _ _ _ _ _ _ F1). pose proof (f_d _ _ _ _ _ _ _ F1). split.
  - intros Hp j Hj k Hk. apply (Hd (sp' k) (fun e => sd e k)); [|apply L2'; unfold ax_size; lia | exact Hj].
    apply (interp_ext A2 (sp' (ax_cells A1 + k)) _ (fun e => sd e (ax_cells A1 + k))); [| |apply L2'; unfold ax_size; lia].
    + intros i Hi. exact (proj2 (proj2 (L1 i Hi)) Hp k Hk).
    + intros e l Hl. exact (proj2 (proj2 (Ld e l Hl)) Hp k Hk).
  - intros Hp i Hi. exact (proj2 (proj2 (L2' i Hi)) Hp).
Qed.
(** The sizes of what is written do not depend on the solvers. *)
Lemma along1_shape front n work junk vals dmin dmax r : 0 <= n < 2 ^ 62 -> c2_front2 vals = front -> a2_m (c2_vals vals) = n -> batch1 front n dmin -> batch1 front n dmax ->
  build1 RA s1 (ax_lower A1) (ax_upper A1) X bd1 front n work (mk_chunk_2d (A := RA) 0 front (mk_arr2 (bs_size RA s1) n junk)) vals dmin dmax = Ok r ->
  c2_front1 r = 0 /\ c2_front2 r = front /\ a2_n (c2_vals r) = ax_size A1 /\ a2_m (c2_vals r) = n.
Proof.
  intros Hn V1 V2 H1 H2 E.
  destruct (lines_sound (line1 RA) (put1 RA) (fun c => c2_front1 c) (fun c => c2_front2 c) (fun c => a2_m (c2_vals c)) (fun c => a2_n (c2_vals c)) (fun c k i => a2_at (c2_vals c) i k) line1_get put1_put
    (build RA s1 (ax_lower A1) (ax_upper A1) X bd1) front n work (mk_chunk_2d (A := RA) 0 front (mk_arr2 (bs_size RA s1) n junk)) vals dmin dmax (ax_size A1) Hn eq_refl eq_refl eq_refl (proj1 sz1) V1 V2 H1 H2 r E) as (R1 & R2 & R3 & R4 & _).
  repeat split; assumption.
Qed.
Lemma approximate_total e junk work : never_fails s1 A1 X bd1 ->
  exists r, approximate_derivs RA s1 s2 (ax_lower A1) (ax_upper A1) X bd1 (edge_closure A2 e) junk work (dt_edge2 D e) (dt_corner D Lower e) (dt_corner D Upper e) = Ok r /\ derivs_ok e r.
Proof.
  intros HX. destruct HD as (HV1 & HV2 & HV3 & HE1 & HE2 & HC). destruct half2 as [H2 H2'].
  specialize (HE2 e). unfold given_2 in HE2. unfold approximate_derivs. pose proof (fun e1 => HC e1 e) as HCe. unfold derivs_ok. destruct (edge_closure A2 e) eqn:Ec.
  1, 3, 4: exists None; split; [reflexivity|]; split; [exact I | intros; exact I].
  destruct (dt_edge2 D e) as [w|]; [|contradiction]. destruct HE2 as (W1 & W2 & W3). rewrite odd2, H2.
  replace ((c2_front2 w =? ax_degree A2 mod 2) && (a2_m (c2_vals w) =? ax_degree A2 / 2)) with true by lia. cbn [assert_].
  destruct (along1_total s1 A1 X bd1 sz1 (ax_degree A2 mod 2) (ax_degree A2 / 2) work junk w (dt_corner D Lower e) (dt_corner D Upper e) H2' W1 W3
      (given_batch Lower _ _ _ (HCe Lower eq_refl)) (given_batch Upper _ _ _ (HCe Upper eq_refl))) as (q & Eq).
  - intros k Hk. split; [exact (given_lines Lower _ _ _ k (HCe Lower eq_refl)) | exact (given_lines Upper _ _ _ k (HCe Upper eq_refl))].
  - exact W2.
  - exact HX.
  - match goal with |- context [build1 ?a ?b ?c ?d ?e ?f ?g ?h ?i ?j ?k ?l ?m] => replace (build1 a b c d e f g h i j k l m) with (Ok q : res (chunk_2d RA)) by (symmetry; exact Eq) end. cbn [rbind]. exists (Some q). split; [reflexivity|].
    destruct (along1_shape _ _ _ _ _ _ _ _ H2' W1 W3 (given_batch Lower _ _ _ (HCe Lower eq_refl)) (given_batch Upper _ _ _ (HCe Upper eq_refl)) Eq) as (Q1 & Q2 & Q3 & Q4).
    split; [split; assumption | intros k Hk; split; assumption].
Qed.
Theorem build_2d_total junk junk_min junk_max work1 work_min work_max work2 sp : never_fails s1 A1 X bd1 -> never_fails s2 A2 X bd2 -> has_coefficients_2d sp (ax_size A1) (ax_size A2) ->
  exists c, run_2d s1 s2 A1 A2 X bd1 bd2 junk junk_min junk_max work1 work_min work_max work2 sp D = Ok c.
Proof.
  intros HX1 HX2 Hsp. unfold run_2d, build_2d. cbv zeta.
  destruct (approximate_total Lower junk_min work_min HX1) as (rmin & Emin & Bm & Gm). destruct (approximate_total Upper junk_max work_max HX1) as (rmax & Emax & BM & GM).
  cbn [edge_closure] in *. rewrite Emin. cbn [rbind].
  pose proof HD as (HV1 & HV2 & HV3 & HE1 & HE2 & HC). rewrite HV2. pose proof (builder_points _ _ _ _ B2) as Hp2.
  destruct (along1_total s1 A1 X bd1 sz1 (c2_front2 (dt_values D)) (ax_points A2) work1 junk (dt_values D) (dt_edge1 D Lower) (dt_edge1 D Upper) ltac:(lia) eq_refl HV2
      (given_batch Lower _ _ _ (HE1 Lower)) (given_batch Upper _ _ _ (HE1 Upper))) as (q & Eq).
  { intros k Hk. split; [exact (given_lines Lower _ _ _ k (HE1 Lower)) | exact (given_lines Upper _ _ _ k (HE1 Upper))]. }
  { exact HV1. } { exact HX1. }
  match goal with |- context [build1 ?a ?b ?c ?d ?e ?f ?g ?h ?i ?j ?k ?l ?m] => replace (build1 a b c d e f g h i j k l m) with (Ok q : res (chunk_2d RA)) by (symmetry; exact Eq) end. cbn [rbind]. rewrite Emax. cbn [rbind].
  destruct (along1_shape (c2_front2 (dt_values D)) (ax_points A2) work1 junk (dt_values D) (dt_edge1 D Lower) (dt_edge1 D Upper) q ltac:(lia) eq_refl HV2 (given_batch Lower _ _ _ (HE1 Lower)) (given_batch Upper _ _ _ (HE1 Upper)) Eq) as (Q1 & Q2 & Q3 & Q4).
  rewrite (proj1 sz1). pose proof Hsp as (P1 & P2 & P3 & P4). replace ((c2_front1 sp =? 0) && (a2_n (c2_vals sp) =? ax_size A1)) with true by lia. cbn [assert_].
  apply (along2_total s1 s2 A1 A2 X bd2 sz1 work2 sp q rmin rmax Hsp Q1 Q3 Bm BM); [|exact Q4 | exact HX2].
  intros k Hk. split; [exact (Gm k Hk) | exact (GM k Hk)].
Qed.
End Whole.
