(** The constructor of the builder, and what the coefficients satisfy. *)
From Coq Require Import Bool Reals Lia Lra ZifyBool List.
From Verif Require Import BuilderSpec LoopProofs BSplineMath BSplineDeriv SamplingProofs MathProofs LinearProofs LinearProofs2 LinearProofs3 LinearLemmas EvaluatorSpace EvaluatorProofs BuilderMath BuilderProofs BuilderProofs2.
Import ListNotations.
Local Open Scope bool_scope. Local Open Scope Z_scope.

Section Construct.
Context (s : bspline_space RA) (d : Z) (periodic : bool) (ncells : Z) (t : Z -> R) (a b : R) (F : facts s d periodic ncells t a b).
Context (lower upper : closure) (Hcompat : compatible_closures RA s lower upper = true) (m : scratch RA) (solver : spline_solver).
Let Hd : 1 <= d := f_d _ _ _ _ _ _ _ F.
Let Hn : 1 <= ncells := f_n _ _ _ _ _ _ _ F.
Let Hbig : ncells + 1 + 2 * d < 2 ^ 31 := f_big _ _ _ _ _ _ _ F.
Let N := unknowns periodic d ncells.
Let first := equations lower d.
Let last := N - equations upper d.
Let h := ((b - a) / IZR ncells)%R.
Let size := ncells + d.
Let cr := problem_of solver (bs_uniform RA s) periodic d ncells lower upper.

Lemma shape_N : sh_n (shape_of cr) = N.
Proof. unfold cr, problem_of. destruct solver; [reflexivity|]. fold N. destruct (bool_dec periodic true) as [Ep | Ep%not_true_is_false]; rewrite Ep; cbn [shape_of]; [|reflexivity]. unfold periodic_shape. destruct (_ <=? _); reflexivity. Qed.
Lemma allocate_eq : allocate_matrix RA s solver lower upper = create RA cr.
Proof.
  pose proof (N_pos s d periodic ncells t a b F lower upper Hcompat) as HN. fold N first last in HN. pose proof (half_d s d periodic ncells t a b F) as Hh.
  unfold allocate_matrix, cr, problem_of. rewrite (nbasis_N s d periodic ncells t a b F), (f_deg _ _ _ _ _ _ _ F), (f_per _ _ _ _ _ _ _ F). fold N. rewrite (i32_small N) by lia.
  destruct solver.
  - cbn [create]. now rewrite u64_small by lia.
  - unfold u64_sub. rewrite (u64_small (d - 1)) by lia. rewrite (i32_small (d / 2)), (i32_small (d - 1)) by lia.
    destruct (bool_dec periodic true) as [Ep | Ep%not_true_is_false]; rewrite Ep; cbn [create]; [reflexivity|].
    rewrite (nbe_min s d periodic ncells t a b F lower), (nbe_max s d periodic ncells t a b F upper).
    assert (B : forall cl, cl <> PERIODIC -> block_size RA s cl (equations cl d) = border (bs_uniform RA s) cl d).
    { intros cl Hcl. unfold block_size, border. rewrite (f_deg _ _ _ _ _ _ _ F), (i32_small d) by lia. destruct cl, (bs_uniform RA s); try reflexivity; congruence. }
    assert (P : lower <> PERIODIC /\ upper <> PERIODIC).
    { unfold compatible_closures in Hcompat. rewrite (f_per _ _ _ _ _ _ _ F), Ep in Hcompat. destruct lower, upper; try discriminate; split; discriminate. }
    rewrite !B by apply P. reflexivity.
Qed.

Context (start n : Z) (coord : Z -> res R) (x : Z -> R).
Hypothesis Hstart : 0 <= start.
Hypothesis Hsmall : start + ncells + 1 + 2 * d < 2 ^ 31.
Hypothesis Hcoord : forall i, 0 <= i < n -> coord (start + i) = Ok (x i) /\ (a <= x i <= b)%R.
Hypothesis Hcells : periodic = true -> d + 1 <= ncells.
Hypothesis Hfact : is_hermite lower || is_hermite upper = true -> falling_z d (Z.to_nat (d / 2)) < 2 ^ 31.

Lemma offset_ok : n = last - first -> exists off, compute_offset RA s m start coord = Ok off /\ (periodic = false -> off = 0) /\ - start - d <= off <= ncells + d.
Proof.
  intros En. pose proof (half_d s d periodic ncells t a b F) as Hh.
  unfold compute_offset. rewrite (f_per _ _ _ _ _ _ _ F), (f_deg _ _ _ _ _ _ _ F).
  destruct (bool_dec periodic true) as [Ep | Ep%not_true_is_false]; rewrite Ep.
  - destruct (compat_periodic s d periodic ncells t a b F lower upper Hcompat Ep) as [El Eu]. pose proof (Hcells Ep) as Hc.
    assert (EN : n = ncells). { rewrite En. unfold last, first, N, unknowns. rewrite Ep, El, Eu. cbn [equations]. lia. }
    unfold u64_add at 1. rewrite u64_small by lia. destruct (Hcoord d ltac:(lia)) as [-> Hx]. cbn [rbind].
    destruct (f_eval _ _ _ _ _ _ _ F m (x d) Hx) as (v & c & E & Hcell & Hv & _). destruct Hcell as [Hc1 _].
    assert (G : forall k, 0 <= k <= d -> i32 (u64_sub (u64_add (u64_sub (c - d) start) k) d) = c - d - start + k - d).
    { intros k Hk. unfold u64_sub at 1, u64_add, u64_sub, u64. rewrite Zplus_mod_idemp_l, Zminus_mod_idemp_l. fold (u64 (c - d - start + k - d)). rewrite i32_u64. apply i32_small. lia. }
    exists (if d mod 2 =? 0 then c - d - start + d / 2 - d else c - d - start + (if nltb RA (a_at v (d / 2 + 1)) (a_at v (d / 2)) then d / 2 else d / 2 + 1) - d).
    split; [|split; [discriminate|]].
    + change (num RA) with R in *. rewrite E. cbn [rbind]. destruct (d mod 2 =? 0) eqn:Em; [now rewrite G by lia|].
      rewrite !aget_ok by lia. cbn [rbind]. rewrite G; [reflexivity|]. destruct (nltb _ _ _); lia.
    + destruct (d mod 2 =? 0) eqn:Em; [lia|]. destruct (nltb _ _ _); lia.
  - exists 0. split; [reflexivity|]. split; [reflexivity|]. lia.
Qed.
Hypothesis Hsens : sensible cr.
Definition matrix_at (off : Z) : Z -> Z -> R := collocation periodic t a b d ncells lower upper x off.
Lemma valid_points : check_valid_grid RA s lower upper start n coord = Ok tt -> n = last - first.
Proof.
  unfold check_valid_grid. rewrite (expected_eq s d periodic ncells t a b F lower upper Hcompat). fold N first last.
  destruct (Z.eqb_spec n (last - first)) as [E | E]; [intros _; exact E | discriminate].
Qed.
(** When the constructor succeeds. *)
Lemma construct_ok off : check_valid_grid RA s lower upper start n coord = Ok tt -> compute_offset RA s m start coord = Ok off ->
  representable (shape_of cr) (matrix_at off) ->
  exists p0 p, create RA cr = Ok p0 /\ builder_construct RA s m solver lower upper start n coord = Ok (mk_builder off (h : num RA) p) /\
    exists hist, set_all RA p0 hist = Ok p /\ assignments RA (shape_of cr) hist /\
      forall i j, 0 <= i < N -> 0 <= j < N -> kept 0%R (shape_of cr) hist i j = matrix_at off i j.
Proof.
  intros Hv Ho Hrep. pose proof (valid_points Hv) as En. destruct (offset_ok En) as (off' & E' & O1 & O2).
  assert (off' = off) as -> by congruence. destruct (create_zero RA cr Hsens) as (p0 & Ep0 & _). exists p0.
  destruct (build_matrix_ok s d periodic ncells t a b F m lower upper Hcompat start n coord x Hstart Hsmall Hcoord Hfact off O1 O2 Hcells En cr Hsens p0 Ep0 Hrep shape_N)
    as (p & Ep & Hh). exists p. split; [exact Ep0|]. split; [|exact Hh].
  unfold builder_construct. rewrite (f_rmin _ _ _ _ _ _ _ F), (f_rmax _ _ _ _ _ _ _ F). cbn [rbind]. rewrite Hv. cbn [rbind]. rewrite Ho. cbn [rbind].
  rewrite allocate_eq, Ep0. cbn [rbind]. rewrite (f_ncells _ _ _ _ _ _ _ F). cbn [nsub ndiv nofz RA].
  change (num RA) with R in *. unfold h in *. rewrite Ep. reflexivity.
Qed.
Lemma construct_inv bd : builder_construct RA s m solver lower upper start n coord = Ok bd ->
  check_valid_grid RA s lower upper start n coord = Ok tt /\ compute_offset RA s m start coord = Ok (bd_offset bd).
Proof.
  unfold builder_construct. rewrite (f_rmin _ _ _ _ _ _ _ F), (f_rmax _ _ _ _ _ _ _ F). cbn [rbind].
  destruct (check_valid_grid _ _ _ _ _ _ _) as [[]| |]; try discriminate. cbn [rbind].
  destruct (compute_offset _ _ _ _ _) as [off| |]; try discriminate. cbn [rbind].
  destruct (allocate_matrix _ _ _ _ _) as [p0| |]; try discriminate. cbn [rbind].
  destruct (build_matrix_system _ _ _ _ _ _ _ _ _ _ _) as [p| |]; try discriminate. cbn [rbind].
  intros E. assert (Hinj : forall u v : builder RA, Ok u = Ok v -> u = v) by congruence. apply Hinj in E. subst bd. split; reflexivity.
Qed.
(** When a build succeeds. *)
Lemma check_given cl dv pos cnt sp sp' bd : cnt = equations cl d -> check_derivs RA s cl dv = true -> put_closure RA s bd cl pos cnt dv sp = Ok sp' -> given cl d dv.
Proof.
  intros -> H1 H2. unfold check_derivs in H1. rewrite (odd_eq s d periodic ncells t a b F) in H1. destruct cl; cbn [given put_closure] in *.
  - destruct dv; [lia | exact I].
  - destruct dv as [w|]; [|discriminate]. split; [lia|]. unfold put_derivs in H2. destruct (Z.eqb_spec (c1_size RA w) (equations HERMITE d)) as [E | E]; [exact E | discriminate].
  - destruct dv; [lia | exact I].
  - destruct dv; [lia | exact I].
Qed.
Lemma build_inv X off p junk sp (v : arr R) dl du c : (periodic = false -> off = 0) -> has_coefficients sp size ->
  build RA s lower upper X (mk_builder off (h : num RA) p) junk sp v dl du = Ok c ->
  given lower d dl /\ given upper d du /\ a_len v = last - first /\ 0 <= off <= d.
Proof.
  intros Hoff Hsp. pose proof (N_pos s d periodic ncells t a b F lower upper Hcompat) as HN. fold N first last in HN.
  pose proof (equations_bound s d periodic ncells t a b F lower) as Bl. pose proof (equations_bound s d periodic ncells t a b F upper) as Bu. pose proof (half_d s d periodic ncells t a b F) as Hh.
  unfold build. change (num RA) with R in *. rewrite (expected_eq s d periodic ncells t a b F lower upper Hcompat). fold N first last.
  destruct (Z.eqb_spec (a_len v) (last - first)) as [Hv | Hv]; [cbn [assert_]|discriminate].
  rewrite (nbe_min s d periodic ncells t a b F lower), (nbe_max s d periodic ncells t a b F upper), (nbasis_N s d periodic ncells t a b F). fold N first last.
  destruct (check_derivs RA s lower dl) eqn:C1; [|discriminate]. destruct (check_derivs RA s upper du) eqn:C2; [|discriminate]. cbn [andb assert_ bd_offset bd_matrix].
  destruct (put_closure RA s _ lower 0 first dl sp) as [sp1| |] eqn:E1; try discriminate. cbn [rbind].
  pose proof (check_given _ _ _ _ _ _ _ eq_refl C1 E1) as Gl.
  destruct (put_closure_ok s d periodic ncells t a b F lower upper Hcompat off p lower 0 dl sp Gl Hsp) as (sp1' & E1' & A1 & _); [lia | fold first; lia|].
  fold h first in E1'. change (num RA) with R in *. rewrite E1 in E1'. assert (sp1' = sp1) as -> by congruence.
  destruct (fill_part RA sp1 first off (nofz RA 0)) as [sp2| |] eqn:E2; try discriminate. cbn [rbind].
  assert (H0 : 0 <= off /\ first + off <= size).
  { unfold fill_part, inside in E2. destruct A1 as [_ A1]. rewrite A1 in E2. destruct ((0 <=? off) && (0 <=? first) && (first + off <=? ncells + d)) eqn:Ei; [|discriminate]. unfold size. lia. }
  destruct (fill_part_ok s d periodic ncells t a b F lower upper Hcompat sp1 first off (nofz RA 0) A1) as (sp2' & E2' & B1 & _); [lia | lia | lia |].
  change (num RA) with R in *. rewrite E2 in E2'. assert (sp2' = sp2) as -> by congruence.
  destruct (inside RA sp2 (first + off) (last - first)) eqn:Ei.
  2:{ rewrite Hv, Ei. discriminate. }
  assert (H1 : 0 <= off <= d).
  { unfold inside in Ei. destruct B1 as [_ B1]. rewrite B1 in Ei. destruct (bool_dec periodic true) as [Ep | Ep%not_true_is_false].
    - destruct (compat_periodic s d periodic ncells t a b F lower upper Hcompat Ep) as [El Eu].
      assert (first = 0 /\ last = ncells). { unfold last, first, N, unknowns. rewrite Ep, El, Eu. cbn [equations]. lia. } lia.
    - rewrite (Hoff Ep). lia. }
  rewrite Hv, Ei. cbn [assert_].
  match goal with |- context [rbind (for_range 0 (last - first) ?f sp2)] => destruct (for_range 0 (last - first) f sp2) as [sp3| |] end; try discriminate. cbn [rbind].
  assert (EL : u64_sub N (u64 (equations upper d)) = last).
  { unfold u64_sub. rewrite (u64_small (equations upper d)) by lia. fold last. rewrite u64_small; lia. }
  rewrite EL. destruct (put_closure RA s _ upper last (equations upper d) du sp3) as [sp4| |] eqn:E4; try discriminate.
  pose proof (check_given _ _ _ _ _ _ _ eq_refl C2 E4) as Gu. intros _. repeat split; try assumption; lia.
Qed.
End Construct.
