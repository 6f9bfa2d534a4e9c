(** What uniform and non-uniform spaces of splines have in common. *)
From Coq Require Import Bool Reals Lia Lra ZifyBool List.
From Verif Require Import EvaluatorSpec LoopProofs BSplineMath BSplineDeriv KnotProofs NonUniformProofs UniformProofs SplineLemmas SplineLemmas2 IntegralMath IntegralMath2 IntegralProofs.
Import ListNotations.
Local Open Scope bool_scope. Local Open Scope Z_scope.

Definition in_cell (t : Z -> R) (d ncells : Z) (b x : R) (c : Z) : Prop :=
  d <= c < d + ncells /\ ((t c <= x < t (c + 1)%Z)%R \/ (x = b /\ c = d + ncells - 1)).

Record facts (s : bspline_space RA) (d : Z) (periodic : bool) (ncells : Z) (t : Z -> R) (a b : R) : Prop := mk_facts {
  f_d : 1 <= d; f_n : 1 <= ncells; f_ab : (a < b)%R; f_big : ncells + 1 + 2 * d < 2 ^ 31;
  f_deg : bs_degree RA s = d; f_per : bs_periodic RA s = periodic;
  f_rmin : bs_rmin RA s = Ok (a : num RA); f_rmax : bs_rmax RA s = Ok (b : num RA);
  f_ncells : bs_ncells RA s = ncells; f_nbasis : bs_nbasis RA s = (if periodic then ncells else ncells + d); f_size : bs_size RA s = ncells + d;
  f_first : t d = a; f_last : t (d + ncells) = b;
  f_mono : forall i j, i <= j -> (t i <= t j)%R;
  f_cell : forall c, d <= c < d + ncells -> (t c < t (c + 1)%Z)%R;
  f_period : periodic = true -> forall k, t (k + ncells) = (t k + (b - a))%R;
  f_eval : forall m x, (a <= x <= b)%R -> exists v c, bs_eval_basis RA s m x = Ok (v, c - d) /\ in_cell t d ncells b x c /\
     a_len v = d + 1 /\ (forall r, 0 <= r <= d -> a_at v r = bspline_piece t c (Z.to_nat d) (c - d + r) x);
  f_derivs : forall m x n, (a <= x <= b)%R -> 0 <= n <= d -> falling_z d (Z.to_nat n) < 2 ^ 31 ->
     exists v c, bs_n_derivs RA s m x n = Ok (v, c - d) /\ in_cell t d ncells b x c /\
     a2_n v = d + 1 /\ a2_m v = n + 1 /\ (forall r k, 0 <= r <= d -> 0 <= k <= n -> a2_at v r k = kth t c d r (Z.to_nat k) x);
  f_integrals : forall q m (iv : chunk_1d RA), c1_front RA iv = 0 ->
     c1_size RA iv = (if periodic then ncells else ncells + d) \/ (periodic = true /\ c1_size RA iv = ncells + d) ->
     (bs_uniform RA s = true -> periodic = false -> d <= ncells) ->
     exists c, bs_integrals RA q s m iv = Ok c /\ c1_front RA c = 0 /\ c1_size RA c = c1_size RA iv /\
       (forall i, 0 <= i < (if periodic then ncells else ncells + d) ->
          integral (if periodic then periodic_bspline t b d ncells i else bspline t b (Z.to_nat d) i) a b (a_at (c1_vals RA c) i)) /\
       (forall i, (if periodic then ncells else ncells + d) <= i < c1_size RA iv -> a_at (c1_vals RA c) i = 0%R);
  f_far : forall m order x, (x < a - (b - a) * tolerance RA \/ b + (b - a) * tolerance RA < x)%R ->
     bs_eval_basis RA s m x = Undef /\ bs_n_derivs RA s m x order = Undef
}.

Lemma far_assert x a b : (x < a - (b - a) * tolerance RA \/ b + (b - a) * tolerance RA < x)%R -> in_range_assert RA x a b = false.
Proof. intros H. destruct (in_range_assert RA x a b) eqn:E; [|reflexivity]. apply in_range_iff in E. lra. Qed.

Theorem space_facts s d periodic ncells t a b : spline_space s d periodic ncells t a b -> facts s d periodic ncells t a b.
Proof.
  intros H. destruct H as [q d periodic a b ncells s Hd Hn Hab Hbig E | junk d periodic l s Hd Hlen Hs Hbig E].
  - destruct (ub_construct_ok q a b ncells d periodic Hd Hn Hbig Hab) as (s' & E' & Hsp).
    assert (Hinj : forall x y : u_bsplines RA, Ok x = Ok y -> x = y) by congruence.
    rewrite E in E'. apply Hinj in E'. subst s'. clear Hinj.
    destruct (un_construct q d periodic a b ncells Hd Hn Hab Hbig) as (s' & E' & F).
    assert (Hinj : forall x y : u_bsplines RA, Ok x = Ok y -> x = y) by congruence.
    rewrite E in E'. apply Hinj in E'. subst s'. clear Hinj.
    destruct F as (F1 & F2 & F3 & F4 & F5 & F6 & F7 & F8 & F9 & F10 & _ & F12 & F13 & F14).
    pose proof Hsp as (G1 & G2 & _).
    constructor; cbn [bs_degree bs_periodic bs_rmin bs_rmax bs_ncells bs_nbasis bs_size bs_uniform]; try assumption; try congruence.
    + intros i j. apply (us_mono a b ncells d Hn Hab).
    + intros c _. apply (us_cell a b ncells d Hn Hab).
    + intros _ k. unfold uniform_knots. replace (k + ncells - d) with ((k - d) + ncells) by lia. rewrite plus_IZR. field. apply not_0_IZR. lia.
    + intros m x Hx. destruct (us_locate a b ncells d periodic Hd Hn Hbig Hab s Hsp x Hx) as (j & off & L1 & L2 & L3 & L4).
      destruct (up_eval_basis a b ncells d periodic Hd Hn Hbig Hab s Hsp x j off L2 L3 L1 (mk_arr (d + 1) (m_vals m)) eq_refl) as (v & V1 & V2 & V3).
      exists v, (d + j). unfold bs_eval_basis. cbn [bs_degree]. rewrite G1. split; [rewrite V1; do 2 f_equal; lia|]. split.
      { split; [lia|]. destruct L4 as [L4|[-> ->]]; [left; exact L4 | right; split; [reflexivity | lia]]. }
      split; [exact V2|]. intros r Hr. rewrite V3 by lia. unfold V. f_equal. 
    + intros m x n Hx Hnd _. destruct (us_locate a b ncells d periodic Hd Hn Hbig Hab s Hsp x Hx) as (j & off & L1 & L2 & L3 & L4).
      destruct (up_n_derivs a b ncells d periodic Hd Hn Hbig Hab s Hsp x j off L2 L3 L1 (m_ndu m) (m_a m) (mk_arr2 (d + 1) (n + 1) (m_derivs m)) n Hnd Hx eq_refl eq_refl) as (v & V1 & V2 & V3 & V4).
      exists v, (d + j). unfold bs_n_derivs. cbn [bs_degree]. rewrite G1. split; [rewrite V1; do 2 f_equal; lia|]. split.
      { split; [lia|]. destruct L4 as [L4|[-> ->]]; [left; exact L4 | right; split; [reflexivity | lia]]. }
      split; [exact V2|]. split; [exact V3|]. exact V4.
    + intros q' m iv Hf Hsz Hfew. destruct (u_integrals_space d periodic a b ncells Hd Hn Hab Hbig q' s (m_vals m) iv Hsp Hf Hsz (Hfew eq_refl)) as (c & I1 & I2 & I3 & I4 & I5 & _).
      exists c. repeat split; assumption.
    + intros m order x Hfar. apply far_assert in Hfar. unfold bs_eval_basis, bs_n_derivs, ub_eval_basis, ub_eval_basis_degree, ub_eval_basis_and_n_derivs, ub_icell_and_offset.
      cbn [bs_degree a_len a2_n a2_m]. rewrite F5, F6, Hfar, Z.eqb_refl. split; reflexivity.
  - destruct (nu_space d periodic l Hd Hlen Hs Hbig junk) as (s' & E' & G1 & G2 & G3 & G4 & G5 & G6).
    assert (Hinj : forall x y : n_bsplines RA, Ok (Some x) = Ok (Some y) -> x = y) by congruence.
    rewrite E in E'. apply Hinj in E'. subst s'.
    destruct (nu_construct d periodic l junk ltac:(lia) Hlen Hbig (strict_incr l Hs) (first_last l Hlen Hs)) as (s' & E' & F).
    rewrite E in E'. apply Hinj in E'. subst s'.
    destruct F as (F1 & F2 & F3 & F4 & F5 & F6 & F7 & F8 & F9 & F10 & F11).
    constructor; cbn [bs_degree bs_periodic bs_rmin bs_rmax bs_ncells bs_nbasis bs_size bs_uniform]; try assumption; try lia.
    + apply (first_last l Hlen Hs).
    + rewrite <- (Z.add_0_r d) at 2. rewrite F3 by lia. reflexivity.
    + rewrite F3 by lia. unfold last_point. f_equal. lia.
    + intros c Hc. apply sp_cell; assumption.
    + intros -> k. apply (F5 k).
    + intros m x Hx. destruct (find_cell_in l d periodic s Hd Hlen Hbig Hs G3 G4 G6 x Hx) as (c & C1 & _ & C2 & C3).
      destruct (pt_eval_basis l d periodic s Hd Hlen Hbig Hs G1 G3 G6 x c C2 C1 (m_left m) (m_right m) (mk_arr (d + 1) (m_vals m)) eq_refl) as (v & V1 & V2 & V3).
      exists v, c. unfold bs_eval_basis. cbn [bs_degree]. rewrite G1. split; [exact V1|]. split; [split; assumption|]. split; [exact V2|].
      intros r Hr. rewrite V3 by lia. reflexivity.
    + intros m x n Hx Hnd Hfall. destruct (find_cell_in l d periodic s Hd Hlen Hbig Hs G3 G4 G6 x Hx) as (c & C1 & _ & C2 & C3).
      destruct (pt_n_derivs l d periodic s Hd Hlen Hbig Hs G1 G3 G6 x c C2 C1 (m_left m) (m_right m) (m_ndu m) (m_a m) (mk_arr2 (d + 1) (n + 1) (m_derivs m)) n Hnd Hfall eq_refl eq_refl) as (v & V1 & V2 & V3 & V4).
      exists v, c. unfold bs_n_derivs. cbn [bs_degree]. rewrite G1. split; [exact V1|]. split; [split; assumption|]. split; [exact V2|]. split; [exact V3 | exact V4].
    + intros q m iv Hf Hsz _. destruct (nu_integrals d periodic l Hd Hlen Hs Hbig q junk iv Hf Hsz) as (s' & c & E' & I1 & I2 & I3 & I4 & I5 & _).
      rewrite E in E'. apply Hinj in E'. subst s'. exists c. repeat split; assumption.
    + intros m order x Hfar. apply far_assert in Hfar. unfold bs_eval_basis, bs_n_derivs, nb_eval_basis, nb_eval_basis_and_n_derivs, nb_cell.
      cbn [bs_degree a_len a2_n a2_m]. rewrite F10, F11. cbn [rbind]. rewrite Hfar, Z.eqb_refl. cbn [assert_ rbind]. split; [reflexivity|].
      unfold assert_. now destruct (_ && _ && _).
Qed.
