(** Interpolation points: from the parameters of the B-splines to the points. *)
From Coq Require Import Bool Reals Lia Lra ZifyBool List.
From Verif Require Import PointsModel PointsSpec BSplineSpec LoopProofs BSplineMath BSplineDeriv SamplingSpec SamplingProofs CellProofs KnotProofs NonUniformProofs SplineLemmas SplineLemmas2 PointsProofs PointsProofs2 PointsProofs3.
Import ListNotations.
Local Open Scope bool_scope. Local Open Scope Z_scope.

Lemma pts_domain lower upper d nbasis : 0 <= d < 2 ^ 31 -> nbasis < 2 ^ 62 -> n_boundary_equations lower d + n_boundary_equations upper d <= nbasis ->
  greville_domain_size lower upper d nbasis = nbasis - n_boundary_equations lower d - n_boundary_equations upper d.
Proof.
  intros Hd Hn Hle. pose proof (nbeq_range lower d Hd). pose proof (nbeq_range upper d Hd). unfold greville_domain_size. rewrite n_be_eq by lia. unfold u64_sub.
  rewrite u64_small by lia. rewrite i64_small by lia. lia.
Qed.
Theorem pts_open : forall q d (l : list R) lower upper junk, 1 <= d -> (2 <= length l)%nat -> strictly_increasing l -> Z.of_nat (length l) + 3 * d < 2 ^ 31 ->
  let ncells := Z.of_nat (length l) - 1 in let t := knots false d l in
  let lo := n_boundary_equations lower d in let N := ncells + d - lo - n_boundary_equations upper d in
  let x := fun k => greville t d (k + lo) in
  exists s, nb_construct RA junk d false l = Ok (Some s) /\ nb_nbasis RA s = ncells + d /\
    ng_points_with_bcs RA q lower upper s = Ok (Some (mk_ns RA (points_of N x) 0)) /\
    (forall i j, 0 <= i < j -> j < N -> (x i < x j)%R) /\
    (forall i, 0 <= i < N -> (first_point l <= x i <= last_point l)%R) /\
    (lo = 0 -> x 0 = first_point l) /\ (n_boundary_equations upper d = 0 -> x (N - 1) = last_point l) /\
    1 <= N /\ greville_domain_size lower upper d (nb_nbasis RA s) = N.
Proof.
  intros q d l lower upper junk Hd Hlen Hs Hbig ncells t lo N x.
  destruct (nu_space d false l Hd Hlen Hs ltac:(lia) junk) as (s & E & P1 & P2 & P3 & P4 & P5 & P6). exists s. split; [exact E|].
  assert (Nb : nb_nbasis RA s = ncells + d) by (rewrite (g_nbasis d false l s) by (assumption || lia); reflexivity).
  pose proof (nbeq_range lower d ltac:(lia)) as Hlo. pose proof (nbeq_range upper d ltac:(lia)) as Hup. fold lo in Hlo.
  assert (D : 2 * (d / 2) <= d) by (apply Z.mul_div_le; lia). assert (HN : 1 <= N) by (unfold N, ncells in *; lia).
  assert (St : forall i j, 0 <= i < j -> j < ncells + d -> (greville t d i < greville t d j)%R).
  { apply strict_steps. intros i Hi Hi1. apply g_strict; try assumption. right. unfold ncells in *. lia. }
  split; [exact Nb|]. split.
  { apply (with_bcs_ok q lower upper s d (ncells + d) (greville t d)); try assumption; try (unfold ncells; lia).
    apply open_points; try assumption; lia. }
  split. { intros i j Hij Hj. apply St; unfold N in *; lia. }
  split. { intros i Hi. apply open_range; assumption. }
  split. { intros H0. unfold x. rewrite H0. apply open_first; assumption. }
  split. { intros H0. unfold x. replace (N - 1 + lo) with (ncells + d - 1) by (unfold N; lia). apply open_last; assumption. }
  split; [exact HN|]. rewrite Nb. apply pts_domain; unfold N, ncells in *; lia.
Qed.
Theorem pts_periodic : forall q d (l : list R) junk, 1 <= d -> (2 <= length l)%nat -> strictly_increasing l -> Z.of_nat (length l) + 3 * d < 2 ^ 31 ->
  let ncells := Z.of_nat (length l) - 1 in let t := knots true d l in d <= ncells ->
  exists s m, nb_construct RA junk d true l = Ok (Some s) /\ nb_nbasis RA s = ncells /\ 0 <= m < d /\
    let x := fun k => greville t d (k + m) in
    ng_points_with_bcs RA q PERIODIC PERIODIC s = Ok (Some (mk_ns RA (points_of (ncells + 1) x) 0)) /\
    (forall i j, i < j -> (x i < x j)%R) /\
    (forall i, 0 <= i < ncells -> (first_point l <= x i < last_point l)%R) /\
    x ncells = (x 0%Z + (last_point l - first_point l))%R /\
    greville_domain_size PERIODIC PERIODIC d (nb_nbasis RA s) = ncells.
Proof.
  intros q d l junk Hd Hlen Hs Hbig ncells t Hc.
  destruct (nu_space d true l Hd Hlen Hs ltac:(lia) junk) as (s & E & P1 & P2 & P3 & P4 & P5 & P6).
  assert (Nb : nb_nbasis RA s = ncells) by (rewrite (g_nbasis d true l s) by (assumption || lia); reflexivity).
  assert (R1 : nb_rmin RA s = Ok (first_point l : num RA)) by (apply (sp_rmin l d true); assumption || lia).
  assert (R2 : nb_rmax RA s = Ok (last_point l : num RA)) by (apply (sp_rmax l d true); assumption || lia).
  destruct (periodic_points d l s Hd Hlen Hs ltac:(lia) Hc P1 P2 P5 P6 R1 R2) as (m & Hm & Ep & Hr).
  exists s, m. split; [exact E|]. split; [exact Nb|]. split; [exact Hm|]. intros x. split.
  { unfold ng_points_with_bcs. rewrite n_be_eq by (rewrite P1; lia). cbn [n_boundary_equations]. exact Ep. }
  split. { intros i j Hij. apply per_strict; try assumption. lia. }
  split; [exact Hr|]. split.
  { unfold x. replace (ncells + m) with (m + ncells) by lia. apply per_shift; assumption. }
  rewrite Nb, pts_domain; cbn [n_boundary_equations]; unfold ncells in *; lia.
Qed.

Lemma uni_space q d periodic (a b : R) ncells : 1 <= d -> 1 <= ncells -> (a < b)%R -> ncells + 1 + 2 * d < 2 ^ 31 ->
  exists s, ub_construct RA q d periodic a b ncells = Ok s /\ ub_degree RA s = d /\ ub_rmin RA s = (a : num RA) /\ ub_rmax RA s = (b : num RA) /\ ub_ncells RA s = ncells /\
    ub_nbasis RA s = (if periodic then ncells else ncells + d) /\ (forall k, 0 <= k < 2 ^ 63 -> ub_coord RA s k = (uniform_knots d a b ncells k : num RA)) /\
    (forall i, 0 <= i < ncells + d -> ub_first_support_knot RA s i = i /\ ub_last_support_knot RA s i = i + d + 1).
Proof.
  intros Hd Hnc Hab Hbig. destruct (UniformProofs.ub_construct_ok q a b ncells d periodic Hd Hnc Hbig Hab) as (s' & E' & Hs').
  destruct (un_construct q d periodic a b ncells Hd Hnc Hab Hbig) as (s & E & _ & _ & _ & C & A & B & _ & N & _ & NB & S & _).
  exists s. assert (s' = s) by (assert (Hinj : forall x y : u_bsplines RA, Ok x = Ok y -> x = y) by congruence; apply Hinj; congruence). subst s'.
  split; [exact E|]. split; [apply Hs'|]. repeat split; try assumption; apply S; assumption.
Qed.
(** Both ends have derivative conditions, or the B-splines are periodic: the points form a uniform sampling. *)
Theorem pts_uniform : forall q d periodic (a b : R) ncells lower upper, 1 <= d -> 1 <= ncells -> (a < b)%R -> ncells + 1 + 2 * d < 2 ^ 31 ->
  is_uniform_points lower upper d periodic = true -> (if periodic then lower = PERIODIC /\ upper = PERIODIC else lower <> PERIODIC /\ upper <> PERIODIC) ->
  let t := uniform_knots d a b ncells in let x := fun k => greville t d (k + d / 2) in
  let N := if periodic then ncells else ncells + d mod 2 in
  exists s u, ub_construct RA q d periodic a b ncells = Ok s /\ ug_sampling RA s = Ok u /\ us_front RA u = 0 /\
    (forall k, 0 <= k < 2 ^ 63 -> us_coordinate RA u k = (x k : num RA)) /\
    ug_grid RA s N = Ok (Some (mk_ns RA (points_of N x) 0)) /\
    (forall k, x (k + 1) = (x k + (b - a) / IZR ncells)%R) /\
    (forall k, 0 <= k < N -> (a <= x k <= b)%R) /\
    greville_domain_size lower upper d (ub_nbasis RA s) = N /\
    N + n_boundary_equations lower d + n_boundary_equations upper d = ub_nbasis RA s.
Proof.
  intros q d periodic a b ncells lower upper Hd Hnc Hab Hbig Hu Hcl t x N.
  destruct (uni_space q d periodic a b ncells Hd Hnc Hab Hbig) as (s & E & S1 & S2 & S3 & S4 & S5 & S6 & S7).
  destruct (ug_sampling_ok d periodic a b ncells s Hnc Hab S1 S2 S3 S4 S6 S7) as (u & Eu & _ & _ & Uf & Uc).
  destruct (d_div d Hd) as (D1 & D2 & D3).
  assert (M : forall k, mid d a b ncells k = x k) by (intros; apply mid_greville; assumption).
  exists s, u. split; [exact E|]. split; [exact Eu|]. split; [exact Uf|]. split. { intros k Hk. rewrite Uc by exact Hk. apply (f_equal (fun r => r : num RA)), M. }
  split. { rewrite (ug_grid_ok d periodic a b ncells s Hnc Hab S1 S2 S3 S4 S6 S7) by (unfold N; destruct periodic; lia).
           do 3 f_equal. unfold points_of. apply map_ext. intros. apply M. }
  split. { intros k. rewrite <- !M. unfold mid. rewrite plus_IZR. ring. }
  split. { intros k Hk. rewrite <- M. eapply (mid_range d periodic a b ncells s); try eassumption. unfold N in Hk. destruct periodic; lia. }
  assert (L : n_boundary_equations lower d + n_boundary_equations upper d = (if periodic then 0 else 2 * (d / 2))).
  { destruct periodic; destruct Hcl as [C1 C2]; [subst; reflexivity|]. unfold is_uniform_points in Hu. rewrite orb_false_r in Hu.
    destruct lower, upper; try congruence; cbn [n_boundary_equations] in *; rewrite ?i32_small by lia; try lia; cbn in Hu; try discriminate; rewrite ?andb_false_r in Hu; discriminate. }
  split.
  - rewrite S5, pts_domain by (try lia; destruct periodic; lia). unfold N. destruct periodic; lia.
  - rewrite S5. unfold N. destruct periodic; lia.
Qed.
(** At least one end has no derivative condition. *)
Theorem pts_uniform_greville : forall q d (a b : R) ncells lower upper, 1 <= d -> 2 <= ncells -> (a < b)%R -> ncells + 1 + 2 * d < 2 ^ 31 ->
  lower <> PERIODIC -> upper <> PERIODIC ->
  let N := ncells + d - n_boundary_equations lower d - n_boundary_equations upper d in
  let x := uniform_point (is_greville lower) (is_greville upper) d a b ((b - a) / IZR ncells) N in
  exists s, ub_construct RA q d false a b ncells = Ok s /\ ug_points RA lower upper s = Ok (ns_construct RA (points_of N x)) /\
    (is_greville lower = true -> x 0 = a) /\ (is_greville upper = true -> x (N - 1) = b) /\
    (d <= 8 -> 3 <= ncells -> ug_points RA lower upper s = Ok (Some (mk_ns RA (points_of N x) 0)) /\
        (forall i j, 0 <= i < j -> j < N -> (x i < x j)%R) /\ (forall i, 0 <= i < N -> (a <= x i <= b)%R)) /\
    greville_domain_size lower upper d (ub_nbasis RA s) = N.
Proof.
  intros q d a b ncells lower upper Hd Hnc Hab Hbig Hl Hu N x.
  destruct (uni_space q d false a b ncells Hd ltac:(lia) Hab Hbig) as (s & E & S1 & S2 & S3 & S4 & S5 & S6 & S7). exists s. split; [exact E|].
  assert (P : ug_points RA lower upper s = Ok (ns_construct RA (points_of N x))) by (apply (ug_points_ok d false); assumption || lia || reflexivity).
  split; [exact P|]. split.
  { intros G. transitivity (if is_greville lower then a else mid d a b ncells 0); [|now rewrite G]. eapply (f_first d false a b ncells s); (eassumption || lia || reflexivity). }
  split. { intros G. transitivity (if is_greville upper then b else mid d a b ncells (ncells - 1 + d mod 2)); [|now rewrite G]. eapply (f_last d false a b ncells s); (eassumption || lia || reflexivity). }
  split.
  - intros H8 H3. assert (St : forall i, 0 <= i -> i + 1 < N -> (x i < x (i + 1)%Z)%R) by (intros; eapply (f_strict d false a b ncells s); (eassumption || lia || reflexivity)). split.
    { rewrite P. f_equal. apply ns_ok, points_strict. exact St. }
    split; [apply (strict_steps x N St)|]. intros. eapply (f_range d false a b ncells s); (eassumption || lia || reflexivity).
  - rewrite S5. pose proof (nbeq_range lower d ltac:(lia)). pose proof (nbeq_range upper d ltac:(lia)). destruct (d_div d Hd) as (D1 & D2 & D3). apply pts_domain; lia.
Qed.
Lemma points_nth_at n f k : 0 <= k < n -> nth_error (points_of n f) (Z.to_nat k) = Some (f k).
Proof.
  intros Hk. destruct (nth_error (points_of n f) (Z.to_nat k)) as [y|] eqn:E.
  - apply points_nth in E. destruct E as [_ ->]. now rewrite Z2Nat.id by lia.
  - apply nth_error_None in E. pose proof (points_len n f ltac:(lia)). lia.
Qed.
Lemma points_unsorted n f k : 0 <= k -> k + 1 < n -> (f (k + 1)%Z < f k)%R -> ns_construct RA (points_of n f) = None.
Proof.
  intros Hk Hn Hlt. unfold ns_construct. destruct (is_sorted RA (points_of n f)) eqn:E; [|reflexivity]. exfalso. apply is_sorted_iff in E.
  assert (H : (f k <= f (k + 1)%Z)%R).
  { apply (E (Z.to_nat k) (Z.to_nat (k + 1))); [lia | apply points_nth_at; lia | apply points_nth_at; lia]. }
  lra.
Qed.
(** From degree 9 on, the points next to a Greville end overlap the others. *)
Lemma high_points (d : Z) (a b : R) (ncells : Z) upper : 9 <= d -> 3 <= ncells -> (a < b)%R ->
  let N := ncells + d - (if is_greville upper then 0 else d / 2) in
  let x := uniform_point true (is_greville upper) d a b ((b - a) / IZR ncells) N in
  (d = 10 -> x (d / 2 + 1) = x (d / 2)) /\ (d <> 10 -> (x (d / 2 + 1)%Z < x (d / 2)%Z)%R).
Proof.
  intros Hd Hnc Hab N x. set (h := ((b - a) / IZR ncells)%R) in *. destruct (d_div d ltac:(lia)) as (D1 & D2 & D3).
  assert (Hh : (0 < h)%R) by (apply Rdiv_lt_0_compat; [lra | apply IZR_lt; lia]).
  assert (X0 : x (d / 2) = (a + edge_point d h (d / 2))%R) by (unfold x, uniform_point; replace (d / 2 <=? d / 2) with true by lia; reflexivity).
  assert (X1 : x (d / 2 + 1) = (a + (1 + half_if_even d) * h)%R).
  { unfold x, uniform_point. replace (d / 2 + 1 <=? d / 2) with false by lia. cbn [andb]. replace (d / 2 + 1 - d / 2) with 1 by lia.
    assert (Hf : is_greville upper && (N - 1 - (d / 2 + 1) <=? d / 2) = false) by (unfold N; destruct (is_greville upper); cbn [andb]; lia). rewrite Hf. reflexivity. }
  rewrite X0, X1. unfold edge_point. assert (Hp : (0 < IZR d)%R) by (apply IZR_lt; lia). split.
  - intros ->. unfold half_if_even. cbn. lra.
  - intros H10. apply Rplus_lt_compat_l. apply (Rmult_lt_reg_r (2 * IZR d)); [lra|].
    replace (h * IZR (d / 2 * (d / 2 + 1)) / (2 * IZR d) * (2 * IZR d))%R with (h * IZR (d / 2 * (d / 2 + 1)))%R by (field; lra).
    replace ((1 + half_if_even d) * h * (2 * IZR d))%R with (h * ((1 + half_if_even d) * (2 * IZR d)))%R by ring. apply Rmult_lt_compat_l; [exact Hh|].
    rewrite half_odd by lia. replace ((1 + (1 - IZR (d mod 2)) / 2) * (2 * IZR d))%R with (IZR ((3 - d mod 2) * d)) by (rewrite mult_IZR, minus_IZR; field).
    apply IZR_lt. destruct (Z.eq_dec (d mod 2) 0) as [E|E]; [nia|]. replace (d mod 2) with 1 in * by lia. nia.
Qed.
Theorem pts_high_degree : forall q d (a b : R) ncells upper, 9 <= d -> 3 <= ncells -> (a < b)%R -> ncells + 1 + 2 * d < 2 ^ 31 -> upper <> PERIODIC ->
  exists s, ub_construct RA q d false a b ncells = Ok s /\
    (d <> 10 -> ug_points RA GREVILLE upper s = Ok None) /\
    (d = 10 -> match ug_points RA GREVILLE upper s with
               | Ok (Some p) => nth_error (ns_points RA p) 5 = nth_error (ns_points RA p) 6 /\ nth_error (ns_points RA p) 5 <> None
               | Ok None => True | _ => False end).
Proof.
  intros q d a b ncells upper Hd Hnc Hab Hbig Hu.
  destruct (pts_uniform_greville q d a b ncells GREVILLE upper ltac:(lia) ltac:(lia) Hab Hbig ltac:(discriminate) Hu) as (s & E & P & _).
  exists s. split; [exact E|].
  assert (HN : ncells + d - n_boundary_equations GREVILLE d - n_boundary_equations upper d = ncells + d - (if is_greville upper then 0 else d / 2)).
  { assert (d / 2 <= d) by (apply Z.div_le_upper_bound; lia). assert (0 <= d / 2) by (apply Z.div_pos; lia).
    destruct upper; cbn [n_boundary_equations is_greville]; try congruence; rewrite ?i32_small; lia. }
  cbn [is_greville] in P. rewrite HN in P. pose proof (high_points d a b ncells upper Hd Hnc Hab) as [H10 H9].
  assert (D3 : 0 <= d / 2 /\ 2 * (d / 2) <= d) by (split; [apply Z.div_pos; lia | apply Z.mul_div_le; lia]).
  split.
  - intros Hne. rewrite P. f_equal. apply (points_unsorted _ _ (d / 2)); [lia | destruct (is_greville upper); lia | exact (H9 Hne)].
  - intros Ed. rewrite P. unfold ns_construct. destruct (is_sorted _ _); [|exact I]. cbn [ns_points]. specialize (H10 Ed).
    assert (L5 : forall f, nth_error (points_of (ncells + d - (if is_greville upper then 0 else d / 2)) f) 5 = Some (f 5)).
    { intros. rewrite <- points_nth_at with (n := ncells + d - (if is_greville upper then 0 else d / 2)); [reflexivity|]. destruct (is_greville upper); lia. }
    assert (L6 : forall f, nth_error (points_of (ncells + d - (if is_greville upper then 0 else d / 2)) f) 6 = Some (f 6)).
    { intros. rewrite <- points_nth_at with (n := ncells + d - (if is_greville upper then 0 else d / 2)); [reflexivity|]. destruct (is_greville upper); lia. }
    change (num RA) with R. rewrite L5, L6. split; [|discriminate]. f_equal. rewrite Ed in H10 at 1 3. symmetry. rewrite Ed in *. exact H10.
Qed.

(** ** Knots as interpolation points *)
Theorem pts_uniform_knots : forall q q' d periodic (a b : R) ncells, 1 <= d -> 1 <= ncells -> (a < b)%R -> ncells + 1 + 2 * d < 2 ^ 31 ->
  exists s u, ub_construct RA q d periodic a b ncells = Ok s /\ uk_sampling RA q' s = Ok u /\ us_front RA u = 0 /\
    (forall k, 0 <= k < 2 ^ 63 -> us_coordinate RA u k = (a + IZR k * ((b - a) / IZR ncells) : num RA)%R).
Proof.
  intros q q' d periodic a b ncells Hd Hnc Hab Hbig.
  destruct (uni_space q d periodic a b ncells Hd Hnc Hab Hbig) as (s & E & S1 & S2 & S3 & S4 & _). exists s.
  unfold uk_sampling. rewrite S2, S3, S4. unfold u64_add. rewrite u64_small, i64_small by lia.
  unfold us_init. cbn [nltb RA]. rewrite R_ltb_true by exact Hab. replace (1 <? ncells + 1) with true by lia. rewrite ssub_small by lia. cbn [rbind].
  unfold us_construct. cbn [nltb nsub ndiv nofz RA]. replace (ncells + 1 - 1) with ncells by lia.
  rewrite R_ltb_true by (apply Rdiv_lt_0_compat; [lra | apply IZR_lt; lia]). cbn [rbind us_front]. unfold reference_element. rewrite mk_domain_1. cbn [rbind fst].
  eexists. split; [exact E|]. split; [reflexivity|]. split; [reflexivity|]. intros k Hk. unfold us_coordinate. cbn [us_origin us_step us_front nadd nmul nofz RA]. rewrite elem_minus_0 by lia. reflexivity.
Qed.
Theorem pts_knots : forall d periodic (l : list R) junk, 1 <= d -> (2 <= length l)%nat -> strictly_increasing l -> Z.of_nat (length l) + 2 * d < 2 ^ 31 ->
  exists s, nb_construct RA junk d periodic l = Ok (Some s) /\ nk_points RA s = Ok (Some (mk_ns RA l 0)).
Proof.
  intros d periodic l junk Hd Hlen Hs Hbig.
  destruct (nu_space d periodic l Hd Hlen Hs ltac:(lia) junk) as (s & E & P1 & P2 & P3 & P4 & P5 & P6). exists s. split; [exact E|].
  unfold nk_points. rewrite P3, P4. change (num RA) with R in *. cbn [nofz RA].
  match goal with |- context [for_range ?lo ?hi ?f ?x] =>
    destruct (for_range_inv (fun i (c : arr R) => a_len c = Z.of_nat (length l) /\ forall k, 0 <= k < i - d -> a_at c k = nth (Z.to_nat k) l 0%R) f lo hi x) as (c & -> & C1 & C2) end.
  - lia.
  - cbn [a_len]. split; [reflexivity|intros; lia].
  - intros i c Hi (C1 & C2). rewrite P6 by lia. cbn [rbind]. rewrite em_small by lia. rewrite aset_ok by lia. eexists. split; [reflexivity|]. cbn [a_len a_at]. split; [exact C1|].
    intros k Hk. destruct (Z.eq_dec k (i - d)) as [->|].
    + rewrite upd_eq. replace i with (d + (i - d)) at 1 by lia. apply knots_break; [exact Hlen | lia].
    + rewrite upd_neq by lia. apply C2. lia.
  - cbn [rbind]. f_equal.
    assert (El : arr_list c = l).
    { rewrite (arr_list_points c (fun k => nth (Z.to_nat k) l 0%R)) by (intros; apply C2; lia). rewrite C1. unfold points_of. rewrite Nat2Z.id.
      apply nth_ext with (d := 0%R) (d' := 0%R); [rewrite map_length, seq_length; reflexivity|].
      intros k Hk. rewrite map_length, seq_length in Hk. rewrite nth_indep with (d' := (fun k => nth (Z.to_nat (Z.of_nat k)) l 0%R) 0%nat) by (rewrite map_length, seq_length; exact Hk).
      rewrite (map_nth (fun k => nth (Z.to_nat (Z.of_nat k)) l 0%R)). rewrite seq_nth by exact Hk. now rewrite Nat2Z.id. }
    rewrite El. now apply ns_ok.
Qed.
Theorem knots_square : forall d ncells, 1 <= d -> 1 <= ncells -> ncells + 1 + 2 * d < 2 ^ 31 ->
  (knots_domain_size ncells false + n_boundary_equations HERMITE d + n_boundary_equations HERMITE d = ncells + d <-> d mod 2 = 1) /\
  knots_domain_size ncells true = ncells.
Proof.
  intros d ncells Hd Hnc Hbig. destruct (d_div d Hd) as (D1 & D2 & D3). unfold knots_domain_size, n_boundary_equations, u64_add.
  rewrite !u64_small, !i32_small by lia. lia.
Qed.
