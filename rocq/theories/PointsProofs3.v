(** The interpolation points of uniform B-splines. *)
From Coq Require Import Bool Reals Lia Lra ZifyBool List.
From Verif Require Import PointsModel PointsSpec BSplineSpec LoopProofs BSplineMath BSplineDeriv SamplingSpec SamplingProofs CellProofs KnotProofs NonUniformProofs SplineLemmas PointsProofs PointsProofs2.
Import ListNotations.
Local Open Scope bool_scope. Local Open Scope Z_scope.

Section Uniform.
Context (d : Z) (periodic : bool) (a b : R) (ncells : Z) (s : u_bsplines RA).
Hypothesis Hd : 1 <= d.
Hypothesis Hnc : 1 <= ncells.
Hypothesis Hab : (a < b)%R.
Hypothesis Hbig : ncells + 1 + 2 * d < 2 ^ 31.
Let h := ((b - a) / IZR ncells)%R.
Let t := uniform_knots d a b ncells.
Let nbasis := if periodic then ncells else ncells + d.
Hypothesis S1 : ub_degree RA s = d.
Hypothesis S2 : ub_rmin RA s = (a : num RA).
Hypothesis S3 : ub_rmax RA s = (b : num RA).
Hypothesis S4 : ub_ncells RA s = ncells.
Hypothesis S5 : ub_nbasis RA s = nbasis.
Hypothesis S6 : forall k, 0 <= k < 2 ^ 63 -> ub_coord RA s k = (t k : num RA).
Hypothesis S7 : forall i, 0 <= i < ncells + d -> ub_first_support_knot RA s i = i /\ ub_last_support_knot RA s i = i + d + 1.
Lemma hpos : (0 < h)%R.
Proof. clear -Hab Hnc h. unfold h. apply Rdiv_lt_0_compat; [lra|]. apply IZR_lt. lia. Qed.
Lemma nh : (IZR ncells * h = b - a)%R.
Proof. clear -Hnc h. unfold h. field. apply not_0_IZR. lia. Qed.
Lemma shift_eq : ug_shift RA d = (half_if_even d : num RA).
Proof.
  clear. unfold ug_shift, half_if_even. rewrite Zeven_mod. destruct (Z.eqb_spec (d mod 2) 0) as [E|E]; cbn [ndiv nofz RA].
  - rewrite E. cbn. lra.
  - assert (0 <= d mod 2 < 2) by (apply Z.mod_pos_bound; lia). replace (d mod 2) with 1 by lia. reflexivity.
Qed.
Definition mid (k : Z) : R := (a + (IZR k + half_if_even d) * h)%R.
Lemma ug_sampling_ok : exists u, ug_sampling RA s = Ok u /\ us_origin RA u = mid 0 /\ us_step RA u = h /\ us_front RA u = 0 /\
  (forall k, 0 <= k < 2 ^ 63 -> us_coordinate RA u k = (mid k : num RA)).
Proof.
  unfold ug_sampling, ug_dx, us_construct. rewrite S1, S2, S3, S4, shift_eq. cbn [nsub nadd nmul ndiv nofz nltb RA]. fold h. rewrite R_ltb_true by exact hpos.
  eexists. split; [reflexivity|]. cbn [us_origin us_step us_front]. unfold reference_element. split; [unfold mid; to_R; ring|]. split; [reflexivity|]. split; [reflexivity|].
  intros k Hk. unfold us_coordinate. cbn [us_origin us_step us_front nadd nmul nofz RA]. rewrite elem_minus_0 by lia. unfold mid. to_R. ring.
Qed.
(** The Greville abscissae of uniform knots. *)
Lemma greville_uniform i : greville t d i = (a + (IZR i - (IZR d - 1) / 2) * h)%R.
Proof.
  clear -Hd h t. assert (Hp : (IZR d <> 0)%R) by (apply not_0_IZR; lia).
  assert (G : zsum d (fun k => t (i + 1 + k)%Z) = (IZR d * (a + (IZR i - (IZR d - 1) / 2) * h))%R).
  { assert (Gen : forall m, 0 <= m -> zsum m (fun k => t (i + 1 + k)%Z) = (IZR m * (a + (IZR i + 1 - IZR d) * h) + IZR m * (IZR m - 1) / 2 * h)%R).
    { intros m Hm. pattern m. apply natlike_ind; [rewrite zsum_0; lra | | exact Hm]. intros x Hx IH. replace (Z.succ x) with (x + 1) by lia.
      rewrite zsum_S by lia. rewrite IH. unfold t, uniform_knots. fold h. rewrite minus_IZR, !plus_IZR. field. }
    rewrite Gen by lia. field. }
  rewrite greville_zsum by lia. rewrite G. field. exact Hp.
Qed.
Lemma half_eq : (IZR (d / 2) - (IZR d - 1) / 2 = half_if_even d)%R.
Proof.
  clear. unfold half_if_even. rewrite Zeven_mod. pose proof (Z.div_mod d 2 ltac:(lia)) as E. assert (0 <= d mod 2 < 2) by (apply Z.mod_pos_bound; lia).
  destruct (Z.eqb_spec (d mod 2) 0) as [E0|E0].
  - rewrite E0. cbn. rewrite E at 2. rewrite E0, plus_IZR, mult_IZR. lra.
  - replace (d mod 2) with 1 in * by lia. cbn. rewrite E at 2. rewrite plus_IZR, mult_IZR. lra.
Qed.
Lemma mid_greville k : mid k = greville t d (k + d / 2).
Proof. rewrite greville_uniform, plus_IZR. unfold mid. pose proof half_eq. replace (half_if_even d) with (IZR (d / 2) - (IZR d - 1) / 2)%R by assumption. ring. Qed.
Lemma mid_strict k k' : k < k' -> (mid k < mid k')%R.
Proof. intros H. unfold mid. apply Rplus_lt_compat_l, Rmult_lt_compat_r; [exact hpos|]. apply IZR_lt in H. lra. Qed.
(** Every point of the uniform case lies in the domain. *)
Lemma mid_range k : 0 <= k < ncells + d mod 2 -> (a <= mid k <= b)%R.
Proof.
  intros Hk. pose proof hpos. pose proof nh as N. unfold mid, half_if_even. rewrite Zeven_mod. assert (0 <= d mod 2 < 2) by (apply Z.mod_pos_bound; lia).
  assert (0 <= IZR k)%R by (apply IZR_le; lia). destruct (Z.eqb_spec (d mod 2) 0) as [E0|E0].
  - rewrite E0. cbn. assert (IZR k + 1 <= IZR ncells)%R by (rewrite <- plus_IZR; apply IZR_le; lia).
    assert (0 <= (IZR k + / 2) * h)%R by (apply Rmult_le_pos; lra). assert ((IZR k + / 2) * h <= IZR ncells * h)%R by (apply Rmult_le_compat_r; lra). lra.
  - replace (d mod 2) with 1 by lia. cbn. assert (IZR k <= IZR ncells)%R by (apply IZR_le; lia).
    assert (0 <= (IZR k + 0) * h)%R by (apply Rmult_le_pos; lra). assert ((IZR k + 0) * h <= IZR ncells * h)%R by (apply Rmult_le_compat_r; lra). lra.
Qed.
Lemma ug_grid_ok n : 0 <= n -> ug_grid RA s n = Ok (Some (mk_ns RA (points_of n mid) 0)).
Proof.
  intros Hn. unfold ug_grid, ug_dx. rewrite S1, S2, S3, S4, shift_eq. cbn [nsub nadd nmul ndiv nofz RA]. fold h. change (num RA) with R.
  match goal with |- context [for_range ?lo ?hi ?f ?x] =>
    destruct (for_range_inv (fun i (c : arr R) => a_len c = n /\ forall k, 0 <= k < i -> a_at c k = mid k) f lo hi x) as (c & -> & C1 & C2) end.
  - lia.
  - cbn [a_len]. split; [reflexivity|intros; lia].
  - intros i c Hi (C1 & C2). rewrite aset_ok by lia. eexists. split; [reflexivity|]. cbn [a_len a_at]. split; [exact C1|]. intros k Hk.
    destruct (Z.eq_dec k i) as [->|]; [rewrite upd_eq; unfold mid; ring|]. rewrite upd_neq by lia. apply C2. lia.
  - cbn [rbind]. f_equal. rewrite (arr_list_points c mid) by (rewrite C1; exact C2). rewrite C1. apply ns_ok, points_strict. intros. apply mid_strict. lia.
Qed.
(** The sum of an end point and of neighbouring knots. *)
Lemma ug_edge_ok bound i first pos sgn (p : arr R) : 0 <= pos < a_len p -> 0 <= i <= d -> 0 <= first -> first + i < 2 ^ 62 ->
  zsum i (fun k => t (first + k)%Z) = (IZR i * bound + sgn * h * IZR (i * (i + 1)) / 2)%R ->
  exists p', ug_edge RA s (bound : num RA) i first pos p = Ok p' /\ a_len p' = a_len p /\ a_at p' pos = (bound + sgn * edge_point d h i)%R /\ (forall k, k <> pos -> a_at p' k = a_at p k).
Proof.
  intros Hpos Hi Hf Hfi Hz. unfold ug_edge. rewrite S1. change (num RA) with R in *. rewrite aset_ok by lia. cbn [rbind]. unfold u64_sub. rewrite u64_small by lia.
  cbn [nmul nofz nadd ndiv RA].
  match goal with |- context [for_range ?lo ?hi ?f ?x] =>
    destruct (for_range_inv (fun ik (c : arr R) => a_len c = a_len p /\ a_at c pos = (IZR (d - i) * bound + zsum (ik - first) (fun k => t (first + k)%Z))%R /\ (forall k, k <> pos -> a_at c k = a_at p k)) f lo hi x) as (c & -> & C1 & C2 & C3) end.
  - lia.
  - cbn [a_len a_at]. rewrite upd_eq, Z.sub_diag, zsum_0. split; [reflexivity|]. split; [ring|]. intros. now apply upd_neq.
  - intros ik c Hik (C1 & C2 & C3). rewrite aget_ok by lia. cbn [rbind]. rewrite aset_ok by lia. eexists. split; [reflexivity|]. cbn [a_len a_at]. split; [exact C1|].
    rewrite upd_eq. split; [|intros; rewrite upd_neq by lia; now apply C3]. rewrite C2. rewrite (S6 ik) by lia.
    replace (ik + 1 - first) with (ik - first + 1) by lia. rewrite zsum_S by lia. replace (first + (ik - first)) with ik by lia. change (num RA) with R. ring.
  - cbn [rbind]. rewrite aget_ok by lia. cbn [rbind]. rewrite aset_ok by lia. eexists. split; [reflexivity|]. cbn [a_len a_at]. rewrite upd_eq. split; [exact C1|].
    split; [|intros; rewrite upd_neq by lia; now apply C3]. rewrite C2. replace (first + i - first) with i by lia. rewrite Hz, minus_IZR. unfold edge_point. field. apply not_0_IZR. lia.
Qed.
Lemma sum_low i : 0 <= i -> zsum i (fun k => t (d + 1 + k)%Z) = (IZR i * a + 1 * h * IZR (i * (i + 1)) / 2)%R.
Proof.
  clear -h t. intros Hi. pattern i. apply natlike_ind; [rewrite zsum_0; cbn; lra | | exact Hi]. intros x Hx IH. replace (Z.succ x) with (x + 1) by lia.
  rewrite zsum_S by lia. rewrite IH. unfold t, uniform_knots. fold h. rewrite minus_IZR, !mult_IZR, !plus_IZR. field.
Qed.
Lemma sum_high i : 0 <= i -> zsum i (fun k => t (ncells + d - i + k)%Z) = (IZR i * b + -1 * h * IZR (i * (i + 1)) / 2)%R.
Proof.
  intros Hi. pose proof nh as N. assert (G : forall m, 0 <= m -> zsum m (fun k => t (ncells + d - i + k)%Z) = (IZR m * (b - IZR i * h) + IZR m * (IZR m - 1) / 2 * h)%R).
  { intros m Hm. pattern m. apply natlike_ind; [rewrite zsum_0; cbn; lra | | exact Hm]. intros x Hx IH. replace (Z.succ x) with (x + 1) by lia.
    rewrite zsum_S by lia. rewrite IH. unfold t, uniform_knots. fold h. replace (ncells + d - i + x - d) with (ncells - i + x) by lia. rewrite !plus_IZR, minus_IZR.
    replace b with (a + IZR ncells * h)%R by lra. field. }
  rewrite G by lia. rewrite mult_IZR, plus_IZR. field.
Qed.
Hypothesis Hper : periodic = false.
Context (lower upper : closure).
Hypothesis Hlow : lower <> PERIODIC.
Hypothesis Hup : upper <> PERIODIC.
Hypothesis Hnc2 : 2 <= ncells.
Let lo := n_boundary_equations lower d.
Let hi := n_boundary_equations upper d.
Let N := ncells + d - lo - hi.
Let f := uniform_point (is_greville lower) (is_greville upper) d a b h N.
Lemma lo_eq : lo = if is_greville lower then 0 else d / 2.
Proof.
  clear -Hlow Hd Hbig Hnc lo. assert (0 <= d / 2 <= d) by (split; [apply Z.div_pos; lia | apply Z.div_le_upper_bound; lia]).
  unfold lo, n_boundary_equations. destruct lower; cbn [is_greville]; try congruence; try reflexivity; apply i32_small; lia.
Qed.
Lemma hi_eq : hi = if is_greville upper then 0 else d / 2.
Proof.
  clear -Hup Hd Hbig Hnc hi. assert (0 <= d / 2 <= d) by (split; [apply Z.div_pos; lia | apply Z.div_le_upper_bound; lia]).
  unfold hi, n_boundary_equations. destruct upper; cbn [is_greville]; try congruence; try reflexivity; apply i32_small; lia.
Qed.
Lemma d_div : d = 2 * (d / 2) + d mod 2 /\ 0 <= d mod 2 < 2 /\ 0 <= d / 2 <= d.
Proof.
  clear -Hd. split; [apply Z.div_mod; lia|]. split; [apply Z.mod_pos_bound; lia|]. split; [apply Z.div_pos; lia | apply Z.div_le_upper_bound; lia].
Qed.
Lemma ug_points_ok : ug_points RA lower upper s = Ok (ns_construct RA (points_of N f)).
Proof.
  destruct d_div as (D1 & D2 & D3). pose proof lo_eq as Elo. pose proof hi_eq as Ehi.
  destruct ug_sampling_ok as (u & Eu & _ & _ & _ & Hu).
  assert (HN : 1 <= N <= ncells + d) by (unfold N; rewrite Elo, Ehi; destruct (is_greville lower), (is_greville upper); lia).
  unfold ug_points. rewrite S1, S4, S5, Eu. cbn [rbind]. unfold nbasis. rewrite Hper, n_be_eq by lia. fold lo hi. unfold assert_.
  assert (Eas : (lo + hi =? 0) || (lo + hi <=? ncells + d) = true) by (unfold N in HN; lia). rewrite Eas.
  replace (u64_sub (ncells + d) (lo + hi)) with N by (unfold u64_sub; rewrite u64_small by (unfold N in *; lia); unfold N; lia).
  replace (u64_sub (u64_add ncells 1) 2) with (ncells - 1) by (unfold u64_sub, u64_add; rewrite (u64_small (ncells + 1)) by lia; rewrite u64_small; lia).
  rewrite S2, S3. cbn [nofz RA]. change (num RA) with R in *.
  set (ns := if is_greville lower then d / 2 + 1 else 1).
  (* lower end *)
  assert (P1 : exists c, (if is_greville lower
       then for_range 0 (d / 2 + 1) (fun i points => ug_edge RA s (a : num RA) i (u64_sub (ub_last_support_knot RA s i) i) i points) (mk_arr N (fun _ => 0%R))
       else aset (mk_arr N (fun _ => 0%R)) 0 (us_coordinate RA u 0)) = Ok c /\ a_len c = N /\ (forall k, 0 <= k < ns -> a_at c k = f k)).
  { unfold ns. destruct (is_greville lower) eqn:Eg.
    - match goal with |- context [for_range ?lo ?hi ?g ?x] =>
        destruct (for_range_inv (fun i (c : arr R) => a_len c = N /\ (forall k, 0 <= k < i -> a_at c k = f k)) g lo hi x) as (c & E & C1 & C2) end; [lia | | | exists c; split; [exact E|split; [exact C1|exact C2]]].
      + cbn [a_len]. split; [reflexivity|intros; lia].
      + intros i c Hi (C1 & C2). rewrite (proj2 (S7 i ltac:(lia))). unfold u64_sub. rewrite u64_small by lia. replace (i + d + 1 - i) with (d + 1) by lia.
        assert (HiN : i < a_len c) by (rewrite C1; unfold N; rewrite Elo, Ehi; destruct (is_greville upper); lia).
        destruct (ug_edge_ok a i (d + 1) i 1 c ltac:(lia) ltac:(lia) ltac:(lia) ltac:(lia) (sum_low i ltac:(lia))) as (c' & E & K1 & K2 & K3). change (num RA) with R in *.
        exists c'. split; [exact E|]. split; [lia|]. intros k Hk. destruct (Z.eq_dec k i) as [->|].
        * rewrite K2. unfold f, uniform_point. rewrite ?Eg. replace (i <=? d / 2) with true by lia. cbn [andb]. ring.
        * rewrite K3 by lia. apply C2. lia.
    - rewrite aset_ok by (cbn [a_len]; lia). eexists. split; [reflexivity|]. cbn [a_len a_at]. split; [reflexivity|]. intros k Hk. replace k with 0 by lia.
      rewrite upd_eq, Hu by lia. unfold f, uniform_point. rewrite ?Eg. cbn [andb].
      assert (Hf : is_greville upper && (N - 1 - 0 <=? d / 2) = false) by (unfold N; rewrite Elo, Ehi; destruct (is_greville upper); cbn [andb]; lia).
      rewrite Hf. unfold mid. reflexivity. }
  destruct P1 as (c1 & E1 & L1 & C1). change (num RA) with R in *. rewrite E1. cbn [rbind].
  (* central points *)
  assert (Hns : ns + ncells - 1 <= N /\ 1 <= ns) by (unfold ns, N; rewrite Elo, Ehi; destruct (is_greville lower), (is_greville upper); lia).
  match goal with |- context [for_range 1 ?hi ?g c1] =>
    destruct (for_range_inv (fun ip (c : arr R) => a_len c = N /\ (forall k, 0 <= k < ns + ip - 1 -> (is_greville upper = true /\ N - 1 - k <= d / 2) \/ a_at c k = f k)) g 1 hi c1) as (c2 & E2 & L2 & C2) end.
  { lia. } { split; [exact L1|]. intros k Hk. right. apply C1. lia. }
  { intros ip c Hip (K1 & K2). rewrite em_small by lia. unfold u64_add. rewrite (u64_small (ip - 1)) by lia. rewrite u64_small by lia. rewrite aset_ok by lia. eexists. split; [reflexivity|].
    cbn [a_len a_at]. split; [exact K1|]. intros k Hk. destruct (Z.eq_dec k (ip - 1 + ns)) as [->|].
    - rewrite upd_eq, Hu by lia. unfold f, uniform_point. destruct (is_greville upper) eqn:Eg.
      + destruct (Z.leb_spec (N - 1 - (ip - 1 + ns)) (d / 2)) as [|]; [left; tauto|]. right. rewrite andb_false_r.
        unfold ns. destruct (is_greville lower); cbn [andb]; [replace (ip - 1 + (d / 2 + 1) <=? d / 2) with false by lia|]; apply (f_equal (fun z => (a + (IZR z + half_if_even d) * h)%R)); lia.
      + right. cbn [andb]. unfold ns. destruct (is_greville lower); cbn [andb]; [replace (ip - 1 + (d / 2 + 1) <=? d / 2) with false by lia|]; apply (f_equal (fun z => (a + (IZR z + half_if_even d) * h)%R)); lia.
    - rewrite upd_neq by lia. apply K2. lia. }
  rewrite E2. cbn [rbind]. clear E2 E1.
  (* upper end *)
  assert (P3 : exists c, (if is_greville upper
       then for_range 0 (d / 2 + 1) (fun i points => ug_edge RA s (b : num RA) i (u64_add (ub_first_support_knot RA s (u64_sub (u64_sub (ncells + d) 1) i)) 1) (u64_sub (u64_sub N 1) i) points) c2
       else aset c2 (u64_sub N 1) (us_coordinate RA u (u64_add (u64_sub ncells 1) (d mod 2)))) = Ok c /\ a_len c = N /\ (forall k, 0 <= k < N -> a_at c k = f k)).
  { unfold u64_sub. rewrite (u64_small (N - 1)) by lia. rewrite (u64_small (ncells + d - 1)) by lia. rewrite (u64_small (ncells - 1)) by lia. destruct (is_greville upper) eqn:Eg.
    - match goal with |- context [for_range ?lo ?hi ?g ?x] =>
        destruct (for_range_inv (fun i (c : arr R) => a_len c = N /\ (forall k, 0 <= k < N -> N - 1 - i < k \/ d / 2 < N - 1 - k -> a_at c k = f k)) g lo hi x) as (c & E & K1 & K2) end.
      + lia.
      + split; [exact L2|]. intros k Hk Hk2. assert (Hk3 : d / 2 < N - 1 - k) by lia.
        destruct (C2 k) as [[_ G]|G]; [|lia|exact G]. unfold ns, N in *. rewrite Elo, Ehi in *. destruct (is_greville lower); lia.
      + intros i c Hi (K1 & K2). rewrite (u64_small (ncells + d - 1 - i)) by lia.
        assert (HNd : d / 2 < N) by (unfold N; rewrite Elo, Ehi; destruct (is_greville lower); lia).
        rewrite (u64_small (N - 1 - i)) by lia.
        rewrite (proj1 (S7 (ncells + d - 1 - i) ltac:(lia))). unfold u64_add. rewrite u64_small by lia. replace (ncells + d - 1 - i + 1) with (ncells + d - i) by lia.
        destruct (ug_edge_ok b i (ncells + d - i) (N - 1 - i) (-1) c ltac:(lia) ltac:(lia) ltac:(lia) ltac:(lia) (sum_high i ltac:(lia))) as (c' & E & M1 & M2 & M3). change (num RA) with R in *.
        exists c'. split; [exact E|]. split; [lia|]. intros k Hk Hk2. destruct (Z.eq_dec k (N - 1 - i)) as [->|].
        * rewrite M2. unfold f, uniform_point. rewrite ?Eg. replace (N - 1 - (N - 1 - i)) with i by lia. replace (i <=? d / 2) with true by lia. cbn [andb].
          destruct (is_greville lower && (N - 1 - i <=? d / 2)) eqn:Eb; [|ring]. exfalso. apply andb_true_iff in Eb. destruct Eb as [Eb1 Eb2].
          unfold N in *. rewrite Eb1 in *. rewrite Elo, Ehi in *. lia.
        * rewrite M3 by lia. apply K2; lia.
      + exists c. split; [exact E|]. split; [exact K1|]. intros k Hk. apply K2; lia.
    - assert (Elast : u64_add (ncells - 1) (d mod 2) = ncells - 1 + d mod 2) by (unfold u64_add; rewrite u64_small; lia). rewrite Elast.
      rewrite aset_ok by lia. eexists. split; [reflexivity|]. cbn [a_len a_at]. split; [exact L2|]. intros k Hk. destruct (Z.eq_dec k (N - 1)) as [->|].
      + rewrite upd_eq, Hu by lia. unfold f, uniform_point. rewrite ?Eg. cbn [andb]. unfold N in *. rewrite Elo, Ehi in *.
        destruct (is_greville lower); cbn [andb]; [replace (_ <=? d / 2) with false by lia|]; apply (f_equal (fun z => (a + (IZR z + half_if_even d) * h)%R)); lia.
      + rewrite upd_neq by lia. destruct (C2 k) as [[G _]|G]; [|discriminate|exact G]. unfold ns, N in *. rewrite Elo, Ehi in *. destruct (is_greville lower); lia. }
  destruct P3 as (c3 & E3 & L3 & C3). change (num RA) with R in *. rewrite E3. cbn [rbind]. f_equal. f_equal. rewrite <- L3. apply arr_list_points. rewrite L3. exact C3.
Qed.
Lemma edge_step k : 0 <= k -> (edge_point d h k < edge_point d h (k + 1))%R.
Proof.
  clear -Hd Hab Hnc h. intros Hk. pose proof hpos as Hh. assert (Hp : (0 < IZR d)%R) by (apply IZR_lt; lia). unfold edge_point.
  assert (H : (h * IZR ((k + 1) * (k + 1 + 1)) / (2 * IZR d) - h * IZR (k * (k + 1)) / (2 * IZR d) = h * IZR (k + 1) / IZR d)%R) by (rewrite !mult_IZR, !plus_IZR; field; lra).
  assert (0 < h * IZR (k + 1) / IZR d)%R by (apply Rdiv_lt_0_compat; [apply Rmult_lt_0_compat; [exact Hh|apply IZR_lt; lia] | exact Hp]). lra.
Qed.
Lemma edge_mid : d <= 8 -> (edge_point d h (d / 2) < (1 + half_if_even d) * h)%R.
Proof.
  clear -Hd Hab Hnc h. intros H8. pose proof hpos as Hh. assert (D : d = 1 \/ d = 2 \/ d = 3 \/ d = 4 \/ d = 5 \/ d = 6 \/ d = 7 \/ d = 8) by lia. clear -D Hh. unfold edge_point, half_if_even.
  repeat (destruct D as [->|D]); [..|rewrite D]; match goal with |- context [IZR (?x * ?y)] => let z := eval compute in (x * y)%Z in change (x * y)%Z with z end; cbn [Z.even Pos.eqb]; lra.
Qed.
Lemma last_mid : (a + (IZR ncells - (1 + half_if_even d)) * h = b - (1 + half_if_even d) * h)%R.
Proof. pose proof nh. lra. Qed.
Lemma half_odd : (half_if_even d = (1 - IZR (d mod 2)) / 2)%R.
Proof. clear -Hd. unfold half_if_even. rewrite Zeven_mod. pose proof (Z.mod_pos_bound d 2 ltac:(lia)). destruct (Z.eqb_spec (d mod 2) 0) as [->|]; [cbn; lra|]. replace (d mod 2) with 1 by lia. cbn. lra. Qed.
Lemma f_strict : d <= 8 -> 3 <= ncells -> forall i, 0 <= i -> i + 1 < N -> (f i < f (i + 1)%Z)%R.
Proof.
  intros H8 H3 i Hi Hi1. destruct d_div as (D1 & D2 & D3). pose proof lo_eq as Elo. pose proof hi_eq as Ehi. pose proof (edge_mid H8) as Hem. pose proof hpos as Hh. pose proof nh as Hnh. pose proof half_odd as Hho.
  assert (EN : N = ncells + d - (if is_greville lower then 0 else d / 2) - (if is_greville upper then 0 else d / 2)) by (unfold N; lia).
  unfold f, uniform_point. clearbody N. clear f. set (hf := half_if_even d) in *.
  destruct (is_greville lower) eqn:Gl, (is_greville upper) eqn:Gu; cbn [andb].
  - destruct (Z.leb_spec i (d / 2)) as [L1|L1], (Z.leb_spec (i + 1) (d / 2)) as [L2|L2]; try lia.
    + apply Rplus_lt_compat_l, edge_step. lia.
    + replace (N - 1 - (i + 1) <=? d / 2) with false by lia. replace i with (d / 2) by lia. replace (d / 2 + 1 - d / 2) with 1 by lia. lra.
    + destruct (Z.leb_spec (N - 1 - i) (d / 2)) as [U1|U1], (Z.leb_spec (N - 1 - (i + 1)) (d / 2)) as [U2|U2]; try lia.
      * pose proof (edge_step (N - 1 - (i + 1)) ltac:(lia)) as S. replace (N - 1 - (i + 1) + 1) with (N - 1 - i) in S by lia. lra.
      * replace (N - 1 - (i + 1)) with (d / 2) by lia. replace (IZR (i - d / 2)) with (IZR ncells - 2 + IZR (d mod 2))%R by (replace (i - d / 2) with (ncells - 2 + d mod 2) by lia; rewrite plus_IZR, minus_IZR; ring).
        assert ((IZR ncells - 2 + IZR (d mod 2) + hf) * h = IZR ncells * h - (1 + hf) * h)%R by (replace (IZR (d mod 2)) with (1 - 2 * hf)%R by lra; ring). lra.
      * apply Rplus_lt_compat_l, Rmult_lt_compat_r; [exact Hh|]. apply Rplus_lt_compat_r, IZR_lt. lia.
  - destruct (Z.leb_spec i (d / 2)) as [L1|L1], (Z.leb_spec (i + 1) (d / 2)) as [L2|L2]; try lia.
    + apply Rplus_lt_compat_l, edge_step. lia.
    + replace i with (d / 2) by lia. replace (d / 2 + 1 - d / 2) with 1 by lia. lra.
    + apply Rplus_lt_compat_l, Rmult_lt_compat_r; [exact Hh|]. apply Rplus_lt_compat_r, IZR_lt. lia.
  - destruct (Z.leb_spec (N - 1 - i) (d / 2)) as [U1|U1], (Z.leb_spec (N - 1 - (i + 1)) (d / 2)) as [U2|U2]; try lia.
    + pose proof (edge_step (N - 1 - (i + 1)) ltac:(lia)) as S. replace (N - 1 - (i + 1) + 1) with (N - 1 - i) in S by lia. lra.
    + replace (N - 1 - (i + 1)) with (d / 2) by lia. replace (IZR (i - 0)) with (IZR ncells - 2 + IZR (d mod 2))%R by (replace (i - 0) with (ncells - 2 + d mod 2) by lia; rewrite plus_IZR, minus_IZR; ring).
      assert ((IZR ncells - 2 + IZR (d mod 2) + hf) * h = IZR ncells * h - (1 + hf) * h)%R by (replace (IZR (d mod 2)) with (1 - 2 * hf)%R by lra; ring). lra.
    + apply Rplus_lt_compat_l, Rmult_lt_compat_r; [exact Hh|]. apply Rplus_lt_compat_r, IZR_lt. lia.
  - apply Rplus_lt_compat_l, Rmult_lt_compat_r; [exact Hh|]. apply Rplus_lt_compat_r, IZR_lt. lia.
Qed.
Lemma edge_0 : edge_point d h 0 = 0%R.
Proof. clear -h. unfold edge_point. cbn. unfold Rdiv. ring. Qed.
Lemma half_range : (0 <= half_if_even d <= / 2)%R.
Proof. unfold half_if_even. destruct (Z.even d); lra. Qed.
Lemma f_first : f 0 = if is_greville lower then a else mid 0.
Proof.
  destruct d_div as (D1 & D2 & D3). pose proof lo_eq as Elo. pose proof hi_eq as Ehi.
  assert (EN : N = ncells + d - (if is_greville lower then 0 else d / 2) - (if is_greville upper then 0 else d / 2)) by (unfold N; lia).
  unfold f, uniform_point. clearbody N. clear f. destruct (is_greville lower) eqn:Gl; cbn [andb].
  - replace (0 <=? d / 2) with true by lia. rewrite edge_0. ring.
  - assert (Hf : is_greville upper && (N - 1 - 0 <=? d / 2) = false) by (destruct (is_greville upper); cbn [andb]; lia). rewrite Hf. reflexivity.
Qed.
Lemma f_last : f (N - 1) = if is_greville upper then b else mid (ncells - 1 + d mod 2).
Proof.
  destruct d_div as (D1 & D2 & D3). pose proof lo_eq as Elo. pose proof hi_eq as Ehi.
  assert (EN : N = ncells + d - (if is_greville lower then 0 else d / 2) - (if is_greville upper then 0 else d / 2)) by (unfold N; lia).
  unfold f, uniform_point. clearbody N. clear f. replace (N - 1 - (N - 1)) with 0 by lia. replace (0 <=? d / 2) with true by lia.
  assert (Hf : is_greville lower && (N - 1 <=? d / 2) = false) by (destruct (is_greville lower), (is_greville upper); cbn [andb]; lia). rewrite Hf, andb_true_r.
  destruct (is_greville upper); [rewrite edge_0; ring|].
  apply (f_equal (fun z => (a + (IZR z + half_if_even d) * h)%R)). destruct (is_greville lower); lia.
Qed.
Lemma f_range : d <= 8 -> 3 <= ncells -> forall i, 0 <= i < N -> (a <= f i <= b)%R.
Proof.
  intros H8 H3 i Hi. pose proof (strict_steps f N (f_strict H8 H3)) as S. destruct d_div as (D1 & D2 & D3).
  assert (F0 : (a <= f 0)%R) by (rewrite f_first; destruct (is_greville lower); [lra|]; apply mid_range; lia).
  assert (F1 : (f (N - 1) <= b)%R) by (rewrite f_last; destruct (is_greville upper); [lra|]; apply mid_range; lia).
  split.
  - destruct (Z.eq_dec i 0) as [->|]; [exact F0|]. specialize (S 0 i ltac:(lia) ltac:(lia)). lra.
  - destruct (Z.eq_dec i (N - 1)) as [->|]; [exact F1|]. specialize (S i (N - 1) ltac:(lia) ltac:(lia)). lra.
Qed.
End Uniform.
