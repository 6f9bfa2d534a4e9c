(** Interpolation points near the ends; knots as interpolation points. *)
From Coq Require Import Bool Reals Lia Lra ZifyBool List.
From Verif Require Import PointsModel PointsSpec BSplineSpec LoopProofs BSplineMath BSplineDeriv SamplingSpec SamplingProofs CellProofs KnotProofs NonUniformProofs SplineLemmas PointsProofs.
Import ListNotations.
Local Open Scope bool_scope. Local Open Scope Z_scope.

Lemma nbeq_range c d : 0 <= d < 2 ^ 31 -> 0 <= n_boundary_equations c d <= d / 2.
Proof.
  intros Hd. assert (0 <= d / 2) by (apply Z.div_pos; lia). assert (d / 2 <= d) by (apply Z.div_le_upper_bound; lia).
  unfold n_boundary_equations. destruct c; try lia; rewrite i32_small by lia; lia.
Qed.
Lemma n_be_eq lower upper d : 0 <= d < 2 ^ 31 -> n_be lower upper d = n_boundary_equations lower d + n_boundary_equations upper d.
Proof.
  intros Hd. pose proof (nbeq_range lower d Hd). pose proof (nbeq_range upper d Hd). assert (d / 2 <= d) by (apply Z.div_le_upper_bound; lia).
  unfold n_be, u64_add. rewrite (u64_small (n_boundary_equations lower d)), (u64_small (n_boundary_equations upper d)) by lia. apply u64_small. lia.
Qed.
Lemma points_coord N (g : Z -> R) k : 0 <= k < N -> N < 2 ^ 62 -> ns_coordinate RA (mk_ns RA (points_of N g) 0) k = Ok (g k : num RA).
Proof.
  intros Hk HN. unfold ns_coordinate. cbn [ns_front ns_points]. rewrite elem_minus_0 by lia. unfold nth_z. replace (k <? 0) with false by lia.
  destruct (nth_error (points_of N g) (Z.to_nat k)) as [x|] eqn:E.
  - change (num RA) with R. rewrite E. apply points_nth in E. destruct E as [_ ->]. now rewrite Z2Nat.id by lia.
  - apply nth_error_None in E. pose proof (points_len N g). lia.
Qed.
Lemma extents_neg q b : 0 <= b -> b + 1 < 2 ^ 63 -> extents [(q, (b + 1, b))] = Ok [(q, -1)].
Proof. intros. rewrite extents_1. unfold u64_sub. replace (b - (b + 1)) with (-1) by lia. reflexivity. Qed.
Lemma with_bcs_ok q lower upper s d N (g : Z -> R) : 1 <= d -> 0 <= N -> N + 2 * d < 2 ^ 31 -> nb_degree RA s = d ->
  ng_points RA s = Ok (Some (mk_ns RA (points_of N g) 0)) -> (forall i j, 0 <= i < j -> j < N -> (g i < g j)%R) ->
  let lo := n_boundary_equations lower d in let size := N - lo - n_boundary_equations upper d in
  1 <= size ->
  ng_points_with_bcs RA q lower upper s = Ok (Some (mk_ns RA (points_of size (fun k => g (k + lo))) 0)).
Proof.
  intros Hd HN0 HN S1 P Hg lo size Hsz. pose proof (nbeq_range lower d ltac:(lia)) as Hlo. pose proof (nbeq_range upper d ltac:(lia)) as Hup. fold lo in Hlo.
  assert (Hd2 : d / 2 <= d) by (apply Z.div_le_upper_bound; lia). unfold ng_points_with_bcs. rewrite S1, n_be_eq by lia. fold lo.
  destruct (Z.eqb_spec (lo + n_boundary_equations upper d) 0) as [E0|E0].
  - rewrite P. do 3 f_equal. unfold points_of. replace size with N by (unfold size; lia). apply map_ext. intros k. f_equal. lia.
  - rewrite P. cbn [rbind ns_points]. change (num RA) with R. rewrite points_len by (unfold size in *; lia).
    replace (u64_sub N (lo + n_boundary_equations upper d)) with size by (unfold u64_sub; rewrite u64_small by (unfold size in *; lia); unfold size; lia).
    rewrite (i64_small size) by (unfold size in *; lia). rewrite (u64_small lo) by lia.
    rewrite mk_domain_1' by (unfold size in *; lia). cbn [rbind]. unfold front_of. cbn [front dom_begin map fst snd one_elem rbind].
    unfold ns_coordinate. fold (ns_coordinate RA (mk_ns RA (points_of N g) 0)).
    assert (C : forall k, 0 <= k < N -> nth_z RA (points_of N g) (elem_minus k 0) = Ok (g k : num RA)).
    { intros k Hk. pose proof (points_coord N g k Hk ltac:(lia)) as H. exact H. }
    cbn [ns_points ns_front]. change (num RA) with R in *. rewrite C by (unfold size in *; lia). cbn [rbind]. rewrite aset_ok by (cbn [a_len]; lia). cbn [rbind nofz RA].
    unfold remove_both, front. cbn [dom_begin map fst snd]. rewrite elem_add_1 by lia. cbn [rbind]. rewrite extents_1' by (unfold size in *; lia). cbn [rbind].
    rewrite vect_sub_1 by (unfold size in *; lia). cbn [rbind]. rewrite vect_sub_1 by (unfold size in *; lia). cbn [rbind].
    rewrite mk_domain_1' by (unfold size in *; lia). cbn [rbind dom_begin map fst snd one_elem].
    assert (Sz : size_of [(q, (lo + 1, lo + 1 + (lo + size - lo - 1 - 1)))] = Ok (size - 2)).
    { unfold size_of. destruct (Z.eq_dec size 1) as [->|].
      - replace (lo + 1 + (lo + 1 - lo - 1 - 1)) with lo by lia. rewrite extents_neg by lia. reflexivity.
      - rewrite extents_1' by (unfold size in *; lia). cbn [rbind one_elem]. f_equal. lia. }
    rewrite Sz. cbn [rbind]. change (num RA) with R.
    match goal with |- context [for_range ?a ?b ?f ?x] =>
      destruct (for_range_inv' (fun i (c : arr R) => a_len c = size /\ (forall k, 0 <= k < i - lo -> a_at c k = g (k + lo))) f a b x) as (c & -> & C1 & C2) end.
    { cbn [a_len a_at]. split; [reflexivity|]. intros k Hk. replace k with 0 by lia. rewrite upd_eq. f_equal. }
    { intros i c Hi (C1 & C2). rewrite C by (unfold size in *; lia). cbn [rbind]. rewrite em_small by (unfold size in *; lia). rewrite aset_ok by (unfold size in *; lia). eexists. split; [reflexivity|].
      cbn [a_len a_at]. split; [exact C1|]. intros k Hk. destruct (Z.eq_dec k (i - lo)) as [->|]; [rewrite upd_eq; f_equal; lia|]. rewrite upd_neq by lia. apply C2. lia. }
    cbn [rbind]. unfold u64_sub, u64_add. rewrite (u64_small (lo + size)) by (unfold size in *; lia). rewrite (u64_small (lo + size - 1)) by (unfold size in *; lia).
    rewrite C by (unfold size in *; lia). cbn [rbind]. rewrite aset_ok by lia. cbn [rbind]. f_equal.
    rewrite (arr_list_points _ (fun k => g (k + lo))).
    + cbn [a_len]. rewrite C1. apply ns_ok, points_strict. intros i Hi Hi1. apply Hg; unfold size in *; lia.
    + cbn [a_len a_at]. intros k Hk. destruct (Z.eq_dec k (a_len c - 1)) as [->|]; [rewrite upd_eq; f_equal; lia|]. rewrite upd_neq by lia. apply C2. lia.
Qed.
