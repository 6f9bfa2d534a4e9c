(** The heat equation program with non-uniform points, over the reals, and what all three programs print. *)
From Coq Require Import ZArith List Bool Reals Lra Lia.
From Verif Require Import Machine MachineProofs TypeSeqModel TaggedModel DomainModel DomainSpec DomainProofs ListAux DomainProofs2 SpanModel
  ReduceModel ArithModel UniformProofs ProgramModel ProgramProofs SamplingModel SamplingSpec SamplingProofs PointsProofs
  HeatModel HeatSpec HeatGrid HeatProofs HeatReals.
Import ListNotations.
Open Scope Z_scope.
Local Arguments Z.pow : simpl never.

(** *** lists of points *)
Lemma indices_split n : 0 <= n -> indices (n + 2) = 0 :: map (fun i => i + 1) (indices n) ++ [n + 1].
Proof.
  intros Hn. unfold indices. replace (Z.to_nat (n + 2)) with (S (S (Z.to_nat n))) by lia. cbn [seq map]. f_equal.
  assert (E : Z.of_nat 1 :: map Z.of_nat (seq 2 (Z.to_nat n)) = map Z.of_nat (seq 1 (S (Z.to_nat n)))) by reflexivity. rewrite E.
  rewrite seq_S, map_app. f_equal; [|cbn [map]; f_equal; lia]. rewrite <- seq_shift, !map_map. apply map_ext. intros k. lia.
Qed.
Lemma nth_indices n k : 0 <= k < n -> nth_error (indices n) (Z.to_nat k) = Some k.
Proof.
  intros Hk. unfold indices. rewrite nth_error_map. rewrite (nth_error_nth' _ O) by (rewrite seq_length; lia). cbn [option_map]. rewrite seq_nth by lia. f_equal. lia.
Qed.
Lemma sorted_map (f : Z -> R) m : forall a, (forall i, Z.of_nat a <= i -> i + 1 < Z.of_nat (a + m) -> (f i <= f (i + 1)%Z)%R) -> is_sorted RA (map f (map Z.of_nat (seq a m))) = true.
Proof.
  induction m as [|m IH]; intros a H; [reflexivity|]. destruct m as [|m]; [reflexivity|].
  assert (E : map f (map Z.of_nat (seq a (S (S m)))) = f (Z.of_nat a) :: f (Z.of_nat (S a)) :: map f (map Z.of_nat (seq (S (S a)) m))) by reflexivity.
  rewrite E. change (is_sorted RA (f (Z.of_nat a) :: f (Z.of_nat (S a)) :: map f (map Z.of_nat (seq (S (S a)) m)))) with
    (if nltb RA (f (Z.of_nat (S a))) (f (Z.of_nat a)) then false else is_sorted RA (map f (map Z.of_nat (seq (S a) (S m))))).
  cbn [nltb RA]. unfold R_ltb. assert (A := H (Z.of_nat a) ltac:(lia) ltac:(lia)). replace (Z.of_nat a + 1) with (Z.of_nat (S a)) in A by lia.
  destruct (Rlt_dec (f (Z.of_nat (S a))) (f (Z.of_nat a))); [lra|]. apply IH. intros i Hi Hi'. apply H; lia.
Qed.
Lemma sorted_indices (f : Z -> R) n : (forall i, 0 <= i -> i + 1 < n -> (f i <= f (i + 1)%Z)%R) -> is_sorted RA (map f (indices n)) = true.
Proof. intros H. apply sorted_map. intros i Hi Hi'. apply H; lia. Qed.
Section Points.
Variables (n : Z) (X : Z -> R).
Hypothesis Hn : 2 <= n < 2 ^ 62.
Hypothesis HX : rising n X.
Notation pts := (map X (indices n)).
Notation L := (X (n - 1)%Z - X 0)%R.
Lemma pts_sorted : is_sorted RA pts = true.
Proof. apply sorted_indices. intros i Hi Hi'. apply Rlt_le, HX; lia. Qed.
Lemma pts_length : length pts = Z.to_nat n.
Proof. unfold indices. now rewrite !map_length, seq_length. Qed.
Lemma pts_head : exists t, pts = X 0 :: X 1 :: t.
Proof.
  unfold indices. replace (Z.to_nat n) with (S (S (Z.to_nat (n - 2)))) by lia. eexists. reflexivity.
Qed.
Lemma pts_tail : exists t, pts = t ++ [X (n - 2); X (n - 1)].
Proof.
  unfold indices. replace (Z.to_nat n) with (S (S (Z.to_nat (n - 2)))) by lia. rewrite seq_S, seq_S, !map_app. cbn [map plus]. eexists. rewrite <- app_assoc. cbn [app].
  f_equal. f_equal; [f_equal; lia|]. f_equal. f_equal. lia.
Qed.
Lemma left_ghost : periodic_extrapolation_left RA 1 pts = Ok [(X (n - 2)%Z - L)%R].
Proof.
  unfold periodic_extrapolation_left. change (num RA) with R. rewrite pts_sorted, pts_length. replace (Nat.ltb 1 (Z.to_nat n)) with true by (symmetry; apply Nat.ltb_lt; lia). cbn [andb].
  destruct pts_head as (t & E). destruct pts_tail as (t' & E'). rewrite E at 1.
  replace (last pts (X 0)) with (X (n - 1)).
  - rewrite E'. rewrite rev_app_distr. cbn [rev app tl firstn map nsub RA]. reflexivity.
  - rewrite E'. replace (t' ++ [X (n - 2); X (n - 1)]) with ((t' ++ [X (n - 2)]) ++ [X (n - 1)]) by (rewrite <- app_assoc; reflexivity). now rewrite last_last.
Qed.
Lemma right_ghost : periodic_extrapolation_right RA 1 pts = Ok [(X 1 + L)%R].
Proof.
  unfold periodic_extrapolation_right. change (num RA) with R. rewrite pts_sorted, pts_length. replace (Nat.ltb 1 (Z.to_nat n)) with true by (symmetry; apply Nat.ltb_lt; lia). cbn [andb].
  destruct pts_head as (t & E). destruct pts_tail as (t' & E'). rewrite E at 1.
  replace (last pts (X 0)) with (X (n - 1)).
  - rewrite E. cbn [tl firstn map nadd nsub RA]. reflexivity.
  - rewrite E'. replace (t' ++ [X (n - 2); X (n - 1)]) with ((t' ++ [X (n - 2)]) ++ [X (n - 1)]) by (rewrite <- app_assoc; reflexivity). now rewrite last_last.
Qed.
(** The points with the ghosts, from -1 to n. *)
Definition ext (i : Z) : R := if i =? -1 then (X (n - 2)%Z - L)%R else if i =? n then (X 1 + L)%R else X i.
Lemma ext_list : [(X (n - 2)%Z - L)%R] ++ pts ++ [(X 1 + L)%R] = map (fun k => ext (k - 1)) (indices (n + 2)).
Proof.
  rewrite indices_split by lia. cbn [map app]. f_equal. rewrite map_app, map_map. f_equal.
  - apply map_ext_in. intros i Hi. apply in_indices in Hi. unfold ext. replace (i + 1 - 1) with i by lia.
    destruct (Z.eqb_spec i (-1)); [lia|]. destruct (Z.eqb_spec i n); [lia|]. reflexivity.
  - cbn [map]. f_equal. unfold ext. replace (n + 1 - 1) with n by lia. destruct (Z.eqb_spec n (-1)); [lia|]. now rewrite Z.eqb_refl.
Qed.
Lemma ext_rising i : -1 <= i < n -> (ext i < ext (i + 1))%R.
Proof.
  intros Hi. unfold ext. assert (A := HX 0 ltac:(lia) ltac:(lia)). assert (B := HX (n - 2) ltac:(lia) ltac:(lia)). replace (n - 2 + 1) with (n - 1) in B by lia. change (0 + 1) with 1 in A.
  destruct (Z.eqb_spec i (-1)) as [->|].
  - change (-1 + 1) with 0. destruct (Z.eqb_spec 0 (-1)); [lia|]. destruct (Z.eqb_spec 0 n); [lia|]. lra.
  - destruct (Z.eqb_spec i n); [lia|]. destruct (Z.eqb_spec (i + 1) (-1)); [lia|]. destruct (Z.eqb_spec (i + 1) n).
    + replace i with (n - 1) by lia. lra.
    + apply HX; lia.
Qed.
Lemma ext_before i : 0 <= i < n -> (ext i - ext (i - 1) = before n X i)%R.
Proof.
  intros Hi. unfold ext, before. destruct (Z.eqb_spec i (-1)); [lia|]. destruct (Z.eqb_spec i n); [lia|]. destruct (Z.eqb_spec i 0) as [->|].
  - cbn. lra.
  - destruct (Z.eqb_spec (i - 1) (-1)); [lia|]. destruct (Z.eqb_spec (i - 1) n); [lia|]. reflexivity.
Qed.
Lemma ext_after i : 0 <= i < n -> (ext (i + 1) - ext i = after n X i)%R.
Proof.
  intros Hi. unfold ext, after. destruct (Z.eqb_spec i (-1)); [lia|]. destruct (Z.eqb_spec i n); [lia|]. destruct (Z.eqb_spec (i + 1) (-1)); [lia|].
  destruct (Z.eqb_spec (i + 1) n); destruct (Z.eqb_spec i (n - 1)); try lia; try reflexivity. subst i. lra.
Qed.
Lemma before_pos i : 0 <= i < n -> (0 < before n X i)%R.
Proof. intros Hi. rewrite <- ext_before by auto. assert (A := ext_rising (i - 1) ltac:(lia)). replace (i - 1 + 1) with i in A by lia. lra. Qed.
Lemma after_pos i : 0 <= i < n -> (0 < after n X i)%R.
Proof. intros Hi. rewrite <- ext_after by auto. assert (A := ext_rising i ltac:(lia)). lra. Qed.
Definition sampling : non_uniform_sampling RA := mk_ns RA (map (fun k => ext (k - 1)) (indices (n + 2))) 0.
Lemma init_ok q : ns_init_ghosted RA q pts [(X (n - 2)%Z - L)%R] [(X 1 + L)%R] = Ok (Some (sampling, gdom q n)).
Proof.
  unfold ns_init_ghosted. destruct pts_head as (t & E). rewrite E at 1. unfold ns_construct. change (num RA) with R. rewrite ext_list.
  rewrite sorted_indices.
  2:{ intros i Hi Hi'. apply Rlt_le. replace (i + 1 - 1) with (i - 1 + 1) by lia. apply ext_rising. lia. }
  rewrite pts_length. cbn [ns_front length]. unfold reference_element. rewrite ghost_domains_ok by lia. cbn [rbind]. 
  replace (Z.of_nat (Z.to_nat n)) with n by lia. change (Z.of_nat 1) with 1. reflexivity.
Qed.
Lemma coord_ok i : -1 <= i <= n -> ns_coordinate RA sampling (1 + i) = Ok (ext i).
Proof.
  intros Hi. unfold ns_coordinate, sampling, nth_z. cbn [ns_points ns_front]. rewrite elem_minus_0 by lia. destruct (Z.ltb_spec (1 + i) 0); [lia|].
  rewrite nth_error_map, nth_indices by lia. cbn [option_map]. do 2 f_equal. lia.
Qed.
Lemma coord_inner i : 0 <= i < n -> ns_coordinate RA sampling (1 + i) = Ok (X i).
Proof.
  intros Hi. rewrite coord_ok by lia. unfold ext. destruct (Z.eqb_spec i (-1)); [lia|]. destruct (Z.eqb_spec i n); [lia|]. reflexivity.
Qed.
Lemma left_ok i : 0 <= i < n -> ns_distance_at_left RA sampling (1 + i) = Ok (before n X i).
Proof.
  intros Hi. unfold ns_distance_at_left. rewrite coord_ok by lia. cbn [rbind]. unfold u64_sub. rewrite u64_small by lia. replace (1 + i - 1) with (1 + (i - 1)) by lia.
  rewrite coord_ok by lia. cbn [rbind nsub RA]. f_equal. now apply ext_before.
Qed.
Lemma right_ok i : 0 <= i < n -> ns_distance_at_right RA sampling (1 + i) = Ok (after n X i).
Proof.
  intros Hi. unfold ns_distance_at_right. unfold u64_add. rewrite u64_small by lia. replace (1 + i + 1) with (1 + (i + 1)) by lia.
  rewrite !coord_ok by lia. cbn [rbind nsub RA]. f_equal. now apply ext_after.
Qed.
End Points.

Section NonUniform.
Variables (nx ny : Z) (gb : nat -> list Z) (hm : heat_memory) (ceil : R -> R) (X Y : Z -> R) (kx mx ky my t0 t1 : R) (period : Z).
Hypothesis Hsz : heat_sizes nx ny.
Hypothesis Hgb : forall n, length (gb n) = n.
Hypothesis Hhm : heat_allocations nx ny hm.
Hypothesis Hceil : rounds_up ceil.
Hypothesis HX : rising nx X.
Hypothesis HY : rising ny Y.
Hypothesis Hkx : (0 < kx)%R.
Hypothesis Hky : (0 < ky)%R.
Hypothesis Ht : (t0 < t1)%R.
Hypothesis Hmx : largest nx (fun i => 1 / (before nx X i * after nx X i))%R mx.
Hypothesis Hmy : largest ny (fun j => 1 / (before ny Y j * after ny Y j))%R my.
Hypothesis Hst : ((t1 - t0) / step_bound kx mx ky my <= IZR (2 ^ 61))%R.
Hypothesis Hper : 0 < period.
Lemma largest_pos n Z0 M : 2 <= n < 2 ^ 62 -> rising n Z0 -> largest n (fun i => 1 / (before n Z0 i * after n Z0 i))%R M -> (0 < M)%R.
Proof. intros Hn Hr ((i & Hi & <-) & _). apply inv2_pos; [now apply before_pos|now apply after_pos]. Qed.
Theorem non_uniform_run m : exists N T, fewest_steps t0 t1 (step_bound kx mx ky my) N /\
  heat_history nx ny X Y (before nx X) (after nx X) (before ny Y) (after ny Y) kx ky ((t1 - t0) / IZR N) T /\
  prints (fun ss => non_uniform_heat_main RA ceil (map X (indices nx)) kx (map Y (indices ny)) ky t0 t1 period hm gb (mk_machine m ss)) (heat_lines nx ny t0 t1 period N T).
Proof.
  destruct Hsz as (S1 & S2 & S3). unfold non_uniform_heat_main. rewrite !left_ghost, !right_ghost by auto. cbn [rbind]. rewrite !init_ok by auto. cbn [rbind].
  unfold heat_with_distances. cbn [gdom g_main].
  assert (Px := largest_pos nx X mx S1 HX Hmx). assert (Py := largest_pos ny Y my S2 HY Hmy).
  rewrite (inverse_max_ok hx nx _ _ (before nx X) (after nx X) mx); auto; [|lia|intros; split; [now apply left_ok|now apply right_ok]|intros; split; [now apply before_pos|now apply after_pos]].
  rewrite (inverse_max_ok hy ny _ _ (before ny Y) (after ny Y) my); auto; [|lia|intros; split; [now apply left_ok|now apply right_ok]|intros; split; [now apply before_pos|now apply after_pos]].
  cbn [rbind]. unfold lit_half. cbn [RA nadd nmul nsub ndiv nofz num]. change (num RA) with R in *. rewrite half_bound by auto.
  apply (run_ok nx ny gb hm ceil t0 t1 (step_bound kx mx ky my) period _ _ X Y (before nx X) (after nx X) (before ny Y) (after ny Y) kx ky _ _
    (fun step i => increment_distances RA kx step (before nx X i) (after nx X i)) (fun step i => increment_distances RA ky step (before ny Y i) (after ny Y i))); auto.
  - now apply bound_pos.
  - intros. now apply coord_inner.
  - intros. now apply coord_inner.
  - intros dt i Hi. unfold increment_at. rewrite left_ok, right_ok by auto. reflexivity.
  - intros dt i Hi. unfold increment_at. rewrite left_ok, right_ok by auto. reflexivity.
  - intros. apply distances_ok; [now apply before_pos|now apply after_pos].
  - intros. apply distances_ok; [now apply before_pos|now apply after_pos].
Qed.
End NonUniform.
