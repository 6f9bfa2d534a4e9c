(** integrals(): the loops. *)
From Coq Require Import Bool Reals Lia Lra ZifyBool List.
From Coquelicot Require Import Coquelicot.
From Verif Require Import IntegralModel IntegralSpec LoopProofs BSplineMath BSplineDeriv BSplineProofs BSplineUniform SamplingSpec SamplingProofs CellProofs KnotProofs NonUniformProofs UniformProofs SplineLemmas SplineLemmas2 PointsProofs MathProofs IntegralMath IntegralMath2.
Import ListNotations.
Local Open Scope bool_scope. Local Open Scope Z_scope.

Lemma sum_first_nsum n f : sum_first n f = nsum n f.
Proof. induction n as [|n IH]; [reflexivity|]. cbn [sum_first nsum]. now rewrite IH. Qed.
Lemma sum_first_zsum n f : sum_first (Z.to_nat n) f = zsum n f.
Proof. apply sum_first_nsum. Qed.

Section Fill.
Context (q : tag).
Lemma c1_set_ok (c : chunk_1d RA) ix (v : R) : c1_front RA c = 0 -> 0 <= ix < c1_size RA c -> c1_size RA c < 2 ^ 63 ->
  c1_set RA c ix v = Ok (mk_chunk_1d RA 0 (mk_arr (c1_size RA c) (upd (a_at (c1_vals RA c)) ix v))).
Proof.
  intros Hf Hi Hs. unfold c1_set, c1_size in *. rewrite Hf. rewrite elem_minus_0 by lia. rewrite aset_ok by exact Hi. reflexivity.
Qed.
Definition filled (c c' : chunk_1d RA) (lo hi : Z) (v : R) : Prop :=
  c1_front RA c' = 0 /\ c1_size RA c' = c1_size RA c /\ (forall k, lo <= k < hi -> a_at (c1_vals RA c') k = v) /\
  (forall k, k < lo \/ hi <= k -> a_at (c1_vals RA c') k = a_at (c1_vals RA c) k).
Lemma fill_domain_ok lo hi (v : R) (c : chunk_1d RA) : 0 <= lo <= hi -> hi <= c1_size RA c -> c1_size RA c < 2 ^ 63 -> c1_front RA c = 0 ->
  exists c', fill_domain RA [(q, (lo, hi))] v c = Ok c' /\ filled c c' lo hi v.
Proof.
  intros Hl Hh Hs Hf. unfold fill_domain, front_of, size_of. cbn [front dom_begin map fst snd one_elem rbind]. rewrite extents_1' by lia. cbn [rbind one_elem].
  replace (hi - lo <? 0) with false by lia.
  destruct (for_range_inv (fun k c' => filled c c' lo (lo + k) v) (fun k c => c1_set RA c (u64_add lo k) v) 0 (hi - lo) c) as (c' & E & Hc'); [lia| | |].
  - repeat split; trivial. intros; lia.
  - intros i c1 Hi (F1 & F2 & F3 & F4). unfold u64_add. rewrite u64_small by lia. rewrite c1_set_ok by (trivial; lia).
    eexists. split; [reflexivity|]. split; [reflexivity|]. split; [exact F2|]. cbn [c1_vals a_at]. split.
    + intros k Hk. destruct (Z.eq_dec k (lo + i)) as [->|]; [apply upd_eq|]. rewrite upd_neq by assumption. apply F3. lia.
    + intros k Hk. rewrite upd_neq by lia. apply F4. lia.
  - exists c'. split; [exact E|]. replace (lo + (hi - lo)) with hi in Hc' by lia. exact Hc'.
Qed.
Lemma full_domain_ok n : 0 <= n < 2 ^ 63 -> full_domain q n = Ok [(q, (0, n))].
Proof. intros. unfold full_domain, reference_element. rewrite i64_small, mk_domain_1' by lia. reflexivity. Qed.
Lemma take_first_ok n m : 0 <= m < 2 ^ 63 -> take_first [(q, (0, n))] [(q, i64 m)] = Ok [(q, (0, m))].
Proof. intros. unfold take_first, front. cbn [dom_begin map fst snd]. rewrite i64_small, mk_domain_1' by lia. reflexivity. Qed.
Lemma take_last_ok n m : 0 <= m <= n -> n < 2 ^ 63 -> take_last [(q, (0, n))] [(q, i64 m)] = Ok [(q, (n - m, n))].
Proof.
  intros. unfold take_last, front. cbn [dom_begin map fst snd]. rewrite i64_small by lia. rewrite extents_1' by lia. cbn [rbind]. rewrite vect_sub_1 by lia. cbn [rbind].
  rewrite elem_add_1 by lia. cbn [rbind]. rewrite mk_domain_1' by lia. do 3 f_equal. f_equal; lia.
Qed.
End Fill.

(** *** non-uniform *)
Section NU.
Context (d : Z) (periodic : bool) (l : list R).
Hypothesis Hd : 1 <= d.
Hypothesis Hlen : (2 <= length l)%nat.
Hypothesis Hstrict : strictly_increasing l.
Hypothesis Hbig : Z.of_nat (length l) + 2 * d < 2 ^ 31.
Let ncells := Z.of_nat (length l) - 1.
Let t := knots periodic d l.
Let nbasis := if periodic then ncells else ncells + d.
Lemma nu_values q junk (iv : chunk_1d RA) : c1_front RA iv = 0 -> c1_size RA iv = nbasis \/ (periodic = true /\ c1_size RA iv = ncells + d) ->
  exists s c, nb_construct RA junk d periodic l = Ok (Some s) /\ non_uniform_bsplines_integrals RA q s iv = Ok c /\
    c1_front RA c = 0 /\ c1_size RA c = c1_size RA iv /\ (forall i, 0 <= i < nbasis -> a_at (c1_vals RA c) i = W t d i) /\
    (forall i, nbasis <= i < c1_size RA iv -> a_at (c1_vals RA c) i = 0%R).
Proof.
  intros Hf Hs. destruct (nu_construct d periodic l junk ltac:(lia) Hlen Hbig ltac:(now apply strict_incr) ltac:(now apply first_last)) as (s & E & S1 & S2 & S3 & S4 & S5 & S6 & S7 & S8 & S9 & _).
  fold ncells in S1, S2, S3, S6, S8, S9. fold t in S2, S3, S4, S5. assert (Sd : nb_degree RA s = d /\ nb_periodic RA s = periodic).
  { destruct (construct_ok l d ltac:(lia) Hlen Hbig periodic junk ltac:(now apply strict_incr) ltac:(now apply first_last)) as (s' & E' & D1 & D2 & _). rewrite E in E'. injection E' as ->. now split. }
  destruct Sd as [Sd Sp]. exists s.
  assert (Hnb : 0 <= nbasis <= ncells + d /\ nbasis <= c1_size RA iv <= ncells + d) by (unfold nbasis, ncells in *; destruct periodic; lia).
  unfold non_uniform_bsplines_integrals. rewrite Sd, Sp, S8, S9. fold nbasis.
  assert (Ea : (c1_size RA iv =? nbasis) || periodic && (c1_size RA iv =? ncells + d) = true) by (destruct Hs as [-> | [-> ->]]; rewrite Z.eqb_refl; [reflexivity | apply orb_true_r]).
  rewrite Ea. unfold assert_. rewrite full_domain_ok by (unfold ncells in *; lia). cbn [rbind]. rewrite take_first_ok by (unfold ncells in *; lia). cbn [rbind].
  unfold front_of, size_of. cbn [front dom_begin map fst snd one_elem rbind]. rewrite extents_1' by (unfold ncells in *; lia). cbn [rbind one_elem]. rewrite Z.sub_0_r.
  set (body := fun (k : Z) (c : chunk_1d RA) => _).
  destruct (for_range_inv (fun k (c : chunk_1d RA) => c1_front RA c = 0 /\ c1_size RA c = c1_size RA iv /\ (forall i, 0 <= i < k -> a_at (c1_vals RA c) i = W t d i)) body 0 nbasis iv) as (c & Ec & F1 & F2 & F3); [lia| | |].
  - split; [exact Hf|]. split; [reflexivity|]. intros; lia.
  - intros i c Hi (F1 & F2 & F3). unfold body. unfold u64_add at 1 2 3. rewrite !(u64_small (0 + i)) by (unfold ncells in *; lia). rewrite Z.add_0_l.
    assert (E1 : nb_first_support_knot i = i).
    { unfold nb_first_support_knot, reference_element. rewrite elem_minus_0 by (unfold ncells in *; lia). unfold u64_add. rewrite (u64_small i) by (unfold ncells in *; lia). rewrite u64_small; unfold ncells in *; lia. }
    assert (E2 : nb_last_support_knot RA s i = i + d + 1).
    { unfold nb_last_support_knot. rewrite E1, Sd. unfold u64_add. rewrite (u64_small (d + 1)) by lia. rewrite u64_small; unfold ncells in *; lia. }
    rewrite E1, E2. rewrite !S2 by (unfold ncells in *; lia). cbn [rbind].
    rewrite c1_set_ok by (trivial; unfold ncells in *; lia). eexists. split; [reflexivity|]. split; [reflexivity|]. split; [exact F2|]. cbn [c1_vals a_at].
    intros k Hk. destruct (Z.eq_dec k i) as [->|]; [|rewrite upd_neq by assumption; apply F3; lia]. rewrite upd_eq. cbn [nmul nsub ndiv nofz RA].
    unfold W, u64_add. rewrite u64_small by lia. change (num RA) with R. unfold Rdiv. ring.
  - rewrite Ec. cbn [rbind]. rewrite F2. destruct (periodic && (c1_size RA iv =? ncells + d)) eqn:Ep.
    + apply andb_true_iff in Ep as [Ep1 Ep2]. rewrite take_last_ok by (unfold ncells in *; lia). cbn [rbind].
      replace (ncells + d - d) with ncells by lia. assert (En : nbasis = ncells) by (unfold nbasis; now rewrite Ep1).
      destruct (fill_domain_ok q ncells (ncells + d) (nofz RA 0) c) as (c' & Ec' & G1 & G2 & G3 & G4); try (unfold ncells in *; lia); try exact F1.
      exists c'. split; [exact E|]. split; [exact Ec'|]. split; [exact G1|]. split; [lia|]. split.
      * intros i Hi. rewrite G4 by lia. now apply F3.
      * intros i Hi. rewrite G3 by lia. reflexivity.
    + exists c. split; [exact E|]. split; [reflexivity|]. split; [exact F1|]. split; [exact F2|]. split; [exact F3|].
      intros i Hi. apply andb_false_iff in Ep. exfalso. destruct Hs as [Hs | [Hs1 Hs2]]; [lia|]. destruct Ep as [Ep|Ep]; [congruence | lia].
Qed.
Lemma nu_t_last : t (d + ncells) = last_point l.
Proof. apply sp_t_last. exact Hlen. Qed.
Lemma nu_t_first : t d = first_point l.
Proof. apply sp_t_first. exact Hlen. Qed.
Lemma nu_mono i j : i <= j -> (t i <= t j)%R.
Proof. now apply sp_mono. Qed.
Lemma nu_cell c : d <= c < d + ncells -> (t c < t (c + 1)%Z)%R.
Proof. now apply sp_cell. Qed.
Lemma nu_nc : 1 <= ncells. Proof. unfold ncells. lia. Qed.
Lemma nu_open i : periodic = false -> 0 <= i < ncells + d -> integral (bspline t (last_point l) (Z.to_nat d) i) (first_point l) (last_point l) (W t d i).
Proof.
  intros Hp Hi. unfold integral. rewrite <- nu_t_first. apply (open_integral t nu_mono d ltac:(lia) d ncells (last_point l) nu_nc nu_cell nu_t_last); [| |lia].
  - intros k Hk. unfold t. rewrite Hp. rewrite !knots_open_left by (assumption || lia). reflexivity.
  - intros k Hk. unfold t. rewrite Hp. apply knots_open_right; assumption.
Qed.
Lemma nu_periodic i : periodic = true -> 0 <= i < ncells -> integral (periodic_bspline t (last_point l) d ncells i) (first_point l) (last_point l) (W t d i).
Proof.
  intros Hp Hi. unfold integral, periodic_bspline. rewrite <- nu_t_first.
  eapply is_RInt_ext; [|apply (periodic_integral t nu_mono d ltac:(lia) d ncells (last_point l) nu_nc nu_cell nu_t_last); [|reflexivity|exact Hi]].
  - intros x _. cbn beta. symmetry. apply sum_first_zsum.
  - intros k. rewrite nu_t_first. unfold t. rewrite Hp. apply knots_period. exact Hlen.
Qed.
Theorem nu_integrals : forall q junk (iv : chunk_1d RA), c1_front RA iv = 0 -> c1_size RA iv = nbasis \/ (periodic = true /\ c1_size RA iv = ncells + d) ->
  exists s c, nb_construct RA junk d periodic l = Ok (Some s) /\ non_uniform_bsplines_integrals RA q s iv = Ok c /\
    c1_front RA c = 0 /\ c1_size RA c = c1_size RA iv /\
    (forall i, 0 <= i < nbasis -> integral (if periodic then periodic_bspline t (last_point l) d ncells i else bspline t (last_point l) (Z.to_nat d) i)
       (first_point l) (last_point l) (a_at (c1_vals RA c) i)) /\
    (forall i, nbasis <= i < c1_size RA iv -> a_at (c1_vals RA c) i = 0%R) /\
    sum_first (Z.to_nat (c1_size RA iv)) (a_at (c1_vals RA c)) = (last_point l - first_point l)%R.
Proof.
  intros q junk iv Hf Hs. destruct (nu_values q junk iv Hf Hs) as (s & c & E & Ec & F1 & F2 & F3 & F4). exists s, c. do 4 (split; [assumption|]).
  assert (Hnb : 0 <= nbasis <= c1_size RA iv) by (pose proof nu_nc; unfold nbasis in *; destruct periodic; lia).
  assert (HI : forall i, 0 <= i < nbasis -> integral (if periodic then periodic_bspline t (last_point l) d ncells i else bspline t (last_point l) (Z.to_nat d) i)
       (first_point l) (last_point l) (a_at (c1_vals RA c) i)).
  { intros i Hi. rewrite F3 by exact Hi. unfold nbasis in Hi. destruct (bool_dec periodic true) as [Ep|Ep%not_true_is_false]; rewrite Ep in Hi |- *; [now apply nu_periodic | now apply nu_open]. }
  split; [exact HI|]. split; [exact F4|]. rewrite sum_first_zsum. replace (c1_size RA iv) with (nbasis + (c1_size RA iv - nbasis)) by lia. rewrite zsum_add by lia.
  rewrite (zsum_zero (c1_size RA iv - nbasis)) by (intros; apply F4; lia). rewrite Rplus_0_r. rewrite <- nu_t_first. unfold integral in HI. rewrite <- nu_t_first in HI.
  unfold nbasis in *. destruct (bool_dec periodic true) as [Ep|Ep%not_true_is_false]; rewrite Ep in HI |- *.
  - apply (periodic_integrals_sum t nu_mono d ncells (last_point l) Hd nu_nc nu_cell nu_t_last). intros i Hi. eapply is_RInt_ext; [|apply HI; exact Hi]. intros x _. unfold periodic_bspline. apply sum_first_zsum.
  - apply (integrals_sum t nu_mono d ncells (last_point l) Hd nu_nc nu_cell nu_t_last). intros i Hi. apply HI. exact Hi.
Qed.
End NU.

(** *** uniform *)
Section U.
Context (d : Z) (periodic : bool) (a b : R) (ncells : Z).
Hypothesis Hd : 1 <= d.
Hypothesis Hnc : 1 <= ncells.
Hypothesis Hab : (a < b)%R.
Hypothesis Hbig : ncells + 1 + 2 * d < 2 ^ 31.
Let h := ((b - a) / IZR ncells)%R.
Let t := uniform_knots d a b ncells.
Let nbasis := if periodic then ncells else ncells + d.
Lemma arr_zsum (v : arr R) n : 0 <= n <= a_len v -> sum RA (firstn (Z.to_nat n) (arr_list v)) = zsum n (a_at v).
Proof.
  intros Hn. rewrite sum_ok. unfold arr_list, zsum. replace (firstn (Z.to_nat n) (map (fun k : nat => a_at v (Z.of_nat k)) (seq 0 (Z.to_nat (a_len v))))) with (map (fun k : nat => a_at v (Z.of_nat k)) (seq 0 (Z.to_nat n))).
  - clear Hn. induction (Z.to_nat n) as [|m IH]; [reflexivity|]. rewrite seq_S, map_app. cbn [nsum map]. rewrite <- IH. rewrite fold_right_app. cbn [fold_right map Nat.add].
    assert (G : forall (k : list R) (z : R), fold_right Rplus (z + 0)%R k = (fold_right Rplus 0 k + z)%R) by (intros k z; induction k as [|x k IHk]; cbn [fold_right]; [ring | rewrite IHk; ring]).
    apply G.
  - rewrite firstn_map. f_equal. replace (Z.to_nat (a_len v)) with (Z.to_nat n + (Z.to_nat (a_len v) - Z.to_nat n))%nat by lia. rewrite seq_app, firstn_app, seq_length, Nat.sub_diag. rewrite firstn_O, app_nil_r.
    symmetry. rewrite <- (seq_length (Z.to_nat n) 0) at 1. apply firstn_all.
Qed.
Lemma u_edge_value s junk i : is_space a b ncells d periodic s -> 0 <= i < d ->
  uniform_edge_value RA s junk i = Ok (h * (1 - zsum (d - i) (edge t d)))%R.
Proof.
  intros Hs Hi. unfold uniform_edge_value. rewrite (us_deg a b ncells d periodic s Hs), (us_rmin a b ncells d periodic Hd Hnc Hbig s Hs).
  replace (u64_add d 1) with (d + 1) by (unfold u64_add; rewrite u64_small; lia).
  assert (Eloc : ub_icell_and_offset RA s a = Ok (0, 0%R : num RA)) by (apply (us_low a b ncells d periodic Hd Hnc Hbig s Hs a); [apply in_range_in; lra | lra]).
  destruct (up_eval_degree a b ncells d Hd Hnc Hbig Hab s a 0 0%R ltac:(lia)) with (p := d + 1) (values := mk_arr (d + 2) junk : arr R) as (v & E & L & Hv).
  - rewrite Z.add_0_r. rewrite us_first. ring.
  - exact Eloc.
  - lia.
  - cbn [a_len]. lia.
  - change (num RA) with R in *. rewrite E. cbn [rbind]. change (num RA) with R in *. f_equal. cbn [nmul nsub RA].
    rewrite (us_step_eq a b ncells d periodic s Hs). fold h. f_equal.
    assert (Hval : forall r, 0 <= r <= d + 1 -> a_at v r = edge t d r).
    { intros r Hr. rewrite Hv by exact Hr. unfold V, edge. rewrite Z.add_0_r. fold t. replace (t d) with a by (symmetry; apply us_first). f_equal. lia. }
    f_equal.
    + replace (arr_list v) with (firstn (Z.to_nat (d + 2)) (arr_list v)).
      * rewrite arr_zsum by lia. rewrite (zsum_ext (d + 2) _ (edge t d)) by (intros; apply Hval; lia).
        apply (edge_sum t (us_mono a b ncells d Hnc Hab) d Hd h (us_h a b ncells d Hnc Hab) (us_diff a b ncells d)).
      * apply firstn_all2. unfold arr_list. rewrite map_length, seq_length. lia.
    + unfold sum_range. rewrite skipn_O, Nat.sub_0_r. replace (i32 (u64_sub d i)) with (d - i) by (unfold u64_sub; rewrite u64_small, i32_small; lia).
      rewrite arr_zsum by lia. apply zsum_ext. intros. apply Hval. lia.
Qed.

Lemma u_cell_ c : d <= c < d + ncells -> (t c < t (c + 1)%Z)%R.
Proof. intros _. now apply us_cell. Qed.
Lemma u_values q s junk (iv : chunk_1d RA) : is_space a b ncells d periodic s -> c1_front RA iv = 0 ->
  c1_size RA iv = nbasis \/ (periodic = true /\ c1_size RA iv = ncells + d) -> (periodic = false -> d <= ncells) ->
  exists c, uniform_bsplines_integrals RA q s junk iv = Ok c /\ c1_front RA c = 0 /\ c1_size RA c = c1_size RA iv /\
    (forall i, 0 <= i < nbasis -> a_at (c1_vals RA c) i =
       if periodic then h else if i <? d then (h * (1 - zsum (d - i) (edge t d)))%R else if i <? ncells then h else (h * (1 - zsum (i - ncells + 1) (edge t d)))%R) /\
    (forall i, nbasis <= i < c1_size RA iv -> a_at (c1_vals RA c) i = 0%R).
Proof.
  intros Hs Hf Hsz Hfew. destruct (ub_construct_ok q a b ncells d periodic Hd Hnc Hbig Hab) as (s0 & E0 & _). clear s0 E0.
  pose proof Hs as (S1 & S2 & S3 & S4 & S5 & S6 & S7).
  assert (Hn : ub_ncells RA s = ncells) by (apply (us_ncells a b ncells d periodic Hd Hnc Hbig s Hs)).
  assert (S8 : ub_size RA s = ncells + d) by (unfold ub_size; rewrite S1, Hn; unfold u64_add; rewrite u64_small; lia).
  assert (S9 : ub_nbasis RA s = nbasis) by (unfold ub_nbasis, nbasis; rewrite S1, S2, Hn; unfold u64_add; rewrite u64_small; destruct periodic; lia).
  assert (Hnb : 0 <= nbasis <= ncells + d /\ nbasis <= c1_size RA iv <= ncells + d) by (unfold nbasis in *; destruct periodic; lia).
  unfold uniform_bsplines_integrals. rewrite S1, S2, S8, S9, S7. fold h.
  assert (Ea : (c1_size RA iv =? nbasis) || periodic && (c1_size RA iv =? ncells + d) = true) by (destruct Hsz as [-> | [-> ->]]; rewrite Z.eqb_refl; [reflexivity | apply orb_true_r]).
  rewrite Ea. unfold assert_. rewrite full_domain_ok by lia. cbn [rbind]. clear Ea.
  unfold nbasis in *. destruct (bool_dec periodic true) as [Ep|Ep%not_true_is_false]; rewrite Ep in Hsz, Hnb |- *.
  - rewrite take_first_ok by lia. cbn [rbind].
    destruct (fill_domain_ok q 0 ncells h iv) as (c & Ec & F1 & F2 & F3 & F4); try lia; try exact Hf.
    change (num RA) with R in *. rewrite Ec. cbn [rbind]. rewrite F2. destruct (Z.eqb_spec (c1_size RA iv) (ncells + d)) as [Es|Es].
    + rewrite take_last_ok by lia. cbn [rbind]. replace (ncells + d - d) with ncells by lia.
      destruct (fill_domain_ok q ncells (ncells + d) (nofz RA 0) c) as (c' & Ec' & G1 & G2 & G3 & G4); try lia; try exact F1.
      exists c'. split; [exact Ec'|]. split; [exact G1|]. split; [lia|]. split; intros i Hi; [rewrite G4 by lia; apply F3; lia | rewrite G3 by lia; reflexivity].
    + exists c. split; [reflexivity|]. split; [exact F1|]. split; [exact F2|]. split; intros i Hi; [apply F3; lia|]. exfalso. lia.
  - specialize (Hfew Ep). unfold remove_both, front. cbn [dom_begin map fst snd]. rewrite i64_small by lia.
    rewrite elem_add_1 by lia. cbn [rbind]. rewrite extents_1' by lia. cbn [rbind]. rewrite vect_sub_1 by lia. cbn [rbind]. rewrite vect_sub_1 by lia. cbn [rbind]. rewrite mk_domain_1' by lia. cbn [rbind].
    replace (0 + d + (ncells + d - 0 - d - d)) with ncells by lia. replace (0 + d) with d by lia.
    destruct (fill_domain_ok q d ncells h iv) as (c & Ec & F1 & F2 & F3 & F4); try lia; try exact Hf.
    change (num RA) with R in *. rewrite Ec. cbn [rbind one_elem back map fst snd]. replace (u64_sub (ncells + d) 1) with (ncells + d - 1) by (unfold u64_sub; rewrite u64_small; lia).
    set (body := fun (i : Z) (int_vals : chunk_1d RA) => _).
    destruct (for_range_inv (fun k (c' : chunk_1d RA) => c1_front RA c' = 0 /\ c1_size RA c' = c1_size RA iv /\
        (forall i, 0 <= i < k -> a_at (c1_vals RA c') i = (h * (1 - zsum (d - i) (edge t d)))%R /\ a_at (c1_vals RA c') (ncells + d - 1 - i) = (h * (1 - zsum (d - i) (edge t d)))%R) /\
        (forall i, d <= i < ncells -> a_at (c1_vals RA c') i = h)) body 0 d c) as (c' & Ec' & G1 & G2 & G3 & G4); [lia| | |].
    + split; [exact F1|]. split; [exact F2|]. split; [intros; lia|]. exact F3.
    + intros i c1 Hi (G1 & G2 & G3 & G4). unfold body. rewrite u_edge_value by (trivial; lia). cbn [rbind].
      replace (u64_add 0 i) with i by (unfold u64_add; rewrite u64_small; lia). replace (u64_sub (ncells + d - 1) i) with (ncells + d - 1 - i) by (unfold u64_sub; rewrite u64_small; lia).
      rewrite c1_set_ok by (trivial; lia). cbn [rbind]. rewrite c1_set_ok by (trivial; unfold c1_size in *; cbn [c1_vals a_len]; lia).
      eexists. split; [reflexivity|]. split; [reflexivity|]. split; [exact G2|]. cbn [c1_vals a_at]. split.
      * intros k Hk. destruct (Z.eq_dec k i) as [->|Nk].
        -- rewrite upd_eq. split; [|reflexivity]. rewrite upd_neq by lia. apply upd_eq.
        -- destruct (G3 k ltac:(lia)) as [K1 K2]. rewrite !upd_neq by lia. now split.
      * intros k Hk. rewrite !upd_neq by lia. now apply G4.
    + exists c'. split; [exact Ec'|]. split; [exact G1|]. split; [exact G2|]. split; [|intros i Hi; exfalso; lia].
      intros i Hi. destruct (Z.ltb_spec i d); [apply G3; lia|]. destruct (Z.ltb_spec i ncells); [apply G4; lia|].
      destruct (G3 (ncells + d - 1 - i) ltac:(lia)) as [_ K]. replace (ncells + d - 1 - (ncells + d - 1 - i)) with i in K by lia. etransitivity; [exact K|]. do 3 f_equal. lia.
Qed.
Theorem u_integrals_space : forall q s junk (iv : chunk_1d RA), is_space a b ncells d periodic s -> c1_front RA iv = 0 ->
  c1_size RA iv = nbasis \/ (periodic = true /\ c1_size RA iv = ncells + d) -> (periodic = false -> d <= ncells) ->
  exists c, uniform_bsplines_integrals RA q s junk iv = Ok c /\
    c1_front RA c = 0 /\ c1_size RA c = c1_size RA iv /\
    (forall i, 0 <= i < nbasis -> integral (if periodic then periodic_bspline t b d ncells i else bspline t b (Z.to_nat d) i) a b (a_at (c1_vals RA c) i)) /\
    (forall i, nbasis <= i < c1_size RA iv -> a_at (c1_vals RA c) i = 0%R) /\
    sum_first (Z.to_nat (c1_size RA iv)) (a_at (c1_vals RA c)) = (b - a)%R.
Proof.
  intros q s junk iv Hs Hf Hsz Hfew.
  destruct (u_values q s junk iv Hs Hf Hsz Hfew) as (c & Ec & F1 & F2 & F3 & F4). exists c. do 3 (split; [assumption|]).
  pose proof (us_mono a b ncells d Hnc Hab) as Mo. pose proof (us_h a b ncells d Hnc Hab) as Hh. pose proof (us_diff a b ncells d) as Hdf. pose proof (us_last a b ncells d Hnc) as La. fold t in Mo, Hdf, La. fold h in Hdf, Hh.
  assert (Fi : t d = a) by apply us_first.
  assert (Hnb : 0 <= nbasis <= c1_size RA iv) by (unfold nbasis in *; destruct periodic; lia).
  assert (HI : forall i, 0 <= i < nbasis -> integral (if periodic then periodic_bspline t b d ncells i else bspline t b (Z.to_nat d) i) (t d) b (a_at (c1_vals RA c) i)).
  { intros i Hi. rewrite F3 by exact Hi. unfold nbasis in Hi. unfold integral. destruct (bool_dec periodic true) as [Ep|Ep%not_true_is_false]; rewrite Ep in Hi |- *.
    - unfold periodic_bspline. rewrite <- (u_W t d Hd h Hdf i).
      eapply is_RInt_ext; [|apply (periodic_integral t Mo d ltac:(lia) d ncells b Hnc u_cell_ La); [|reflexivity|exact Hi]].
      + intros x _. cbn beta. symmetry. apply sum_first_zsum.
      + apply (u_per t d ncells b La h Hdf).
    - specialize (Hfew Ep). destruct (Z.ltb_spec i d).
      + apply (u_first_integral t Mo d ncells b Hd Hnc u_cell_ La h Hh Hdf); lia.
      + destruct (Z.ltb_spec i ncells).
        * apply (u_inner_integral t Mo d ncells b Hd Hnc u_cell_ La h Hh Hdf); lia.
        * pose proof (u_last_integral t Mo d ncells b Hd Hnc u_cell_ La h Hh Hdf (ncells + d - 1 - i) ltac:(lia) ltac:(lia)) as K.
          replace (ncells + d - 1 - (ncells + d - 1 - i)) with i in K by lia. replace (d - (ncells + d - 1 - i)) with (i - ncells + 1) in K by lia. exact K. }
  split; [rewrite <- Fi; exact HI|]. split; [exact F4|]. rewrite sum_first_zsum. replace (c1_size RA iv) with (nbasis + (c1_size RA iv - nbasis)) by lia. rewrite zsum_add by lia.
  rewrite (zsum_zero (c1_size RA iv - nbasis)) by (intros; apply F4; lia). rewrite Rplus_0_r. rewrite <- Fi. unfold integral in HI.
  unfold nbasis in *. destruct (bool_dec periodic true) as [Ep|Ep%not_true_is_false]; rewrite Ep in HI |- *.
  - apply (periodic_integrals_sum t Mo d ncells b Hd Hnc u_cell_ La). intros i Hi. eapply is_RInt_ext; [|apply HI; exact Hi]. intros x _. unfold periodic_bspline. apply sum_first_zsum.
  - apply (integrals_sum t Mo d ncells b Hd Hnc u_cell_ La). intros i Hi. apply HI. exact Hi.
Qed.
Theorem u_integrals : forall q junk (iv : chunk_1d RA), c1_front RA iv = 0 ->
  c1_size RA iv = nbasis \/ (periodic = true /\ c1_size RA iv = ncells + d) -> (periodic = false -> d <= ncells) ->
  exists s c, ub_construct RA q d periodic a b ncells = Ok s /\ uniform_bsplines_integrals RA q s junk iv = Ok c /\
    c1_front RA c = 0 /\ c1_size RA c = c1_size RA iv /\
    (forall i, 0 <= i < nbasis -> integral (if periodic then periodic_bspline t b d ncells i else bspline t b (Z.to_nat d) i) a b (a_at (c1_vals RA c) i)) /\
    (forall i, nbasis <= i < c1_size RA iv -> a_at (c1_vals RA c) i = 0%R) /\
    sum_first (Z.to_nat (c1_size RA iv)) (a_at (c1_vals RA c)) = (b - a)%R.
Proof.
  intros q junk iv Hf Hsz Hfew. destruct (ub_construct_ok q a b ncells d periodic Hd Hnc Hbig Hab) as (s & E & Hs).
  destruct (u_integrals_space q s junk iv Hs Hf Hsz Hfew) as (c & H). exists s, c. split; assumption.
Qed.
Theorem u_few_cells : forall q junk (iv : chunk_1d RA), periodic = false -> ncells < d -> c1_size RA iv = nbasis ->
  exists s, ub_construct RA q d periodic a b ncells = Ok s /\ uniform_bsplines_integrals RA q s junk iv = Undef.
Proof.
  intros q junk iv Hper Hfew Hsz. destruct (ub_construct_ok q a b ncells d periodic Hd Hnc Hbig Hab) as (s & E & Hs). exists s. split; [exact E|].
  pose proof Hs as (S1 & S2 & S3 & S4 & S5 & S6 & S7).
  assert (Hn : ub_ncells RA s = ncells) by (apply (us_ncells a b ncells d periodic Hd Hnc Hbig s Hs)).
  assert (S8 : ub_size RA s = ncells + d) by (unfold ub_size; rewrite S1, Hn; unfold u64_add; rewrite u64_small; lia).
  assert (S9 : ub_nbasis RA s = nbasis) by (unfold ub_nbasis, nbasis; rewrite S1, S2, Hn; unfold u64_add; rewrite u64_small; destruct periodic; lia).
  unfold uniform_bsplines_integrals. rewrite S1, S2, S8, S9, Hsz, Z.eqb_refl, Hper. cbn [orb]. unfold assert_. rewrite full_domain_ok by lia. cbn [rbind].
  unfold remove_both, front. cbn [dom_begin map fst snd]. rewrite i64_small by lia.
  rewrite elem_add_1 by lia. cbn [rbind]. rewrite extents_1' by lia. cbn [rbind]. rewrite vect_sub_1 by lia. cbn [rbind]. rewrite vect_sub_1 by lia. cbn [rbind]. rewrite mk_domain_1' by lia. cbn [rbind].
  unfold fill_domain, front_of, size_of. cbn [front dom_begin map fst snd one_elem rbind]. rewrite extents_1. cbn [rbind one_elem].
  replace (i64 (u64_sub (0 + d + (ncells + d - 0 - d - d)) (0 + d))) with (ncells - d) by (symmetry; unfold u64_sub, u64, i64; change two64 with (2 ^ 64); change two63 with (2 ^ 63); Z.div_mod_to_equations; lia).
  replace (ncells - d <? 0) with true by lia. reflexivity.
Qed.
End U.
