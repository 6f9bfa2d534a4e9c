(** The heat equation programs over the reals. *)
From Coq Require Import ZArith List Bool Reals Lra Lia Permutation.
From Verif Require Import Machine MachineProofs TypeSeqModel TaggedModel DomainModel DomainSpec DomainProofs ListAux DomainProofs2 SpanModel
  ReduceModel ArithModel UniformProofs ProgramModel ProgramProofs GridProofs LineProofs SamplingModel SamplingSpec SamplingProofs PointsProofs
  HeatModel HeatSpec HeatGrid HeatProofs.
Import ListNotations.
Open Scope Z_scope.
Local Arguments Z.pow : simpl never.

(** *** sums *)
Lemma in_indices n i : In i (indices n) <-> 0 <= i < n.
Proof. apply in_zrange. Qed.
Lemma total1_ext n f g : (forall i, 0 <= i < n -> f i = g i) -> total1 n f = total1 n g.
Proof. intros H. unfold total1. f_equal. apply map_ext_in. intros i Hi. apply H. now apply in_indices. Qed.
Lemma fold_plus l : forall (f : Z -> R) a, fold_left (fun acc i => (f i + acc)%R) l a = (fold_right Rplus 0 (map f l) + a)%R.
Proof. induction l as [|i l IH]; intros f a; cbn [fold_left fold_right map]; [lra|]. rewrite IH. lra. Qed.
Lemma grid_sum_total nx ny T : grid_sum RA nx ny T = total nx ny T.
Proof.
  unfold grid_sum, sum_over, total. cbn [nadd nofz RA num]. change (num RA) with R in *. rewrite fold_plus. unfold total1 at 1. rewrite Rplus_0_r. f_equal. apply map_ext. intros i.
  rewrite fold_plus. apply Rplus_0_r.
Qed.
Lemma sum_plus l (f g : Z -> R) : fold_right Rplus 0%R (map (fun i => f i + g i)%R l) = (fold_right Rplus 0 (map f l) + fold_right Rplus 0 (map g l))%R.
Proof. induction l as [|i l IH]; cbn [fold_right map]; [lra|]. rewrite IH. lra. Qed.
Lemma sum_mult l c (f : Z -> R) : fold_right Rplus 0%R (map (fun i => c * f i)%R l) = (c * fold_right Rplus 0 (map f l))%R.
Proof. induction l as [|i l IH]; cbn [fold_right map]; [lra|]. rewrite IH. lra. Qed.
Lemma total1_plus n f g : total1 n (fun i => f i + g i)%R = (total1 n f + total1 n g)%R. Proof. apply sum_plus. Qed.
Lemma total1_mult n c f : total1 n (fun i => c * f i)%R = (c * total1 n f)%R. Proof. apply sum_mult. Qed.
Lemma total1_swap n n' (F : Z -> Z -> R) : total1 n (fun i => total1 n' (fun j => F i j)) = total1 n' (fun j => total1 n (fun i => F i j)).
Proof.
  unfold total1. generalize (indices n) as l. induction l as [|i l IH]; cbn [fold_right map].
  - induction (indices n') as [|j l' IH']; cbn [fold_right map]; [auto|]. rewrite <- IH'. lra.
  - rewrite IH. rewrite <- sum_plus. reflexivity.
Qed.
Lemma sum_perm l l' : Permutation l l' -> fold_right Rplus 0%R l = fold_right Rplus 0%R l'.
Proof. induction 1; cbn [fold_right]; lra. Qed.
Lemma indices_nodup n : NoDup (indices n).
Proof. unfold indices. apply FinFun.Injective_map_NoDup; [|apply seq_NoDup]. intros a b E. lia. Qed.
Lemma total1_shift n f : 1 <= n -> total1 n (fun i => f ((i + 1) mod n)) = total1 n f.
Proof.
  intros Hn. unfold total1. rewrite <- (map_map (fun i => (i + 1) mod n) f). apply sum_perm, Permutation_map, NoDup_Permutation.
  - assert (G : forall l, NoDup l -> (forall i, In i l -> 0 <= i < n) -> NoDup (map (fun i => (i + 1) mod n) l)).
    { induction l as [|i l IH]; intros Hl Hr; cbn [map]; constructor.
      - inversion Hl as [|? ? H1 H2]; subst. intros H. apply in_map_iff in H as (k & E & Hk). apply H1.
        assert (A := Hr i (or_introl eq_refl)). assert (B := Hr k (or_intror Hk)). 
        assert (E' : k = i); [|now subst].
        assert (M : forall z, 0 <= z < n -> (z + 1) mod n = if z =? n - 1 then 0 else z + 1).
        { intros z Hz. destruct (z =? n - 1) eqn:C; [replace (z + 1) with n by lia; apply Z.mod_same; lia|apply Z.mod_small; lia]. }
        rewrite !M in E by auto. destruct (i =? n - 1) eqn:C1, (k =? n - 1) eqn:C2; lia.
      - apply IH; [now inversion Hl|]. intros k Hk. apply Hr. now right. }
    apply G; [apply indices_nodup|]. intros i Hi. now apply in_indices in Hi.
  - apply indices_nodup.
  - intros i. rewrite in_map_iff. split.
    + intros (k & <- & Hk). apply in_indices. apply Z.mod_pos_bound. lia.
    + intros Hi. apply in_indices in Hi. exists ((i - 1) mod n). split; [|apply in_indices, Z.mod_pos_bound; lia].
      rewrite Z.add_mod_idemp_l by lia. replace (i - 1 + 1) with i by lia. apply Z.mod_small; lia.
Qed.
Lemma total1_bound n f a b : 0 <= n -> (forall i, 0 <= i < n -> (a <= f i <= b)%R) -> (IZR n * a <= total1 n f <= IZR n * b)%R.
Proof.
  intros Hn H. unfold total1. assert (G : forall l, (forall i, In i l -> (a <= f i <= b)%R) -> (IZR (Z.of_nat (length l)) * a <= fold_right Rplus 0 (map f l) <= IZR (Z.of_nat (length l)) * b)%R).
  { induction l as [|i l IH]; intros Hl; cbn [length map fold_right]; [change (Z.of_nat 0) with 0; lra|]. rewrite Nat2Z.inj_succ, succ_IZR. assert (A := Hl i (or_introl eq_refl)). assert (B := IH (fun k Hk => Hl k (or_intror Hk))). lra. }
  assert (L : Z.of_nat (length (indices n)) = n) by (apply zrange_length; lia). assert (K := G (indices n)). rewrite L in K. apply K. intros i Hi. apply H. now apply in_indices.
Qed.

(** *** conservation *)
Lemma flux n (l r T : Z -> R) : 1 <= n -> (forall i, 0 <= i < n -> (0 < l i /\ 0 < r i)%R) -> (forall i, 0 <= i < n -> r i = l ((i + 1) mod n)) ->
  total1 n (fun i => (l i + r i) / 2 * second_difference (l i) (r i) (T ((i + 1) mod n)) (T i) (T ((i - 1) mod n)))%R = 0%R.
Proof.
  intros Hn Hp Hr. set (g := fun i => ((T i - T ((i - 1) mod n)) / l i)%R).
  rewrite (total1_ext n _ (fun i => g ((i + 1) mod n) + (-1) * g i)%R).
  - rewrite total1_plus, total1_mult, total1_shift by lia. lra.
  - intros i Hi. unfold g, second_difference. rewrite <- Hr by auto. replace (((i + 1) mod n - 1) mod n) with i.
    + destruct (Hp i Hi). field. repeat split; lra.
    + rewrite Zminus_mod_idemp_l. replace (i + 1 - 1) with i by lia. symmetry. apply Z.mod_small; lia.
Qed.
Lemma heat_conserved nx ny lx rx ly ry kx ky dt T T' : 1 <= nx -> 1 <= ny ->
  (forall i, 0 <= i < nx -> (0 < lx i /\ 0 < rx i)%R) -> (forall j, 0 <= j < ny -> (0 < ly j /\ 0 < ry j)%R) ->
  (forall i, 0 <= i < nx -> rx i = lx ((i + 1) mod nx)) -> (forall j, 0 <= j < ny -> ry j = ly ((j + 1) mod ny)) ->
  heat_step nx ny lx rx ly ry kx ky dt T T' -> heat nx ny lx rx ly ry T' = heat nx ny lx rx ly ry T.
Proof.
  intros Hx Hy Px Py Rx Ry HS. unfold heat, total.
  set (dx := fun i j => second_difference (lx i) (rx i) (T ((i + 1) mod nx) j) (T i j) (T ((i - 1) mod nx) j)).
  set (dy := fun i j => second_difference (ly j) (ry j) (T i ((j + 1) mod ny)) (T i j) (T i ((j - 1) mod ny))).
  set (wx := fun i => ((lx i + rx i) / 2)%R). set (wy := fun j => ((ly j + ry j) / 2)%R).
  transitivity (total1 nx (fun i => total1 ny (fun j => wx i * wy j * T i j) + (dt * kx) * total1 ny (fun j => wy j * (wx i * dx i j)) + (dt * ky * wx i) * total1 ny (fun j => wy j * dy i j)))%R.
  - apply total1_ext. intros i Hi. rewrite <- !total1_mult, <- !total1_plus. apply total1_ext. intros j Hj. rewrite (HS i j Hi Hj). fold (dx i j) (dy i j) (wx i) (wy j). ring.
  - rewrite (total1_ext nx _ (fun i => total1 ny (fun j => wx i * wy j * T i j) + (dt * kx) * total1 ny (fun j => wy j * (wx i * dx i j)))%R).
    + rewrite total1_plus, total1_mult. rewrite (total1_swap nx ny (fun i j => wy j * (wx i * dx i j))%R).
      rewrite (total1_ext ny (fun j => total1 nx (fun i => wy j * (wx i * dx i j)))%R (fun j => 0 * 1)%R).
      * rewrite (total1_mult ny 0 (fun _ => 1%R)). rewrite Rmult_0_l, Rmult_0_r, Rplus_0_r. reflexivity.
      * intros j Hj. rewrite total1_mult. unfold wx, dx. rewrite (flux nx lx rx (fun i => T i j)) by auto. lra.
    + intros i Hi. unfold wy at 3, dy. rewrite (flux ny ly ry (fun j => T i j)) by auto. lra.
Qed.
Lemma even_step nx ny dx dy kx ky dt T T' : 1 <= nx -> 1 <= ny -> (0 < dx)%R -> (0 < dy)%R ->
  heat_step nx ny (fun _ => dx) (fun _ => dx) (fun _ => dy) (fun _ => dy) kx ky dt T T' -> total nx ny T' = total nx ny T.
Proof.
  intros Hx Hy Px Py HS. assert (H := heat_conserved nx ny (fun _ => dx) (fun _ => dx) (fun _ => dy) (fun _ => dy) kx ky dt T T' Hx Hy ltac:(auto) ltac:(auto) ltac:(auto) ltac:(auto) HS).
  unfold heat in H. assert (E : forall U, total nx ny (fun i j => (dx + dx) / 2 * ((dy + dy) / 2) * U i j)%R = (dx * dy * total nx ny U)%R).
  { intros U. unfold total. rewrite <- total1_mult. apply total1_ext. intros i Hi. rewrite <- total1_mult. apply total1_ext. intros j Hj. field. }
  rewrite !E in H. apply (Rmult_eq_reg_l (dx * dy)); [exact H|]. apply Rgt_not_eq, Rmult_lt_0_compat; auto.
Qed.

(** *** the maximum principle *)
Lemma second_difference_bound l r p c m a b : (0 < l -> 0 < r -> a <= p <= b -> a <= m <= b ->
  2 / (l * r) * (a - c) <= second_difference l r p c m <= 2 / (l * r) * (b - c))%R.
Proof.
  intros Hl Hr Hp Hm. assert (E : second_difference l r p c m = (2 / (r * (l + r)) * (p - c) + 2 / (l * (l + r)) * (m - c))%R).
  { unfold second_difference. field. repeat split; lra. }
  assert (F : forall z, (2 / (l * r) * z = 2 / (r * (l + r)) * z + 2 / (l * (l + r)) * z)%R) by (intros z; field; repeat split; lra).
  rewrite E, !F. assert (A1 : (0 < 2 / (r * (l + r)))%R) by (apply Rdiv_lt_0_compat; [lra|apply Rmult_lt_0_compat; lra]).
  assert (A2 : (0 < 2 / (l * (l + r)))%R) by (apply Rdiv_lt_0_compat; [lra|apply Rmult_lt_0_compat; lra]). 
  split; apply Rplus_le_compat; apply Rmult_le_compat_l; lra.
Qed.
Lemma step_range nx ny lx rx ly ry kx ky dt mx my T T' a b : 1 <= nx -> 1 <= ny ->
  (forall i, 0 <= i < nx -> (0 < lx i /\ 0 < rx i /\ / (lx i * rx i) <= mx)%R) -> (forall j, 0 <= j < ny -> (0 < ly j /\ 0 < ry j /\ / (ly j * ry j) <= my)%R) ->
  (0 <= kx -> 0 <= ky -> 0 <= dt -> dt * (2 * (kx * mx + ky * my)) <= 1)%R ->
  (0 <= kx)%R -> (0 <= ky)%R -> (0 <= dt)%R ->
  heat_step nx ny lx rx ly ry kx ky dt T T' ->
  (forall i j, 0 <= i < nx -> 0 <= j < ny -> (a <= T i j <= b)%R) -> forall i j, 0 <= i < nx -> 0 <= j < ny -> (a <= T' i j <= b)%R.
Proof.
  intros Hx Hy Px Py Hdt Hkx Hky Hd HS HT i j Hi Hj. rewrite (HS i j Hi Hj). specialize (Hdt Hkx Hky Hd).
  destruct (Px i Hi) as (L1 & R1 & M1). destruct (Py j Hj) as (L2 & R2 & M2).
  assert (Mx : forall z, 0 <= z mod nx < nx) by (intros; apply Z.mod_pos_bound; lia). assert (My : forall z, 0 <= z mod ny < ny) by (intros; apply Z.mod_pos_bound; lia).
  assert (B1 := second_difference_bound (lx i) (rx i) _ (T i j) _ a b L1 R1 (HT _ j (Mx (i + 1)) Hj) (HT _ j (Mx (i - 1)) Hj)).
  assert (B2 := second_difference_bound (ly j) (ry j) _ (T i j) _ a b L2 R2 (HT i _ Hi (My (j + 1))) (HT i _ Hi (My (j - 1)))).
  set (D1 := second_difference (lx i) (rx i) _ _ _) in *. set (D2 := second_difference (ly j) (ry j) _ _ _) in *. assert (H := HT i j Hi Hj). set (c := T i j) in *. clearbody c D1 D2.
  unfold Rdiv in B1, B2. set (u := (/ (lx i * rx i))%R) in *. set (w := (/ (ly j * ry j))%R) in *.
  assert (U : (0 < u)%R) by (apply Rinv_0_lt_compat, Rmult_lt_0_compat; lra). assert (W : (0 < w)%R) by (apply Rinv_0_lt_compat, Rmult_lt_0_compat; lra).
  clearbody u w. assert (C : (dt * (2 * (kx * u + ky * w)) <= 1)%R).
  { apply Rle_trans with (dt * (2 * (kx * mx + ky * my)))%R; [|exact Hdt]. apply Rmult_le_compat_l; [lra|]. apply Rmult_le_compat_l; [lra|].
    apply Rplus_le_compat; apply Rmult_le_compat_l; lra. }
  assert (K1 : (kx * (2 * u * (a - c)) <= kx * D1 <= kx * (2 * u * (b - c)))%R) by (split; apply Rmult_le_compat_l; lra).
  assert (K2 : (ky * (2 * w * (a - c)) <= ky * D2 <= ky * (2 * w * (b - c)))%R) by (split; apply Rmult_le_compat_l; lra).
  assert (S1 : (dt * (kx * (2 * u * (a - c)) + ky * (2 * w * (a - c))) <= dt * (kx * D1 + ky * D2) <= dt * (kx * (2 * u * (b - c)) + ky * (2 * w * (b - c))))%R)
    by (split; apply Rmult_le_compat_l; lra).
  set (s := (dt * (2 * (kx * u + ky * w)))%R) in *.
  replace (dt * (kx * (2 * u * (a - c)) + ky * (2 * w * (a - c))))%R with (s * (a - c))%R in S1 by (unfold s; ring).
  replace (dt * (kx * (2 * u * (b - c)) + ky * (2 * w * (b - c))))%R with (s * (b - c))%R in S1 by (unfold s; ring).
  assert (S0 : (0 <= s)%R). { unfold s. apply Rmult_le_pos; [lra|]. apply Rmult_le_pos; [lra|]. apply Rplus_le_le_0_compat; apply Rmult_le_pos; lra. }
  clearbody s. clear -S1 S0 C H. nra.
Qed.

(** *** the time steps *)
Lemma time_ok ceil t0 t1 bound : rounds_up ceil -> (t0 < t1)%R -> (0 < bound)%R -> ((t1 - t0) / bound <= IZR (2 ^ 61))%R ->
  exists times N, time_steps RA ceil t0 t1 bound = Ok (times, [(ht, (0, N + 1))]) /\ fewest_steps t0 t1 bound N /\ N < 2 ^ 62 - 1 /\
    (forall k, 0 <= k <= N -> us_coordinate RA times k = (t0 + IZR k * (t1 - t0) / IZR N)%R) /\ us_step RA times = ((t1 - t0) / IZR N)%R.
Proof.
  intros Hc Ht Hb Hs. unfold time_steps, lit_fifth. cbn [RA nsub ndiv nadd nofz num]. change (num RA) with R in *.
  destruct (Hc ((t1 - t0) / bound)%R) as (N & EN & B1 & B2).
  assert (P : (0 < (t1 - t0) / bound)%R) by (apply Rdiv_lt_0_compat; lra).
  assert (N1 : 1 <= N). { assert (0 < N); [|lia]. apply lt_IZR. lra. }
  assert (N2 : N <= 2 ^ 61). { assert (N < 2 ^ 61 + 1); [|lia]. apply lt_IZR. rewrite plus_IZR. lra. }
  assert (Tr : R_trunc (IZR N + 1 / 5) = N).
  { assert (A := IZR_le 1 N N1). destruct (trunc_pos (IZR N + 1 / 5)) as [C1 C2]; [lra|]. 
    assert (D1 : N - 1 < R_trunc (IZR N + 1 / 5)) by (apply lt_IZR; rewrite minus_IZR; lra).
    assert (D2 : R_trunc (IZR N + 1 / 5) < N + 1) by (apply lt_IZR; rewrite plus_IZR; lra). lia. }
  rewrite EN. unfold to_ptrdiff. cbn [RA ntrunc]. rewrite Tr. replace (is_i64b N) with true by (symmetry; apply is_i64b_spec; unfold is_i64; change two63 with (2 ^ 63); lia). cbn [rbind].
  rewrite sadd_small by lia. cbn [rbind].
  destruct (us_init_ok ht t0 t1 (N + 1) Ht ltac:(lia)) as (times & E & Hcoord & Hst). replace (N + 1 - 1) with N in Hst by lia.
  exists times, N. split; [exact E|]. split.
  - split; [exact N1|]. rewrite minus_IZR. split.
    + apply (Rmult_lt_reg_r (/ bound)); [now apply Rinv_0_lt_compat|]. rewrite Rmult_assoc, Rinv_r, Rmult_1_r by lra. exact B1.
    + apply (Rmult_le_reg_r (/ bound)); [now apply Rinv_0_lt_compat|]. rewrite Rmult_assoc, Rinv_r, Rmult_1_r by lra. exact B2.
  - split; [lia|]. split; [|exact Hst]. intros k Hk. rewrite Hcoord by lia. unfold pt. replace (N + 1 - 1) with N by lia. unfold Rdiv. ring.
Qed.

(** *** the simulation *)
Lemma o_prints {S} (main : list (list nat) -> res (machine R * S)) l :
  outcome main (fun f => exists m', f = fun rest => (mk_machine m' rest, l)) -> prints main l.
Proof.
  intros (O1 & O2 & O3). split; [|split; [exact O3|]].
  - destruct O1 as (ss & f & (m' & ->) & E). exists ss. eexists. rewrite <- (app_nil_r ss). apply E.
  - intros ss m l' E. destruct (O2 ss (m, l') E) as (f & rest & (m' & ->) & E'). congruence.
Qed.
Section Simulate.
Variables (nx ny : Z) (gb : nat -> list Z) (hm : heat_memory) (ceil : R -> R) (t0 t1 bound : R) (period : Z)
  (cx cy : Z -> res R) (X Y lx rx ly ry : Z -> R) (kx ky : R)
  (inc_x inc_y : R -> Z -> res (R -> R -> R -> R)) (FX FY : R -> Z -> R -> R -> R -> R) (view : domain -> domain -> res (list slice)).
Hypothesis Hsz : heat_sizes nx ny.
Hypothesis Hgb : forall n, length (gb n) = n.
Hypothesis Hhm : heat_allocations nx ny hm.
Hypothesis Hceil : rounds_up ceil.
Hypothesis Ht : (t0 < t1)%R.
Hypothesis Hb : (0 < bound)%R.
Hypothesis Hst : ((t1 - t0) / bound <= IZR (2 ^ 61))%R.
Hypothesis Hper : 0 < period.
Hypothesis HX : forall i, 0 <= i < nx -> cx (1 + i) = Ok (X i).
Hypothesis HY : forall j, 0 <= j < ny -> cy (1 + j) = Ok (Y j).
Hypothesis HFX : forall dt i, 0 <= i < nx -> inc_x dt (1 + i) = Ok (FX dt i).
Hypothesis HFY : forall dt j, 0 <= j < ny -> inc_y dt (1 + j) = Ok (FY dt j).
Hypothesis HIX : forall dt i p c m, 0 <= i < nx -> FX dt i p c m = (dt * (kx * second_difference (lx i) (rx i) p c m))%R.
Hypothesis HIY : forall dt j p c m, 0 <= j < ny -> FY dt j p c m = (dt * (ky * second_difference (ly j) (ry j) p c m))%R.
Hypothesis Hview : view = view_at_once \/ view = view_in_turn.
Lemma run_ok m : exists N T, fewest_steps t0 t1 bound N /\ heat_history nx ny X Y lx rx ly ry kx ky ((t1 - t0) / IZR N) T /\
  prints (fun ss => heat_simulate RA ceil t0 t1 bound period (gdom hx nx) (gdom hy ny) cx cy inc_x inc_y view hm gb (mk_machine m ss)) (heat_lines nx ny t0 t1 period N T).
Proof.
  destruct Hsz as (S1 & S2 & S3). destruct (time_ok ceil t0 t1 bound Hceil Ht Hb Hst) as (times & N & E & HN & N2 & Hcoord & Hstep).
  set (T := evolution RA nx ny X Y (FX (us_step RA times)) (FY (us_step RA times))).
  exists N, T. split; [exact HN|]. split.
  - split.
    + intros i j Hi Hj. unfold T. cbn [evolution]. unfold disc. cbn [RA nmul ndiv nofz nadd nltb num]. unfold R_ltb.
      destruct (Rlt_dec (X i * X i + Y j * Y j) (1 / 4)); lra.
    + intros k i j Hi Hj. unfold T. cbn [evolution]. unfold step at 1. cbn [RA nadd num]. rewrite HIX, HIY by auto. rewrite Hstep. 
      set (U := evolution RA nx ny X Y _ _ k). change (num RA) with R in *. ring.
  - apply o_prints. destruct HN as [N1 HN]. destruct Hhm as (A1 & A2 & A3).
    assert (E' : forall p q, (p + (nx + 2) * (ny + 2) <= q \/ q + (nx + 2) * (ny + 2) <= p) -> apart nx ny p q).
    { intros p q H. unfold apart. replace (1 + nx + 1) with (nx + 2) by lia. replace (1 + ny + 1) with (ny + 2) by lia. exact H. }
    eapply o_weaken; [|apply (simulate_ok RA nx ny S1 S2 S3 gb Hgb ceil t0 t1 bound period cx cy X Y inc_x inc_y FX FY view hm HX HY HFX HFY) with (times := times) (N := N); auto; try lia].
    + intros f (m' & ->). exists m'. apply FunctionalExtensionality.functional_extensionality. intros rest. f_equal. unfold heat_lines. apply map_ext_in.
      intros k Hk. unfold shown_steps in Hk. apply filter_In in Hk as [Hk _]. apply in_seq in Hk. unfold heat_line, line_at, line_of. fold T. rewrite Hcoord by lia.
      rewrite grid_sum_total. reflexivity.
    + assert (Hs := heat_sized nx ny S1 S2 S3). destruct Hview as [-> | ->].
      * eexists. split; [unfold view_at_once; rewrite merge_xy by lia; reflexivity|]. intros p. apply view_once; auto; lia.
      * eexists. split; [reflexivity|]. intros p. apply view_turn; auto; lia.
Qed.
End Simulate.

(** *** the steps and the temperatures are determined *)
Lemma fewest_unique t0 t1 bound N N' : (0 < bound)%R -> fewest_steps t0 t1 bound N -> fewest_steps t0 t1 bound N' -> N = N'.
Proof.
  assert (G : forall M M', (0 < bound)%R -> fewest_steps t0 t1 bound M -> fewest_steps t0 t1 bound M' -> M <= M').
  { intros M M' Hb (H1 & H2 & H3) (H1' & H2' & H3'). destruct (Z_le_gt_dec M M') as [|Hgt]; auto. exfalso. assert (A := IZR_le M' (M - 1) ltac:(lia)).
    assert (IZR M' * bound <= IZR (M - 1) * bound)%R by (apply Rmult_le_compat_r; lra). lra. }
  intros Hb H H'. assert (A := G N N' Hb H H'). assert (B := G N' N Hb H' H). lia.
Qed.
Lemma history_unique nx ny X Y lx rx ly ry kx ky dt T T' : 1 <= nx -> 1 <= ny -> heat_history nx ny X Y lx rx ly ry kx ky dt T -> heat_history nx ny X Y lx rx ly ry kx ky dt T' ->
  forall k i j, 0 <= i < nx -> 0 <= j < ny -> T k i j = T' k i j.
Proof.
  intros Hx Hy (I1 & S1) (I2 & S2). induction k as [|k IH]; intros i j Hi Hj.
  - now rewrite I1, I2.
  - assert (Mx : forall z, 0 <= z mod nx < nx) by (intros; apply Z.mod_pos_bound; lia). assert (My : forall z, 0 <= z mod ny < ny) by (intros; apply Z.mod_pos_bound; lia).
    rewrite (S1 k i j Hi Hj), (S2 k i j Hi Hj). rewrite !IH by auto. reflexivity.
Qed.
Lemma line_of_ext nx ny t T T' : 1 <= nx -> 1 <= ny -> (forall i j, 0 <= i < nx -> 0 <= j < ny -> T i j = T' i j) -> line_of nx ny t T = line_of nx ny t T'.
Proof.
  intros Hx Hy H. unfold line_of. assert (E : total nx ny T = total nx ny T').
  { unfold total. apply total1_ext. intros i Hi. apply total1_ext. intros j Hj. now apply H. }
  rewrite E. f_equal. apply map_ext_in. intros i Hi. apply in_indices in Hi. apply H; auto. split; [apply Z.div_pos; lia|apply Z.div_lt_upper_bound; lia].
Qed.
Lemma heat_lines_ext nx ny t0 t1 period N T T' : 1 <= nx -> 1 <= ny -> (forall k i j, 0 <= i < nx -> 0 <= j < ny -> T k i j = T' k i j) ->
  heat_lines nx ny t0 t1 period N T = heat_lines nx ny t0 t1 period N T'.
Proof. intros Hx Hy H. unfold heat_lines. apply map_ext. intros k. apply line_of_ext; auto. Qed.

(** *** the programs *)
Lemma reduce1 q (f : tagged -> res R) (op : R -> R -> R) (z : R) (v : Z -> R) x0 x1 :
  0 <= x0 <= x1 -> x1 < 2 ^ 63 -> (forall i, x0 <= i < x1 -> f [(q, i)] = Ok (v i)) ->
  host_transform_reduce [(q, (x0, x1))] (Ok z) (fun a b => rbind a (fun x => rbind b (fun y => Ok (op x y)))) f =
  Ok (Ok (fold_left (fun acc i => op (v (x0 + i)) acc) (zrange (x1 - x0)) z)).
Proof.
  intros Hx Hx' Hf. unfold host_transform_reduce. rewrite extents_1' by lia. cbn [rbind values map fst snd reduce_serial app].
  assert (At : forall i, 0 <= i < x1 - x0 -> dom_at [(q, (x0, x1))] (combine (ddims [(q, (x0, x1))]) [i]) = Ok [(q, x0 + i)]).
  { intros i Hi. unfold dom_at. cbn [dom_begin map ddims combine fst snd]. apply elem_add_1. lia. }
  assert (All : forall l acc, (forall i, In i l -> 0 <= i < x1 - x0) ->
    fold_left (fun result ii => rbind result (fun result' => rbind (rbind (dom_at [(q, (x0, x1))] (combine (ddims [(q, (x0, x1))]) [ii])) (fun e => Ok (f e)))
      (fun x => Ok (rbind x (fun x0 => rbind result' (fun y => Ok (op x0 y))))))) l (Ok (Ok acc)) = Ok (Ok (fold_left (fun acc i => op (v (x0 + i)) acc) l acc))).
  { induction l as [|i l IH]; intros acc Hl; cbn [fold_left]; auto. assert (Hi := Hl i (or_introl eq_refl)). cbn [rbind]. rewrite At by auto. cbn [rbind].
    rewrite Hf by lia. cbn [rbind]. apply IH. intros k Hk. apply Hl. now right. }
  apply All. intros i Hi. now apply in_zrange in Hi.
Qed.
Lemma inverse_max_ok q n left right l r M : 1 <= n < 2 ^ 62 -> (forall i, 0 <= i < n -> left (1 + i) = Ok (l i) /\ right (1 + i) = Ok (r i)) ->
  (forall i, 0 <= i < n -> (0 < l i /\ 0 < r i)%R) -> largest n (fun i => 1 / (l i * r i))%R M ->
  inverse_max RA [(q, (1, 1 + n))] left right = Ok M.
Proof.
  intros Hn Hd Hp ((i0 & Hi0 & E0) & HM). unfold inverse_max.
  rewrite (reduce1 q _ (fun x y => if nltb RA y x then x else y) (nofz RA 0) (fun i => (1 / (l (i - 1)%Z * r (i - 1)%Z))%R)); try lia.
  - cbn [rbind]. f_equal. replace (1 + n - 1) with n by lia. cbn [nltb nofz RA num]. change (num RA) with R in *.
    assert (P : forall i, 0 <= i < n -> (0 < 1 / (l i * r i))%R). { intros i Hi. destruct (Hp i Hi). apply Rdiv_lt_0_compat; [lra|now apply Rmult_lt_0_compat]. }
    assert (G : forall ls acc, (forall i, In i ls -> 0 <= i < n) -> (acc <= M)%R -> (acc = M \/ In i0 ls) ->
      fold_left (fun acc i => if R_ltb acc (1 / (l (1 + i - 1)%Z * r (1 + i - 1)%Z)) then (1 / (l (1 + i - 1)%Z * r (1 + i - 1)%Z))%R else acc) ls acc = M).
    { induction ls as [|i ls IH]; intros acc Hl Ha Ho; cbn [fold_left].
      - destruct Ho as [|[]]; auto.
      - replace (1 + i - 1) with i by lia. assert (Hi := Hl i (or_introl eq_refl)). assert (Bi := HM i Hi). cbn beta in Bi. unfold R_ltb at 2. destruct (Rlt_dec acc (1 / (l i * r i))).
        + apply IH; [intros k Hk; apply Hl; now right|exact Bi|]. destruct Ho as [->|[->|Ho]]; [lra|now left|now right].
        + apply IH; [intros k Hk; apply Hl; now right|exact Ha|]. destruct Ho as [->|[->|Ho]]; [now left| |now right]. left. lra. }
    apply G; [intros i Hi; now apply in_zrange in Hi| |right; now apply in_zrange]. assert (A := P i0 Hi0). lra.
  - intros i Hi. cbn [one_elem rbind]. destruct (Hd (i - 1) ltac:(lia)) as [E1 E2]. replace (1 + (i - 1)) with i in * by lia. rewrite E1, E2. reflexivity.
Qed.
Lemma spacing_pos a b n : (a < b)%R -> 2 <= n -> (0 < spacing a b n)%R.
Proof. intros H Hn. unfold spacing. apply Rdiv_lt_0_compat; [lra|]. apply IZR_lt. lia. Qed.
Lemma bound_pos kx mx ky my : (0 < kx)%R -> (0 < mx)%R -> (0 < ky)%R -> (0 < my)%R -> (0 < step_bound kx mx ky my)%R.
Proof. intros. unfold step_bound. apply Rdiv_lt_0_compat; [lra|]. apply Rmult_lt_0_compat; [lra|]. apply Rplus_lt_0_compat; now apply Rmult_lt_0_compat. Qed.
Lemma half_bound kx mx ky my : (0 < kx)%R -> (0 < mx)%R -> (0 < ky)%R -> (0 < my)%R -> (1 / 2 / (kx * mx + ky * my))%R = step_bound kx mx ky my.
Proof. intros. unfold step_bound. field. apply Rgt_not_eq, Rplus_lt_0_compat; now apply Rmult_lt_0_compat. Qed.
Lemma inv2_pos l r : (0 < l)%R -> (0 < r)%R -> (0 < 1 / (l * r))%R.
Proof. intros. apply Rdiv_lt_0_compat; [lra|]. now apply Rmult_lt_0_compat. Qed.
Lemma distances_ok k dt l r p c m : (0 < l)%R -> (0 < r)%R -> increment_distances RA k dt l r p c m = (dt * (k * second_difference l r p c m))%R.
Proof.
  intros Hl Hr. unfold increment_distances, lit_half, lit_two, second_difference. cbn [RA nadd nmul nsub ndiv nofz num]. change (num RA) with R in *. field. repeat split; lra.
Qed.
Section Uniform.
Variables (nx ny : Z) (gb : nat -> list Z) (hm : heat_memory) (ceil : R -> R) (x0 x1 kx y0 y1 ky t0 t1 : R) (period : Z).
Hypothesis Hsz : heat_sizes nx ny.
Hypothesis Hgb : forall n, length (gb n) = n.
Hypothesis Hhm : heat_allocations nx ny hm.
Hypothesis Hceil : rounds_up ceil.
Hypothesis Hx : (x0 < x1)%R.
Hypothesis Hy : (y0 < y1)%R.
Hypothesis Hkx : (0 < kx)%R.
Hypothesis Hky : (0 < ky)%R.
Hypothesis Ht : (t0 < t1)%R.
Notation dx := (spacing x0 x1 nx).
Notation dy := (spacing y0 y1 ny).
Notation bound := (step_bound kx (1 / (dx * dx)) ky (1 / (dy * dy))).
Hypothesis Hst : ((t1 - t0) / bound <= IZR (2 ^ 61))%R.
Hypothesis Hper : 0 < period.
Notation history := (heat_history nx ny (evenly x0 x1 nx) (evenly y0 y1 ny) (fun _ => dx) (fun _ => dx) (fun _ => dy) (fun _ => dy) kx ky).
Lemma uniform_run m : exists N T, fewest_steps t0 t1 bound N /\ history ((t1 - t0) / IZR N)%R T /\
  prints (fun ss => uniform_heat_main RA ceil x0 x1 nx kx y0 y1 ny ky t0 t1 period hm gb (mk_machine m ss)) (heat_lines nx ny t0 t1 period N T).
Proof.
  destruct Hsz as (S1 & S2 & S3). unfold uniform_heat_main, us_init_ghosted_sym.
  destruct (us_ghosted_ok hx x0 x1 nx Hx ltac:(lia) 1 1 ltac:(lia) ltac:(lia) ltac:(lia)) as (sx & -> & Cx & Tx).
  destruct (us_ghosted_ok hy y0 y1 ny Hy ltac:(lia) 1 1 ltac:(lia) ltac:(lia) ltac:(lia)) as (sy & -> & Cy & Ty). cbn [rbind fst snd].
  rewrite Tx, Ty. fold dx dy. assert (Px := spacing_pos x0 x1 nx Hx ltac:(lia)). assert (Py := spacing_pos y0 y1 ny Hy ltac:(lia)).
  assert (Qx := inv2_pos dx dx Px Px). assert (Qy := inv2_pos dy dy Py Py).
  unfold lit_half. cbn [RA nadd nmul nsub ndiv nofz num]. change (num RA) with R in *. rewrite half_bound by auto.
  apply (run_ok nx ny gb hm ceil t0 t1 bound period (us_coord RA sx) (us_coord RA sy) (evenly x0 x1 nx) (evenly y0 y1 ny) (fun _ => dx) (fun _ => dx) (fun _ => dy) (fun _ => dy) kx ky
    (fun step _ => Ok (increment_uniform RA kx step (1 / (dx * dx))%R)) (fun step _ => Ok (increment_uniform RA ky step (1 / (dy * dy))%R))
    (fun step _ => increment_uniform RA kx step (1 / (dx * dx))%R) (fun step _ => increment_uniform RA ky step (1 / (dy * dy))%R)); auto.
  - now apply bound_pos.
  - intros i Hi. unfold us_coord. rewrite Cx by lia. unfold pt, evenly, spacing. do 2 f_equal. f_equal. f_equal. lia.
  - intros i Hi. unfold us_coord. rewrite Cy by lia. unfold pt, evenly, spacing. do 2 f_equal. f_equal. f_equal. lia.
  - intros dt i p c mm Hi. unfold increment_uniform, lit_two, second_difference. cbn [RA nadd nmul nsub ndiv nofz num]. change (num RA) with R in *. field. lra.
  - intros dt i p c mm Hi. unfold increment_uniform, lit_two, second_difference. cbn [RA nadd nmul nsub ndiv nofz num]. change (num RA) with R in *. field. lra.
Qed.
Lemma heat_run m : exists N T, fewest_steps t0 t1 bound N /\ history ((t1 - t0) / IZR N)%R T /\
  prints (fun ss => heat_main RA ceil x0 x1 nx kx y0 y1 ny ky t0 t1 period hm gb (mk_machine m ss)) (heat_lines nx ny t0 t1 period N T).
Proof.
  destruct Hsz as (S1 & S2 & S3). unfold heat_main, us_init_ghosted_sym.
  destruct (us_ghosted_ok hx x0 x1 nx Hx ltac:(lia) 1 1 ltac:(lia) ltac:(lia) ltac:(lia)) as (sx & -> & Cx & Tx).
  destruct (us_ghosted_ok hy y0 y1 ny Hy ltac:(lia) 1 1 ltac:(lia) ltac:(lia) ltac:(lia)) as (sy & -> & Cy & Ty). cbn [rbind fst snd].
  unfold heat_with_distances, us_distance_at_left, us_distance_at_right. rewrite Tx, Ty. fold dx dy. assert (Px := spacing_pos x0 x1 nx Hx ltac:(lia)). assert (Py := spacing_pos y0 y1 ny Hy ltac:(lia)).
  assert (Qx := inv2_pos dx dx Px Px). assert (Qy := inv2_pos dy dy Py Py). cbn [g_main].
  rewrite (inverse_max_ok hx nx _ _ (fun _ => dx) (fun _ => dx) (1 / (dx * dx))%R); [|lia|auto|auto|split; [exists 0; split; [lia|reflexivity]|intros; lra]]. cbn [rbind].
  rewrite (inverse_max_ok hy ny _ _ (fun _ => dy) (fun _ => dy) (1 / (dy * dy))%R); [|lia|auto|auto|split; [exists 0; split; [lia|reflexivity]|intros; lra]]. cbn [rbind].
  unfold lit_half. cbn [RA nadd nmul nsub ndiv nofz num]. change (num RA) with R in *. rewrite half_bound by auto.
  apply (run_ok nx ny gb hm ceil t0 t1 bound period (us_coord RA sx) (us_coord RA sy) (evenly x0 x1 nx) (evenly y0 y1 ny) (fun _ => dx) (fun _ => dx) (fun _ => dy) (fun _ => dy) kx ky
    _ _ (fun step _ => increment_distances RA kx step dx dx) (fun step _ => increment_distances RA ky step dy dy)); auto.
  - now apply bound_pos.
  - intros i Hi. unfold us_coord. rewrite Cx by lia. unfold pt, evenly, spacing. do 2 f_equal. f_equal. f_equal. lia.
  - intros i Hi. unfold us_coord. rewrite Cy by lia. unfold pt, evenly, spacing. do 2 f_equal. f_equal. f_equal. lia.
  - intros. now apply distances_ok.
  - intros. now apply distances_ok.
Qed.
Theorem even_run m : exists N T, fewest_steps t0 t1 bound N /\ history ((t1 - t0) / IZR N)%R T /\
  prints (fun ss => uniform_heat_main RA ceil x0 x1 nx kx y0 y1 ny ky t0 t1 period hm gb (mk_machine m ss)) (heat_lines nx ny t0 t1 period N T) /\
  prints (fun ss => heat_main RA ceil x0 x1 nx kx y0 y1 ny ky t0 t1 period hm gb (mk_machine m ss)) (heat_lines nx ny t0 t1 period N T).
Proof.
  destruct (uniform_run m) as (N & T & H1 & H2 & H3). destruct (heat_run m) as (N' & T' & H1' & H2' & H3').
  exists N, T. split; [exact H1|]. split; [exact H2|]. split; [exact H3|]. destruct Hsz as (S1 & S2 & S3).
  assert (Px := spacing_pos x0 x1 nx Hx ltac:(lia)). assert (Py := spacing_pos y0 y1 ny Hy ltac:(lia)).
  assert (N = N') by (apply (fewest_unique t0 t1 bound); auto; apply bound_pos; auto using inv2_pos). subst N'.
  rewrite (heat_lines_ext nx ny t0 t1 period N T T'); auto; try lia. intros k i j Hi Hj. eapply history_unique; [| |exact H2|exact H2'|exact Hi|exact Hj]; lia.
Qed.
End Uniform.
