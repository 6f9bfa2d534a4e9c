From Coq Require Import Lra Sorted.
From Verif Require Import ArithModel SamplingModel SamplingSpec MachineProofs TypeSeqModel TypeSeqProofs TaggedProofs DomainProofs DomainProofs2.
Local Open Scope Z_scope.

(** ** Domains of one dimension *)
Lemma ts_rank_hd q : ts_rank q [q] = Some O.
Proof. cbn. now rewrite Nat.eqb_refl. Qed.
Lemma contains_hd q : type_seq_contains_v [q] [q] = true.
Proof. apply contains_spec, incl_refl. Qed.
Lemma same_hd q : type_seq_same_v [q] [q] = true.
Proof. unfold type_seq_same_v. rewrite contains_hd. reflexivity. Qed.
Lemma get_hd q x : get q [(q, x)] = Ok x.
Proof. unfold get. cbn [dims map fst]. now rewrite ts_rank_hd. Qed.
Lemma op_assign_1 op q a x : op_assign op [(q, a)] [(q, x)] = rbind (op a x) (fun y => Ok [(q, y)]).
Proof.
  unfold op_assign. cbn [dims map fst]. rewrite contains_hd. cbn [fold_assign dims map fst]. rewrite ts_rank_hd, get_hd.
  cbn [rbind upd_nth]. destruct (op a x); reflexivity.
Qed.
Lemma mk_domain_1 q b n : mk_domain [(q, b)] [(q, n)] = Ok [(q, (b, u64_add b n))].
Proof. unfold mk_domain, elem_add. rewrite op_assign_1. reflexivity. Qed.
Lemma extents_1 q b f : extents [(q, (b, f))] = Ok [(q, i64 (u64_sub f b))].
Proof.
  unfold extents, elem_diff. cbn [dom_end dom_begin map fst snd dims]. rewrite same_hd. cbn [diff_fold]. rewrite !get_hd. reflexivity.
Qed.
Lemma u64_small z : 0 <= z < 2 ^ 64 -> u64 z = z.
Proof. intros. unfold u64. change two64 with (2 ^ 64). now apply Z.mod_small. Qed.
Lemma i64_small z : - 2 ^ 63 <= z < 2 ^ 63 -> i64 z = z.
Proof. intros. unfold i64. change two64 with (2 ^ 64). change two63 with (2 ^ 63). rewrite Z.mod_small; lia. Qed.
Lemma ssub_small a b : - 2 ^ 63 <= a - b < 2 ^ 63 -> ssub a b = Ok (a - b).
Proof. intros H. unfold ssub, of_i64, i64_sub, i64_ret, is_i64b. change two63 with (2 ^ 63). destruct (_ && _) eqn:E; auto. lia. Qed.
Lemma sadd_small a b : - 2 ^ 63 <= a + b < 2 ^ 63 -> sadd a b = Ok (a + b).
Proof. intros H. unfold sadd, of_i64, i64_add, i64_ret, is_i64b. change two63 with (2 ^ 63). destruct (_ && _) eqn:E; auto. lia. Qed.

Lemma elem_add_1 q a x : 0 <= a + x < 2 ^ 64 -> elem_add [(q, a)] [(q, x)] = Ok [(q, a + x)].
Proof. intros. unfold elem_add. rewrite op_assign_1. unfold uadd, u64_add. cbn [rbind]. now rewrite u64_small. Qed.
Lemma vect_sub_1 q a x : - 2 ^ 63 <= a - x < 2 ^ 63 -> vect_sub [(q, a)] [(q, x)] = Ok [(q, a - x)].
Proof. intros. unfold vect_sub. cbn [length Nat.leb]. rewrite op_assign_1, ssub_small by lia. reflexivity. Qed.
Lemma mk_domain_1' q b n : 0 <= b + n < 2 ^ 64 -> mk_domain [(q, b)] [(q, n)] = Ok [(q, (b, b + n))].
Proof. intros. rewrite mk_domain_1. unfold u64_add. now rewrite u64_small. Qed.
Lemma extents_1' q b f : 0 <= f - b < 2 ^ 63 -> extents [(q, (b, f))] = Ok [(q, f - b)].
Proof. intros. rewrite extents_1. unfold u64_sub. rewrite u64_small, i64_small by lia. reflexivity. Qed.
Lemma ghost_domains_ok q n p r : 0 <= n -> 0 <= p -> 0 <= r -> n + p + r < 2 ^ 63 ->
  ghost_domains q 0 n p r = Ok (mk_ghosted [(q, (p, p + n))] [(q, (0, p + n + r))] [(q, (0, p))] [(q, (p + n, p + n + r))]).
Proof.
  intros Hn Hp Hr Hs. unfold ghost_domains. rewrite sadd_small by lia. cbn [rbind]. rewrite sadd_small by lia. cbn [rbind].
  rewrite mk_domain_1' by lia. cbn [rbind]. unfold take_first, remove_both, take_last, front. cbn [dom_begin map fst snd].
  rewrite mk_domain_1' by lia. rewrite extents_1' by lia. cbn [rbind]. rewrite elem_add_1 by lia. cbn [rbind].
  rewrite vect_sub_1 by lia. cbn [rbind]. rewrite vect_sub_1 by lia. cbn [rbind]. rewrite mk_domain_1' by lia. cbn [rbind].
  rewrite vect_sub_1 by lia. cbn [rbind]. rewrite elem_add_1 by lia. cbn [rbind]. rewrite mk_domain_1' by lia. cbn [rbind].
  apply f_equal. f_equal; apply (f_equal (fun z => [(q, z)])); apply f_equal2; lia.
Qed.
Lemma back_1 q b f : b < f -> 0 <= b -> f < 2 ^ 64 -> back [(q, (b, f))] = [(q, f - 1)].
Proof. intros. unfold back. cbn [map fst snd]. unfold u64_sub. now rewrite u64_small by lia. Qed.

(** ** Reals *)
Ltac to_R := match goal with |- @eq _ ?x ?y => change (@eq R x y) end.
Lemma R_ltb_true x y : (x < y)%R -> R_ltb x y = true.
Proof. intros. unfold R_ltb. destruct (Rlt_dec x y); auto; exfalso; lra. Qed.
Lemma R_ltb_false x y : (y <= x)%R -> R_ltb x y = false.
Proof. intros. unfold R_ltb. destruct (Rlt_dec x y); auto; exfalso; lra. Qed.
Lemma R_leb_true x y : (x <= y)%R -> R_leb x y = true.
Proof. intros. unfold R_leb. destruct (Rle_dec x y); auto; exfalso; lra. Qed.
Lemma R_leb_false x y : (y < x)%R -> R_leb x y = false.
Proof. intros. unfold R_leb. destruct (Rle_dec x y); auto; exfalso; lra. Qed.
Lemma step_pos a b n : (a < b)%R -> 2 <= n -> (0 < (b - a) / IZR (n - 1))%R.
Proof. intros. apply Rdiv_lt_0_compat; [lra|]. apply IZR_lt. lia. Qed.
Lemma elem_minus_0 k : 0 <= k < 2 ^ 63 -> elem_minus k 0 = k.
Proof. intros. unfold elem_minus, u64_sub. rewrite Z.sub_0_r, u64_small, i64_small; lia. Qed.

(** ** Uniform *)
Section Uniform.
Variables (q : tag) (a b : R) (n : Z).
Hypotheses (Hab : (a < b)%R) (Hn : 2 <= n < 2 ^ 63).
Definition pt (k : Z) : R := (a + IZR k * ((b - a) / IZR (n - 1)))%R.
Lemma pt_first : pt 0 = a.
Proof. unfold pt. lra. Qed.
Lemma pt_last : pt (n - 1) = b.
Proof. unfold pt. field. apply not_0_IZR. lia. Qed.
Lemma us_init_ok : exists s, us_init RA q a b n = Ok (s, [(q, (0, n))]) /\
  (forall k, 0 <= k < 2 ^ 63 -> us_coordinate RA s k = pt k) /\ us_step RA s = ((b - a) / IZR (n - 1))%R.
Proof.
  unfold us_init. cbn [nltb RA]. rewrite R_ltb_true by exact Hab. replace (1 <? n) with true by lia.
  rewrite ssub_small by lia. cbn [rbind]. unfold us_construct. cbn [nltb nofz nsub ndiv num RA].
  rewrite R_ltb_true by (apply step_pos; [exact Hab | lia]). cbn [rbind us_front]. unfold reference_element. rewrite mk_domain_1. cbn [rbind].
  unfold u64_add. rewrite Z.add_0_l, u64_small by lia. eexists. split; [reflexivity|]. split; [|reflexivity].
  intros k Hk. unfold us_coordinate. cbn. rewrite elem_minus_0 by lia. reflexivity.
Qed.
Lemma us_ghosted_ok p r : 0 <= p -> 0 <= r -> n + p + r < 2 ^ 63 ->
  exists s, us_init_ghosted RA q a b n p r = Ok (s, mk_ghosted [(q, (p, p + n))] [(q, (0, p + n + r))] [(q, (0, p))] [(q, (p + n, p + n + r))]) /\
  (forall k, 0 <= k < 2 ^ 63 -> us_coordinate RA s k = pt (k - p)) /\ us_step RA s = ((b - a) / IZR (n - 1))%R.
Proof.
  intros Hp Hr Hs. unfold us_init_ghosted. cbn [nltb RA]. rewrite R_ltb_true by exact Hab. replace (1 <? n) with true by lia.
  rewrite ssub_small by lia. cbn [rbind]. unfold us_construct. cbn [nltb nofz nsub ndiv num RA].
  rewrite R_ltb_true by (apply step_pos; [exact Hab | lia]). cbn [rbind us_front]. unfold reference_element. rewrite ghost_domains_ok by lia. cbn [rbind].
  eexists. split; [reflexivity|]. split; [|reflexivity].
  intros k Hk. unfold us_coordinate, pt. cbn. rewrite elem_minus_0 by lia. rewrite (minus_IZR k p). cbn. ring.
Qed.
End Uniform.

Theorem us_init_full : forall q a b n, (a < b)%R -> 2 <= n < 2 ^ 63 ->
  exists s, us_init RA q a b n = Ok (s, [(q, (0, n))]) /\
    (forall k, 0 <= k < n -> us_coordinate RA s k = (a + IZR k * (b - a) / IZR (n - 1))%R) /\
    us_coordinate RA s 0 = a /\ us_coordinate RA s (n - 1) = b /\
    (forall i j, 0 <= i < j -> j < n -> (us_coordinate RA s i < us_coordinate RA s j)%R) /\
    (forall i, 0 <= i -> i + 1 < n -> us_distance_at_right RA s i = (us_coordinate RA s (i + 1) - us_coordinate RA s i)%R /\
       us_distance_at_left RA s (i + 1) = (us_coordinate RA s (i + 1) - us_coordinate RA s i)%R) /\
    rmin RA (us_coord RA s) [(q, (0, n))] = Ok a /\ rmax RA (us_coord RA s) [(q, (0, n))] = Ok b /\
    rlength RA (us_coord RA s) [(q, (0, n))] = Ok (b - a)%R.
Proof.
  intros q a b n Hab Hn. destruct (us_init_ok q a b n Hab Hn) as (s & E & Hc & Hs). exists s.
  assert (H0 : us_coordinate RA s 0 = a) by (rewrite Hc by lia; apply pt_first).
  assert (H1 : us_coordinate RA s (n - 1) = b) by (rewrite Hc by lia; apply pt_last; auto).
  pose proof (step_pos a b n Hab ltac:(lia)) as Hst.
  assert (Hmin : rmin RA (us_coord RA s) [(q, (0, n))] = Ok a) by (unfold rmin; cbn; unfold us_coord; now rewrite H0).
  assert (Hmax : rmax RA (us_coord RA s) [(q, (0, n))] = Ok b) by (unfold rmax; rewrite back_1 by lia; cbn [one_elem rbind]; unfold us_coord; now rewrite H1).
  split; [exact E|]. split. { intros k Hk. rewrite Hc by lia. unfold pt. unfold Rdiv. to_R. ring. }
  split; [exact H0|]. split; [exact H1|]. split.
  { intros i j Hi Hj. rewrite !Hc by lia. unfold pt. assert (IZR i < IZR j)%R by (apply IZR_lt; lia). nra. }
  split.
  { intros i Hi Hi'. unfold us_distance_at_right, us_distance_at_left. rewrite !Hc, Hs by lia. unfold pt. rewrite plus_IZR. split; to_R; ring. }
  split; [exact Hmin|]. split; [exact Hmax|]. unfold rlength. rewrite Hmin, Hmax. reflexivity.
Qed.
Theorem us_ghosted_full : forall q a b n p r, (a < b)%R -> 2 <= n -> 0 <= p -> 0 <= r -> n + p + r < 2 ^ 63 ->
  exists s g, us_init_ghosted RA q a b n p r = Ok (s, g) /\
    g_pre g = [(q, (0, p))] /\ g_main g = [(q, (p, p + n))] /\ g_post g = [(q, (p + n, p + n + r))] /\ g_all g = [(q, (0, p + n + r))] /\
    (forall k, 0 <= k < p + n + r -> us_coordinate RA s k = (a + IZR (k - p) * (b - a) / IZR (n - 1))%R) /\
    rmin RA (us_coord RA s) (g_main g) = Ok a /\ rmax RA (us_coord RA s) (g_main g) = Ok b.
Proof.
  intros q a b n p r Hab Hn Hp Hr Hs. destruct (us_ghosted_ok q a b n Hab ltac:(lia) p r Hp Hr Hs) as (s & E & Hc & Hst).
  eexists s, _. split; [exact E|]. cbn [g_pre g_main g_post g_all]. do 4 (split; [reflexivity|]). split; [|split].
  - intros k Hk. rewrite Hc by lia. unfold pt, Rdiv. to_R. ring.
  - unfold rmin. cbn. unfold us_coord. rewrite Hc by lia. rewrite Z.sub_diag. now rewrite pt_first.
  - unfold rmax. rewrite back_1 by lia. cbn [one_elem rbind]. unfold us_coord. rewrite Hc by lia.
    replace (p + n - 1 - p) with (n - 1) by lia. now rewrite pt_last by (auto; lia).
Qed.

(** ** Periodic *)
Lemma i32_small z : - 2 ^ 31 <= z < 2 ^ 31 -> i32 z = z.
Proof. intros. unfold i32. rewrite Z.mod_small; lia. Qed.
Lemma ps_coordinate_eq s k : ps_front RA s = 0 -> 0 < ps_n_period RA s <= 2 ^ 31 -> 0 <= k -> k + ps_n_period RA s / 2 < 2 ^ 63 ->
  ps_coordinate RA s k = Ok (ps_origin RA s + IZR ((k + ps_n_period RA s / 2) mod ps_n_period RA s - ps_n_period RA s / 2) * ps_step RA s)%R.
Proof.
  intros Hf Hp Hk Hs. unfold ps_coordinate. rewrite Hf. destruct (Z.eqb_spec (ps_n_period RA s) 0); [lia|].
  set (P := ps_n_period RA s) in *. assert (Hh : 0 <= P / 2 <= 2 ^ 30) by (split; [apply Z.div_pos; lia | apply Z.div_le_upper_bound; lia]).
  rewrite elem_minus_0 by lia. unfold u64_add. rewrite (u64_small k) by lia. rewrite (u64_small (k + P / 2)) by lia. rewrite i64_small by lia.
  rewrite u64_small by lia. pose proof (Z.mod_pos_bound (k + P / 2) P ltac:(lia)) as Hm.
  rewrite (i32_small (P / 2)) by lia. rewrite i32_small by lia. unfold i32_sub.
  replace (_ && _) with true by lia. reflexivity.
Qed.
Theorem ps_periodic : forall s i, ps_front RA s = 0 -> 0 < ps_n_period RA s <= 2 ^ 31 -> 0 <= i -> i + 2 * ps_n_period RA s < 2 ^ 63 ->
  let h := ps_n_period RA s / 2 in
  exists k x, ps_coordinate RA s i = Ok x /\ ps_coordinate RA s (i + ps_n_period RA s) = Ok x /\
    x = (ps_origin RA s + IZR k * ps_step RA s)%R /\ - h <= k < ps_n_period RA s - h /\ (i - k) mod ps_n_period RA s = 0.
Proof.
  intros s i Hf Hp Hi Hs h. set (P := ps_n_period RA s) in *.
  assert (Hh : 0 <= h <= P / 2) by (unfold h; split; [apply Z.div_pos; lia | lia]). assert (P / 2 <= P) by (apply Z.div_le_upper_bound; lia).
  exists ((i + h) mod P - h). eexists. split; [apply ps_coordinate_eq; auto; fold P; lia|]. split.
  - rewrite ps_coordinate_eq by (auto; fold P; lia). fold P. fold h. do 4 f_equal. f_equal.
    replace (i + P + h) with (i + h + 1 * P) by lia. now rewrite Z.mod_add by lia.
  - split; [reflexivity|]. pose proof (Z.mod_pos_bound (i + h) P ltac:(lia)). split; [lia|].
    pose proof (Z.mod_eq (i + h) P ltac:(lia)). replace (i - ((i + h) mod P - h)) with ((i + h) / P * P) by lia. apply Z.mod_mul. lia.
Qed.
Theorem ps_injective : forall s i j x, ps_front RA s = 0 -> 0 < ps_n_period RA s <= 2 ^ 31 -> (0 < ps_step RA s)%R ->
  0 <= i < j -> j < i + ps_n_period RA s -> j + ps_n_period RA s < 2 ^ 63 ->
  ps_coordinate RA s i = Ok x -> ps_coordinate RA s j <> Ok x.
Proof.
  intros s i j x Hf Hp Hst Hij Hj Hs Ei Ej. assert (ps_n_period RA s / 2 <= ps_n_period RA s) by (apply Z.div_le_upper_bound; lia).
  assert (0 <= ps_n_period RA s / 2) by (apply Z.div_pos; lia).
  rewrite ps_coordinate_eq in Ei, Ej by (auto; lia). set (P := ps_n_period RA s) in *. set (h := P / 2) in *.
  assert (Hinj : forall x y : R, Ok x = Ok y -> x = y) by (intros ? ? E; now injection E).
  apply Hinj in Ei. rewrite <- Ei in Ej. apply Hinj in Ej.
  assert (E : IZR ((j + h) mod P - h) = IZR ((i + h) mod P - h)) by (apply (Rmult_eq_reg_r (ps_step RA s)); [apply (Rplus_eq_reg_l (ps_origin RA s)); exact Ej | apply Rgt_not_eq; exact Hst]).
  apply eq_IZR in E. assert (E' : (j + h) mod P = (i + h) mod P) by lia.
  clear - Hp Hij Hj E'. clearbody h P. pose proof (Z.mod_eq (j + h) P ltac:(lia)) as M1. pose proof (Z.mod_eq (i + h) P ltac:(lia)) as M2.
  rewrite E' in M1. generalize dependent ((j + h) / P). intros u M1. generalize dependent ((i + h) / P). intros v M2. 
  clear E'. generalize dependent ((i + h) mod P). intros w M2 M1.
  assert (D : j - i = P * (u - v)).
  { rewrite Z.mul_sub_distr_l. lia. } destruct (Z_le_gt_dec (u - v) 0); nia.
Qed.
Theorem ps_init_ok : forall q a b n P, (a < b)%R -> 2 <= n < 2 ^ 63 -> 2 <= P <= 2 ^ 31 ->
  exists s, ps_init RA q a b n P = Ok (s, [(q, (0, n))]) /\ ps_front RA s = 0 /\ ps_n_period RA s = P /\ (0 < ps_step RA s)%R /\
    ps_coordinate RA s 0 = Ok a /\
    (n <= P - P / 2 -> ps_coordinate RA s (n - 1) = Ok b).
Proof.
  intros q a b n P Hab Hn HP. unfold ps_init. cbn [nltb RA]. rewrite R_ltb_true by exact Hab. replace (1 <? n) with true by lia. replace (1 <? P) with true by lia.
  rewrite ssub_small by lia. cbn [rbind]. unfold ps_construct. cbn [nltb nofz nsub ndiv num RA].
  rewrite R_ltb_true by (apply step_pos; [exact Hab | lia]). rewrite u64_small by lia. replace (0 <? P) with true by lia. cbn [rbind ps_front]. unfold reference_element. rewrite mk_domain_1. cbn [rbind].
  unfold u64_add. rewrite Z.add_0_l, u64_small by lia. assert (Hh : 0 <= P / 2 < P) by (split; [apply Z.div_pos | apply Z.div_lt_upper_bound]; lia).
  eexists. split; [reflexivity|]. cbn [ps_front ps_n_period ps_step]. split; [reflexivity|]. split; [reflexivity|].
  split; [now apply step_pos; [exact Hab | lia]|]. split.
  - rewrite ps_coordinate_eq; cbn [ps_front ps_n_period ps_step ps_origin]; auto; try lia. rewrite Z.add_0_l, Z.mod_small, Z.sub_diag by lia. f_equal. lra.
  - intros H. rewrite ps_coordinate_eq; cbn [ps_front ps_n_period ps_step ps_origin]; auto; try lia.
    rewrite Z.mod_small by lia. f_equal. replace (n - 1 + P / 2 - P / 2) with (n - 1) by lia. cbn. field. apply not_0_IZR. lia.
Qed.
Theorem ps_ghosted_ok : forall q a b n P p r, (a < b)%R -> 2 <= n -> 2 <= P <= 2 ^ 31 -> 0 <= p -> 0 <= r -> n + p + r < 2 ^ 63 ->
  exists s g, ps_init_ghosted RA q a b n P p r = Ok (s, g) /\ ps_front RA s = 0 /\ ps_n_period RA s = P /\ (0 < ps_step RA s)%R /\
    g_pre g = [(q, (0, p))] /\ g_main g = [(q, (p, p + n))] /\ g_post g = [(q, (p + n, p + n + r))] /\ g_all g = [(q, (0, p + n + r))] /\
    (forall k, 0 <= k < P - P / 2 -> ps_coordinate RA s k = Ok (a + IZR (k - p) * ((b - a) / IZR (n - 1)))%R) /\
    (p < P - P / 2 -> ps_coordinate RA s p = Ok a) /\ (p + n - 1 < P - P / 2 -> ps_coordinate RA s (p + n - 1) = Ok b).
Proof.
  intros q a b n P p r Hab Hn HP Hp Hr Hs. unfold ps_init_ghosted. cbn [nltb RA]. rewrite R_ltb_true by exact Hab.
  replace (1 <? n) with true by lia. replace (1 <? P) with true by lia.
  rewrite ssub_small by lia. cbn [rbind]. unfold ps_construct. cbn [nltb nofz nsub nmul ndiv num RA].
  rewrite R_ltb_true by (apply step_pos; [exact Hab | lia]). rewrite u64_small by lia. replace (0 <? P) with true by lia. cbn [rbind ps_front]. unfold reference_element.
  rewrite ghost_domains_ok by lia. cbn [rbind].
  assert (Hh : 0 <= P / 2 < P) by (split; [apply Z.div_pos | apply Z.div_lt_upper_bound]; lia).
  do 2 eexists. split; [reflexivity|]. cbn [ps_front ps_n_period ps_step g_pre g_main g_post g_all]. split; [reflexivity|]. split; [reflexivity|].
  split; [now apply step_pos; [exact Hab | lia]|]. do 4 (split; [reflexivity|]).
  assert (G : forall k, 0 <= k < P - P / 2 ->
    ps_coordinate RA (mk_ps RA (a - IZR p * ((b - a) / IZR (n - 1)))%R ((b - a) / IZR (n - 1))%R P 0) k = Ok (a + IZR (k - p) * ((b - a) / IZR (n - 1)))%R).
  { intros k Hk. rewrite ps_coordinate_eq; cbn [ps_front ps_n_period ps_step ps_origin]; auto; try lia.
    rewrite Z.mod_small by lia. replace (k + P / 2 - P / 2) with k by lia. f_equal. rewrite (minus_IZR k p). cbn [nadd nmul nofz RA]. change (num RA) with R. ring. }
  split; [exact G|]. split; intros H; (etransitivity; [apply G; lia|]); f_equal.
  - rewrite Z.sub_diag. lra.
  - replace (p + n - 1 - p) with (n - 1) by lia. field. apply not_0_IZR. lia.
Qed.
(** A period of more than 2^31 points: the difference of [int]s can overflow. *)
Theorem ps_long_period : exists s i, ps_init RA 0%nat 0%R 1%R 2 (2 ^ 31 + 2) = Ok (s, [(0%nat, (0, 2))]) /\ 0 <= i /\ ps_coordinate RA s i = Undef.
Proof.
  unfold ps_init. cbn [nltb RA]. rewrite R_ltb_true by lra. replace (1 <? 2) with true by lia. replace (1 <? 2 ^ 31 + 2) with true by lia.
  rewrite ssub_small by lia. cbn [rbind]. unfold ps_construct. cbn [nltb nofz nsub nmul ndiv num RA].
  rewrite R_ltb_true by (change (2 - 1) with 1; lra). rewrite u64_small by lia. replace (0 <? 2 ^ 31 + 2) with true by lia. cbn [rbind ps_front]. unfold reference_element. rewrite mk_domain_1. cbn [rbind].
  unfold u64_add. rewrite Z.add_0_l, u64_small by lia.
  eexists. exists (2 ^ 30 - 1). split; [reflexivity|]. split; [lia|]. unfold ps_coordinate. cbn [ps_n_period ps_front].
  match goal with |- context [i32_sub ?x ?y] => replace (i32_sub x y) with (@Undef Z) by reflexivity end. reflexivity.
Qed.
(** When the number of points exceeds the half period the last point is not b, and the length may even be negative. *)
Theorem ps_length_negative : exists s d x, ps_init RA 0%nat 0%R 4%R 5 6 = Ok (s, d) /\
  rlength RA (ps_coordinate RA s) d = Ok x /\ (x < 0)%R.
Proof.
  destruct (ps_init_ok 0%nat 0 4 5 6) as (s & E & Hf & HP & Hst & Hc & _); [lra | lia | lia|].
  exists s, [(0%nat, (0, 5))].
  assert (Eo : ps_origin RA s = 0%R).
  { rewrite ps_coordinate_eq, HP in Hc by (rewrite ?HP; auto; try (cbn; lia); lia).
    assert (Hinj : forall x y : R, Ok x = Ok y -> x = y) by (intros ? ? E'; now injection E').
    apply Hinj in Hc. replace ((0 + 6 / 2) mod 6 - 6 / 2) with 0 in Hc by reflexivity. cbn in *. lra. }
  eexists. split; [exact E|]. split.
  - unfold rlength, rmax, rmin. rewrite back_1 by lia. cbn [front dom_begin map fst snd one_elem rbind]. rewrite Hc.
    rewrite ps_coordinate_eq, HP by (rewrite ?HP; auto; try (cbn; lia); lia). cbn [rbind nsub RA]. reflexivity.
  - rewrite Eo. replace ((5 - 1 + 6 / 2) mod 6 - 6 / 2) with (-2) by reflexivity. cbn in *. lra.
Qed.

(** ** Non-uniform *)
Lemma is_sorted_tail x l : is_sorted RA (x :: l) = true -> is_sorted RA l = true.
Proof. destruct l as [|y l]; auto. cbn [is_sorted nltb RA]. destruct (R_ltb y x); auto; discriminate. Qed.
Lemma is_sorted_head x l : is_sorted RA (x :: l) = true -> Forall (fun y => (x <= y)%R) l.
Proof.
  revert x. induction l as [|y l IH]; intros x H; constructor.
  - cbn [is_sorted nltb RA] in H. unfold R_ltb in H. destruct (Rlt_dec y x); [discriminate|lra].
  - assert (Hxy : (x <= y)%R). { cbn [is_sorted nltb RA] in H. unfold R_ltb in H. destruct (Rlt_dec y x); [discriminate|lra]. }
    apply is_sorted_tail in H. apply IH in H. eapply Forall_impl; [|exact H]. intros z Hz. cbn in Hz. lra.
Qed.
Lemma is_sorted_iff l : is_sorted RA l = true <-> increasing l.
Proof.
  split.
  - induction l as [|z l IH]; intros H i j x y Hij Hi Hj; [destruct i; discriminate|].
    destruct j as [|j]; [lia|]. destruct i as [|i]; cbn [nth_error] in *.
    + injection Hi as <-. apply is_sorted_head in H. rewrite Forall_forall in H. apply H. eapply nth_error_In; eauto.
    + apply (IH (is_sorted_tail _ _ H) i j x y); [lia | exact Hi | exact Hj].
  - induction l as [|z l IH]; auto. intros H. destruct l as [|y l]; auto. cbn [is_sorted nltb RA].
    rewrite R_ltb_false by (apply (H 0%nat 1%nat); auto). apply IH. intros i j u v Hij Hi Hj. apply (H (S i) (S j)); auto; lia.
Qed.
Lemma nth_z_ok (l : list R) k x : nth_error l k = Some x -> nth_z RA l (Z.of_nat k) = Ok x.
Proof. intros H. unfold nth_z. destruct (Z.ltb_spec (Z.of_nat k) 0); [lia|]. change (num RA) with R in *. now rewrite Nat2Z.id, H. Qed.
Lemma ns_coordinate_ok l k x : small (length l) -> nth_error l k = Some x -> ns_coordinate RA (mk_ns RA l 0) (Z.of_nat k) = Ok x.
Proof.
  intros Hs H. unfold ns_coordinate. cbn [ns_points ns_front]. assert (k < length l)%nat by (apply nth_error_Some; congruence).
  unfold small in Hs. rewrite elem_minus_0 by lia. now apply nth_z_ok.
Qed.
Lemma ns_coordinate_ok' l i x : small (length l) -> 0 <= i -> nth_error l (Z.to_nat i) = Some x -> ns_coordinate RA (mk_ns RA l 0) i = Ok x.
Proof. intros Hs Hi H. rewrite <- (Z2Nat.id i) by lia. now apply ns_coordinate_ok. Qed.
Theorem ns_init_ok : forall q (l : list R), l <> [] -> small (length l) ->
  (increasing l -> exists s, ns_init RA q l = Ok (Some (s, [(q, (0, Z.of_nat (length l)))])) /\
     (forall k x, nth_error l k = Some x -> ns_coordinate RA s (Z.of_nat k) = Ok x) /\
     (forall k x y, nth_error l k = Some x -> nth_error l (S k) = Some y ->
        ns_distance_at_right RA s (Z.of_nat k) = Ok (y - x)%R /\ ns_distance_at_left RA s (Z.of_nat (S k)) = Ok (y - x)%R /\ (0 <= y - x)%R)) /\
  (~ increasing l -> ns_init RA q l = Ok None).
Proof.
  intros q l Hl Hs. unfold ns_init. destruct l as [|p l]; [now destruct Hl|]. set (L := p :: l) in *. unfold ns_construct. change (num RA) with R in *. split.
  - intros Hi. destruct (is_sorted RA L) eqn:E; [|apply is_sorted_iff in Hi; congruence]. cbn [ns_front]. unfold reference_element. rewrite mk_domain_1. cbn [rbind].
    change (num RA) with R in *. unfold small in Hs. unfold u64_add. rewrite Z.add_0_l, u64_small by lia. eexists. split; [reflexivity|]. split.
    + intros k x Hk. now apply ns_coordinate_ok.
    + intros k x y Hk Hk'. assert (S k < length L)%nat by (apply nth_error_Some; congruence).
      unfold ns_distance_at_right, ns_distance_at_left, u64_add, u64_sub. rewrite !u64_small by lia.
      replace (Z.of_nat k + 1) with (Z.of_nat (S k)) by lia. replace (Z.of_nat (S k) - 1) with (Z.of_nat k) by lia.
      rewrite !(ns_coordinate_ok L k x), !(ns_coordinate_ok L (S k) y) by auto. cbn [rbind nsub RA]. split; auto. split; auto.
      assert (x <= y)%R by (apply (Hi k (S k)); auto). lra.
  - intros Hi. destruct (is_sorted RA L) eqn:E; auto. apply is_sorted_iff in E. contradiction.
Qed.
Theorem ns_ghosted_ok : forall q (pre l post : list R), l <> [] -> small (length pre + length l + length post) ->
  (increasing (pre ++ l ++ post) -> exists s g, ns_init_ghosted RA q l pre post = Ok (Some (s, g)) /\
     let p := Z.of_nat (length pre) in let n := Z.of_nat (length l) in let r := Z.of_nat (length post) in
     g_pre g = [(q, (0, p))] /\ g_main g = [(q, (p, p + n))] /\ g_post g = [(q, (p + n, p + n + r))] /\ g_all g = [(q, (0, p + n + r))] /\
     (forall k x, nth_error pre k = Some x -> ns_coordinate RA s (Z.of_nat k) = Ok x) /\
     (forall k x, nth_error l k = Some x -> ns_coordinate RA s (p + Z.of_nat k) = Ok x) /\
     (forall k x, nth_error post k = Some x -> ns_coordinate RA s (p + n + Z.of_nat k) = Ok x)) /\
  (~ increasing (pre ++ l ++ post) -> ns_init_ghosted RA q l pre post = Ok None).
Proof.
  intros q pre l post Hl Hs. unfold ns_init_ghosted. destruct l as [|e l]; [now destruct Hl|]. set (L := e :: l) in *. unfold ns_construct. change (num RA) with R in *. split.
  - intros Hi. destruct (is_sorted RA (pre ++ L ++ post)) eqn:E; [|apply is_sorted_iff in Hi; congruence].
    cbn [ns_front]. unfold reference_element. change (num RA) with R in *. unfold small in Hs. rewrite ghost_domains_ok by lia. cbn [rbind].
    eexists _, _. split; [reflexivity|]. cbn [g_pre g_main g_post g_all]. do 4 (split; [reflexivity|]).
    assert (Hs' : small (length (pre ++ L ++ post))) by (unfold small; rewrite !app_length; lia).
    split; [|split]; intros k x Hk; assert (Hlt := proj1 (nth_error_Some _ _) ltac:(intros E0; rewrite E0 in Hk; discriminate Hk)).
    + apply ns_coordinate_ok; auto. now rewrite nth_error_app1 by exact Hlt.
    + rewrite <- Nat2Z.inj_add. apply ns_coordinate_ok; auto. rewrite nth_error_app2 by lia.
      replace (length pre + k - length pre)%nat with k by lia. now rewrite nth_error_app1 by exact Hlt.
    + rewrite <- !Nat2Z.inj_add. apply ns_coordinate_ok; auto. rewrite nth_error_app2 by lia. rewrite nth_error_app2 by lia.
      replace (length pre + length L + k - length pre - length L)%nat with k by lia. exact Hk.
  - intros Hi. destruct (is_sorted RA (pre ++ L ++ post)) eqn:E; auto. apply is_sorted_iff in E. contradiction.
Qed.
