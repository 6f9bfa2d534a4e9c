From Verif Require Import Machine MachineProofs TypeSeqModel TaggedModel TaggedSpec
  DomainModel DomainSpec DomainProofs ListAux DomainProofs2 BlockModel BlockSpec BlockProofs.

Lemma power_test n : 0 <= n < 2 ^ 64 -> (is_power_of_2 n = true <-> exists k, 0 <= k /\ n = 2 ^ k).
Proof.
  intros Hn. unfold is_power_of_2. split.
  - intros H. apply andb_prop in H as [H1 H2]. apply Z.ltb_lt in H1. apply Z.eqb_eq in H2.
    assert (E : u64_sub n 1 = n - 1). { unfold u64_sub, u64. apply Z.mod_small. change two64 with (2 ^ 64). lia. }
    rewrite E in H2. exists (Z.log2 n). pose proof (Z.log2_nonneg n). split; auto.
    destruct (Z.log2_spec n H1) as [L1 L2].
    destruct (Z.eq_dec n (2 ^ Z.log2 n)) as [|Hne]; auto. exfalso.
    assert (B1 : Z.testbit n (Z.log2 n) = true) by now apply Z.bit_log2.
    assert (E2 : Z.log2 (n - 1) = Z.log2 n) by (apply Z.log2_unique; lia).
    assert (B2 : Z.testbit (n - 1) (Z.log2 n) = true).
    { rewrite <- E2. apply Z.bit_log2. pose proof (Z.pow_pos_nonneg 2 (Z.log2 n)). lia. }
    assert (B3 : Z.testbit (Z.land n (n - 1)) (Z.log2 n) = true) by (rewrite Z.land_spec, B1, B2; auto).
    rewrite H2, Z.testbit_0_l in B3. discriminate.
  - intros (k & Hk & ->). pose proof (Z.pow_pos_nonneg 2 k).
    assert (E : u64_sub (2 ^ k) 1 = Z.ones k).
    { unfold u64_sub, u64. rewrite Z.mod_small by (change two64 with (2 ^ 64); lia). rewrite Z.ones_equiv. lia. }
    rewrite E, Z.land_ones, Z.mod_same by lia. apply andb_true_intro. split; [apply Z.ltb_lt; lia|reflexivity].
Qed.

Definition cap (s : Z) : Z := Z.log2 (Z.max 1 s).
Lemma cap_nonneg s : 0 <= cap s. Proof. apply Z.log2_nonneg. Qed.
Lemma cap_spec s j : 0 <= j -> 2 ^ j <= Z.max 1 s <-> j <= cap s.
Proof. intros. unfold cap. apply Z.log2_le_pow2. lia. Qed.
Definition sumZ (l : list Z) : Z := fold_right Z.add 0 l.
Lemma sum_nonneg l : Forall (fun x => 0 <= x) l -> 0 <= sumZ l.
Proof. induction 1; simpl; lia. Qed.
Lemma sum_cap_nonneg ss : 0 <= sumZ (map cap ss).
Proof. apply sum_nonneg, Forall_forall. intros x H. apply in_map_iff in H as (s & <- & _). apply cap_nonneg. Qed.
Lemma max_blocks_pow ss : max_blocks ss = 2 ^ sumZ (map cap ss).
Proof.
  induction ss as [|s ss IH]; simpl; auto. unfold max_blocks in *. cbn [map product fold_right]. fold (product (map (fun s => 2 ^ Z.log2 (Z.max 1 s)) ss)).
  rewrite IH. change (Z.log2 (Z.max 1 s)) with (cap s). rewrite <- Z.pow_add_r; [reflexivity|apply cap_nonneg|apply sum_cap_nonneg].
Qed.

Lemma nth_error_mid {A} (a : list A) x b : nth_error (a ++ x :: b) (length a) = Some x.
Proof. rewrite nth_error_app2 by lia. now rewrite Nat.sub_diag. Qed.
Lemma set_nth_mid a x b y : set_nth (a ++ x :: b) (length a) y = a ++ y :: b.
Proof. induction a; simpl; congruence. Qed.

Definition ones_of (ss : list Z) : list Z := map (fun _ => 1) ss.
Definition bounded (ss ps : list Z) : Prop := Forall2 (fun p s => 1 <= p <= Z.max 1 s) ps ss.
Lemma product_ones ss : product (ones_of ss) = 1.
Proof. induction ss as [|s ss IH]; [reflexivity|]. change (product (ones_of (s :: ss))) with (1 * product (ones_of ss)). rewrite IH. reflexivity. Qed.
Lemma bounded_ones ss : bounded ss (ones_of ss).
Proof. induction ss; constructor; auto. lia. Qed.

Lemma loop_ok fuel : forall k j ss1 s ss ps1,
  (Z.to_nat k + length ss + 2 <= fuel)%nat -> 0 <= k -> 0 <= j -> k + j <= 62 -> j <= cap s -> length ps1 = length ss1 ->
  (k + j <= cap s + sumZ (map cap ss) ->
    exists ps2, distribute_loop fuel (2 ^ k) (length ss1) (ss1 ++ s :: ss) (ps1 ++ 2 ^ j :: ones_of ss) = Ok (Some (ps1 ++ ps2)) /\
      product ps2 = 2 ^ (k + j) /\ bounded (s :: ss) ps2) /\
  (cap s + sumZ (map cap ss) < k + j ->
    distribute_loop fuel (2 ^ k) (length ss1) (ss1 ++ s :: ss) (ps1 ++ 2 ^ j :: ones_of ss) = Ok None).
Proof.
  induction fuel as [|fuel IH]; intros k j ss1 s ss ps1 Hf Hk Hj Hkj Hjs Hl; [lia|].
  cbn [distribute_loop]. pose proof (sum_cap_nonneg ss) as Hsum.
  destruct (Z.eq_dec k 0) as [->|Hk0].
  - change (2 ^ 0 =? 1) with true. cbn iota. split; [intros _|lia].
    exists (2 ^ j :: ones_of ss). split; [reflexivity|]. split.
    + cbn [product fold_right]. fold (product (ones_of ss)). rewrite product_ones. rewrite Z.mul_1_r. f_equal.
    + constructor; [|apply bounded_ones]. split; [pose proof (Z.pow_pos_nonneg 2 j); lia|]. now apply cap_spec.
  - assert (Hpk : 2 ^ k <> 1). { pose proof (Z.pow_gt_1 2 k). lia. }
    destruct (Z.eqb_spec (2 ^ k) 1) as [E|_]; [lia|].
    rewrite nth_error_mid. rewrite <- Hl, nth_error_mid, Hl.
    assert (E2 : i64_mul (2 ^ j) 2 = Some (2 ^ (j + 1))).
    { unfold i64_mul, i64_ret. rewrite Z.pow_add_r by lia. change (2 ^ 1) with 2.
      assert (2 ^ j <= 2 ^ 61) by (apply Z.pow_le_mono_r; lia). pose proof (Z.pow_pos_nonneg 2 j).
      unfold is_i64b. change two63 with (2 ^ 63). destruct (Z.leb_spec (- 2 ^ 63) (2 ^ j * 2)); [|lia]. destruct (Z.ltb_spec (2 ^ j * 2) (2 ^ 63)); [|lia]. reflexivity. }
    rewrite E2. cbn [of_i64 rbind].
    destruct (Z.leb_spec (2 ^ (j + 1)) s) as [Hs|Hs].
    + assert (Hc : j + 1 <= cap s) by (apply cap_spec; lia).
      rewrite <- Hl. rewrite set_nth_mid, Hl.
      assert (E3 : 2 ^ k / 2 = 2 ^ (k - 1)). { replace k with ((k - 1) + 1) at 1 by lia. rewrite Z.pow_add_r by lia. change (2 ^ 1) with 2. apply Z.div_mul. lia. }
      rewrite E3. destruct (IH (k - 1) (j + 1) ss1 s ss ps1) as [H1 H2]; try lia. split; intros Hb.
      * destruct H1 as (ps2 & A & B & C); [lia|]. exists ps2. split; [exact A|]. split; auto. rewrite B. f_equal. lia.
      * apply H2. lia.
    + assert (Hc : j = cap s).
      { pose proof (cap_spec s (j + 1)). pose proof (Z.pow_gt_1 2 (j + 1)). lia. }
      destruct ss as [|s' ss].
      * cbn [map sumZ fold_right] in *. split; intros Hb; [lia|].
        destruct fuel as [|fuel]; [cbn in Hf; lia|]. cbn [distribute_loop].
        destruct (Z.eqb_spec (2 ^ k) 1) as [E|_]; [lia|].
        replace (nth_error (ss1 ++ [s]) (length ss1 + 1)) with (@None Z); auto.
        symmetry. apply nth_error_None. rewrite app_length. cbn. lia.
      * destruct (IH k 0 (ss1 ++ [s]) s' ss (ps1 ++ [2 ^ j])) as [H1 H2]; try lia.
        { cbn [length] in Hf. lia. }
        { apply cap_nonneg. }
        { rewrite !app_length. cbn. lia. }
        rewrite app_length in H1, H2. cbn [length] in H1, H2. rewrite <- !app_assoc in H1, H2. cbn [app] in H1, H2.
        cbn [ones_of map sumZ fold_right] in *. fold (sumZ (map cap ss)) in *. fold (ones_of ss).
        change (2 ^ 0) with 1 in H1, H2. rewrite Z.add_0_r in H1, H2. split; intros Hb.
        -- destruct H1 as (ps2 & A & B & C); [lia|]. exists (2 ^ j :: ps2). split; [rewrite <- app_assoc in A; exact A|]. split.
           ++ cbn [product fold_right]. fold (product ps2). rewrite B, <- Z.pow_add_r by lia. f_equal. lia.
           ++ constructor; auto. split; [pose proof (Z.pow_pos_nonneg 2 j); lia|]. apply cap_spec; lia.
        -- apply H2. lia.
Qed.

Lemma distribute_ok nb sizes : 0 <= nb <= 2 ^ 62 ->
  (((exists k, 0 <= k /\ nb = 2 ^ k) /\ nb <= max_blocks sizes ->
     exists per, distribute_blocks nb sizes = Ok (Some per) /\ product per = nb /\ Forall2 (fun p s => 1 <= p <= Z.max 1 s) per sizes) /\
   (~ ((exists k, 0 <= k /\ nb = 2 ^ k) /\ nb <= max_blocks sizes) -> distribute_blocks nb sizes = Ok None)).
Proof.
  intros Hnb. unfold distribute_blocks. assert (Hp : is_power_of_2 nb = true <-> exists k, 0 <= k /\ nb = 2 ^ k) by (apply power_test; lia).
  destruct (is_power_of_2 nb) eqn:E.
  - destruct (proj1 Hp eq_refl) as (k & Hk & ->). clear Hp E.
    assert (Hk62 : k <= 62). { apply Z.pow_le_mono_r_iff with (a := 2); lia. }
    rewrite max_blocks_pow. pose proof (sum_cap_nonneg sizes) as Hs.
    rewrite <- (Z.pow_le_mono_r_iff 2 k (sumZ (map cap sizes))) by lia.
    destruct sizes as [|s ss].
    + cbn [map sumZ fold_right length] in *. split.
      * intros [_ H]. assert (k = 0) by lia. subst k. exists []. split; [reflexivity|]. split; [reflexivity|constructor].
      * intros H. assert (k <> 0). { intros ->. apply H. split; [exists 0; split; [lia|reflexivity]|lia]. }
        change (64 + 0 + 1)%nat with 65%nat. cbn [distribute_loop nth_error].
        pose proof (Z.pow_gt_1 2 k). destruct (Z.eqb_spec (2 ^ k) 1); [lia|reflexivity].
    + destruct (loop_ok (64 + length (s :: ss) + 1) k 0 [] s ss []) as [H1 H2]; try lia.
      { cbn [length]. lia. }
      { apply cap_nonneg. }
      cbn [map sumZ fold_right app length] in *. fold (sumZ (map cap ss)) in *. rewrite Z.add_0_r in *. change (2 ^ 0) with 1 in *.
      split.
      * intros [_ H]. destruct H1 as (ps2 & A & B & C); [lia|]. exists ps2. auto.
      * intros H. apply H2. destruct (Z.lt_ge_cases (cap s + sumZ (map cap ss)) k); auto. exfalso. apply H. split; eauto.
  - split; auto. intros [(k & Hk & ->) _]. exfalso. assert (false = true); [|discriminate]. apply Hp; eauto.
Qed.

Lemma total_ok d nb k : dom_wf d -> 0 <= k <= 62 -> nb = 2 ^ k ->
  nb <= max_blocks (map (fun p => snd (snd p) - fst (snd p)) d) ->
  exists l : list domain,
    (forall (S : Type) (f : domain -> S -> S) (s : S), for_each_block_total d nb f s = Ok (Some (fold_left (fun s b => f b s) l s))) /\
    partition d l /\ balanced l /\ Z.of_nat (length l) = nb /\ (box_count d <> 0 -> Forall (fun b => box_count b <> 0) l).
Proof.
  intros Hw Hk E Hmax. destruct (extents_values d Hw) as (ex & Eex & Vex).
  set (sizes := map (fun p => snd (snd p) - fst (snd p)) d) in *.
  assert (Hnb : 0 <= nb <= 2 ^ 62). { subst nb. split; [apply Z.pow_nonneg; lia|]. apply Z.pow_le_mono_r; lia. }
  destruct (distribute_ok nb sizes Hnb) as [H _]. destruct H as (per & Ep & Hprod & Hbd); [split; auto; exists k; split; [lia|auto]|].
  pose proof (Forall2_len _ _ _ Hbd) as Hlen. unfold sizes in Hlen. rewrite map_length in Hlen.
  assert (Hdim : dims (combine (ddims d) per) = ddims d). { apply dims_combine. unfold ddims. now rewrite map_length. }
  assert (Hval : values (combine (ddims d) per) = per).
  { unfold values. assert (G : forall (a : list tag) (b : list Z), length a = length b -> map snd (combine a b) = b) by (induction a; intros [|? ?] HH; try discriminate; simpl; auto; f_equal; auto).
    apply G. unfold ddims. rewrite map_length. auto. }
  assert (Hk2 : forall q n, val_of (combine (ddims d) per) q n -> exists b f, In (q, (b, f)) d /\ 1 <= n <= Z.max 1 (f - b)).
  { intros q n Hv. apply In_nth_error in Hv as [i Hi].
    assert (Hi1 : nth_error (ddims d) i = Some q /\ nth_error per i = Some n).
    { assert (G : forall (a : list tag) (b : list Z) i q n, nth_error (combine a b) i = Some (q, n) -> nth_error a i = Some q /\ nth_error b i = Some n).
      { induction a; intros [|? ?] [|?] ? ? HH; try discriminate; simpl in *; auto. injection HH as -> ->. auto. }
      apply G; auto. }
    destruct Hi1 as [H1 H2]. unfold ddims in H1. rewrite nth_error_map in H1. destruct (nth_error d i) as [(q', (b, f))|] eqn:Ed; [|discriminate].
    cbn in H1. injection H1 as <-. exists b, f. split; [eapply nth_error_In; eauto|].
    apply Forall2_nth in Hbd as [_ Hbd]. apply (Hbd i n (f - b)); auto. unfold sizes. rewrite nth_error_map, Ed. reflexivity. }
  destruct (for_each_block_ok d (combine (ddims d) per) Hw) as (l & Hl & Hpart & Hbal & Hcount & Hne).
  { split; auto. intros q n Hv. destruct (Hk2 q n Hv) as (b & f & Hin & Hb). pose proof (dom_wf_at d q b f Hw Hin). lia. }
  exists l. rewrite Hval in Hcount. split; [|split; [auto|split; [auto|split; [lia|]]]].
  - intros S f s. unfold for_each_block_total. rewrite Eex. cbn [rbind]. rewrite Vex. fold sizes. rewrite Ep. cbn [rbind]. rewrite Hl. reflexivity.
  - intros Hbc. apply Hne. intros q b f n Hin Hv. destruct (Hk2 q n Hv) as (b' & f' & Hin' & Hb).
    destruct (dom_fun d q b f b' f') as [-> ->]; auto; [apply Hw|]. pose proof (nonempty_lt d q b' f' Hw Hbc Hin). lia.
Qed.
