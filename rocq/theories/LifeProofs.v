(** Proofs about examples/game_of_life.cpp. *)
From Verif Require Import Machine MachineProofs TypeSeqModel TaggedModel TaggedSpec TaggedProofs
  DomainModel DomainSpec DomainProofs ListAux DomainProofs2 SpanModel SpanSpec SpanProofs StorageProofs KokkosModel KokkosSpec KokkosProofs
  ReduceModel ReduceSpec ReduceProofs ParModel ParSpec ParProofs ParProofs2 ProgramModel ProgramProofs GridProofs LifeModel LifeSpec.

Lemma gxy : gx <> gy. Proof. discriminate. Qed.
Notation el := (el gx gy).
Notation dom2 := (dom2 gx gy).
Notation grid := (grid gx gy).
Notation listed := listed.

(** The rule, as a function. *)
Definition rule (b : board) (x y : Z) : bool :=
  let n := neighbours b x y in if b x y then Nat.eqb n 2 || Nat.eqb n 3 else Nat.eqb n 3.
Definition inner_b (L H x y : Z) : bool := (1 <=? x) && (x <? L - 1) && (1 <=? y) && (y <? H - 1).
Definition life (L H : Z) (b : board) : board := fun x y => if inner_b L H x y then rule b x y else b x y.
Lemma life_next L H b : next_generation L H b (life L H b).
Proof.
  intros x y Hx Hy. unfold life. split.
  - intros Hb. destruct (inner_b L H x y) eqn:E; auto. exfalso. unfold inner_b, on_border in *. lia.
  - intros Hb. replace (inner_b L H x y) with true by (unfold inner_b, on_border in *; lia).
    unfold rule, lives. destruct (b x y); [rewrite orb_true_iff, !Nat.eqb_eq|rewrite Nat.eqb_eq]; tauto.
Qed.
Lemma neighbours_ext b b' x y : (forall d, In d around -> b (x + fst d) (y + snd d) = b' (x + fst d) (y + snd d)) -> neighbours b x y = neighbours b' x y.
Proof.
  intros H. unfold neighbours. f_equal. revert H. generalize around. intros l. induction l as [|d l IH]; intros H; cbn [filter]; auto.
  rewrite (H d) by now left. rewrite IH by (intros; apply H; now right). reflexivity.
Qed.
Lemma life_ext L H b b' x y : (forall i j, 0 <= i < L -> 0 <= j < H -> b i j = b' i j) -> 0 <= x < L -> 0 <= y < H -> life L H b x y = life L H b' x y.
Proof.
  intros E Hx Hy. unfold life. destruct (inner_b L H x y) eqn:I; [|now apply E]. unfold inner_b in I. unfold rule.
  rewrite (neighbours_ext b b'), (E x y); auto. intros [u v] Hd. cbn [fst snd]. apply E.
  - cbn in Hd. repeat destruct Hd as [Hd|Hd]; try (injection Hd as <- <-; lia). destruct Hd.
  - cbn in Hd. repeat destruct Hd as [Hd|Hd]; try (injection Hd as <- <-; lia). destruct Hd.
Qed.

Lemma vect_sub2 a b c d : is_i64 (a - c) -> is_i64 (b - d) -> vect_sub [(gx, a); (gy, b)] [(gx, c); (gy, d)] = Ok [(gx, a - c); (gy, b - d)].
Proof.
  intros H1 H2. assert (S : forall x y, is_i64 (x - y) -> ssub x y = Ok (x - y)).
  { intros x y Hr. unfold ssub, i64_sub, i64_ret. replace (is_i64b (x - y)) with true; [reflexivity|]. unfold is_i64, is_i64b in *. lia. }
  cbn -[ssub]. rewrite S by auto. cbn -[ssub]. rewrite S by auto. reflexivity.
Qed.

Section Life.
Variables (L H p_in p_out p_host : Z) (g : nat -> list Z).
Hypothesis Hg : length (g 4%nat) = 4%nat.
Hypothesis HL : 2 <= L < 2 ^ 63 - 8.
Hypothesis HH : 2 <= H < 2 ^ 63 - 8.
Hypothesis HN : L * H < 2 ^ 64.
Definition apart (p q : Z) : Prop := apart_blocks (L * H) p q.
Hypothesis A1 : apart p_in p_out.
Hypothesis A2 : apart p_in p_host.
Hypothesis A3 : apart p_out p_host.
Lemma life_sized : sized L H. Proof. unfold sized. lia. Qed.
Notation G_in := (grid p_in L H).
Notation G_out := (grid p_out L H).
Notation G_host := (grid p_host L H).

Lemma off_at p i j : 0 <= i < L -> 0 <= j < H -> p <= p + i * H + j < p + L * H.
Proof. intros Hi Hj. assert (A := index_range L H i j Hi Hj). lia. Qed.

(** The initial pattern. *)
Lemma alive_dom : (inside <- remove_first (dom2 0 L 0 H) [(gx, 1); (gy, 2)] ;; take_first inside [(gx, 3); (gy, 1)]) = Ok (dom2 1 4 2 3).
Proof.
  unfold remove_first. destruct (extents_values (dom2 0 L 0 H)) as (ex & E & Ev); [apply dom2_wf; [exact gxy|lia..]|].
  assert (Ex : ex = [(gx, L); (gy, H)]).
  { clear Ev. assert (E2 : extents (dom2 0 L 0 H) = Ok [(gx, i64 (u64_sub L 0)); (gy, i64 (u64_sub H 0))]) by reflexivity.
    rewrite E in E2. injection E2 as ->. f_equal; [|f_equal]; f_equal; unfold i64, u64_sub, u64, two64, two63;
    rewrite Z.sub_0_r; rewrite (Z.mod_small _ (2 ^ 64)) by lia; rewrite Z.mod_small by lia; lia. }
  rewrite E, Ex.
  change (elem_add (front (dom2 0 L 0 H)) [(gx, 1); (gy, 2)]) with (Ok (A := tagged) [(gx, u64_add 0 1); (gy, u64_add 0 2)]). cbn [rbind].
  rewrite vect_sub2 by (unfold is_i64, two63; lia). cbn [rbind]. reflexivity.
Qed.
Lemma blinker_kernel p m :
  (exists c m', parallel_for_each (dom2 0 L 0 H) (fun ixy => c <- contains (dom2 1 4 2 3) [ixy] ;; a <- span_access (grid p L H) [ixy] ;; Ok (PWrite a c PRet)) c m = Ok m') /\
  (forall c m', parallel_for_each (dom2 0 L 0 H) (fun ixy => c <- contains (dom2 1 4 2 3) [ixy] ;; a <- span_access (grid p L H) [ixy] ;; Ok (PWrite a c PRet)) c m = Ok m' ->
    (forall i j, 0 <= i < L -> 0 <= j < H -> val m' p H i j = blinker i j) /\ (forall a, ~ (p <= a < p + L * H) -> m' a = m a)) /\
  (forall c, parallel_for_each (dom2 0 L 0 H) (fun ixy => c <- contains (dom2 1 4 2 3) [ixy] ;; a <- span_access (grid p L H) [ixy] ;; Ok (PWrite a c PRet)) c m <> Undef).
Proof.
  destruct (for_each_run (dom2 0 L 0 H) (fun ixy => c <- contains (dom2 1 4 2 3) [ixy] ;; a <- span_access (grid p L H) [ixy] ;; Ok (PWrite a c PRet))
    (fun e => PWrite (p + vf e gx * H + vf e gy) (blinker (vf e gx) (vf e gy)) PRet) (fun _ _ => False) (fun e a => a = p + vf e gx * H + vf e gy) m)
    as (K1 & K2 & K3).
  - apply dom2_wf; [exact gxy|lia..].
  - intros e He. apply (in_trace2 gx gy gxy) in He as (i & j & -> & Hi & Hj). rewrite (vf_x gx gy), (vf_y gx gy gxy).
    change (contains (dom2 1 4 2 3) [el i j]) with (Ok (if (i <? 1) || (4 <=? i) then false else if (j <? 2) || (3 <=? j) then false else true)).
    cbn [rbind]. rewrite (grid_at gx gy gxy p L H i j) by (auto using life_sized; lia). cbn [rbind]. do 2 f_equal.
    unfold blinker. destruct ((i <? 1) || (4 <=? i)) eqn:E1; [|destruct ((j <? 2) || (3 <=? j)) eqn:E2]; lia.
  - intros e He. constructor; constructor.
  - intros e e' a He He' Hne ->. split; auto. intros E. apply Hne.
    apply (in_trace2 gx gy gxy) in He as (i & j & -> & Hi & Hj). apply (in_trace2 gx gy gxy) in He' as (i' & j' & -> & Hi' & Hj').
    rewrite !(vf_x gx gy), !(vf_y gx gy gxy) in E. destruct (index_inj H i j i' j') as [-> ->]; auto; lia.
  - split; [exact K1|]. split; [|exact K3]. intros c m' E. destruct (K2 c m' E) as [W1 W2]. split.
    + intros i j Hi Hj. unfold val. rewrite (W1 (el i j)).
      * rewrite (vf_x gx gy), (vf_y gx gy gxy). cbn [run_alone]. unfold mem_write. now rewrite Z.eqb_refl.
      * apply (in_trace2 gx gy gxy). exists i, j. auto.
      * now rewrite (vf_x gx gy), (vf_y gx gy gxy).
    + intros a Ha. apply W2. intros e He ->. apply Ha. apply (in_trace2 gx gy gxy) in He as (i & j & -> & Hi & Hj).
      rewrite (vf_x gx gy), (vf_y gx gy gxy). now apply off_at.
Qed.

(** One call of the functor. *)
Definition at9 (i j : Z) : list (Z * Z) :=
  [(i - 1, j - 1); (i - 1, j); (i - 1, j + 1); (i, j - 1); (i, j); (i, j + 1); (i + 1, j - 1); (i + 1, j); (i + 1, j + 1)].
Definition adr (p : Z) (c : Z * Z) : Z := p + fst c * H + snd c.
Definition call_prog (i j : Z) : prog bool :=
  count_alive (map (adr p_in) (at9 i j)) 0 (fun n => PRead (adr p_in (i, j)) (fun v =>
    if (v : bool) then (if (n - 1 <? 2) || (3 <? n - 1) then PWrite (adr p_out (i, j)) false PRet else PRet)
    else if n =? 3 then PWrite (adr p_out (i, j)) true PRet else PRet)).
Lemma move_ok q x d : 0 <= x + d < 2 ^ 63 -> elem_add [(q, x)] [(q, d)] = Ok [(q, x + d)].
Proof.
  intros Hr. unfold elem_add, op_assign, uadd. cbn -[u64_add in_tags_v]. rewrite Nat.eqb_refl. unfold in_tags_v, get. cbn -[u64_add]. rewrite Nat.eqb_refl.
  cbn -[u64_add]. unfold u64_add, u64, two64. rewrite Z.mod_small by lia. reflexivity.
Qed.
Lemma call_ok i j : 1 <= i < L - 1 -> 1 <= j < H - 1 -> life_call G_in G_out (el i j) = Ok (call_prog i j).
Proof.
  intros Hi Hj. unfold life_call.
  change (select [gx] (el i j)) with (Ok (A := tagged) [(gx, i)]). change (select [gy] (el i j)) with (Ok (A := tagged) [(gy, j)]). cbn [rbind].
  assert (Hw : window G_in [(gx, i)] [(gy, j)] = Ok (map (adr p_in) (at9 i j))).
  { unfold window. rewrite (map_res_in _ (fun d => adr p_in (i + fst d, j + snd d))).
    - unfold at9. cbn [map fst snd]. rewrite !Z.add_0_r. repeat f_equal; lia.
    - intros [u v] Hd. assert (Hu : -1 <= u <= 1 /\ -1 <= v <= 1).
      { cbn in Hd. repeat destruct Hd as [Hd|Hd]; try (injection Hd as <- <-; lia). destruct Hd. }
      cbn [fst snd]. rewrite !move_ok by lia. cbn [rbind]. unfold adr. cbn [fst snd]. apply (grid_at gx gy gxy); auto using life_sized; lia. }
  rewrite Hw. cbn [rbind]. rewrite !(grid_at gx gy gxy _ L H i j) by (auto using life_sized; lia). cbn [rbind]. reflexivity.
Qed.
Lemma count_within (R W : Z -> Prop) l : forall n k, (forall a, In a l -> R a) -> (forall n, within R W (k n)) -> within R W (count_alive l n k).
Proof.
  induction l as [|a l IH]; intros n k Hl Hk; cbn [count_alive]; auto. constructor; [left; apply Hl; now left|].
  intros v. apply IH; auto. intros b Hb. apply Hl. now right.
Qed.
Lemma count_run (m : memory bool) l : forall n k,
  run_alone (count_alive l n k) m = run_alone (k (n + Z.of_nat (length (filter m l)))) m.
Proof.
  induction l as [|a l IH]; intros n k; cbn [count_alive run_alone filter length]; [now rewrite Z.add_0_r|].
  rewrite IH. f_equal. f_equal. destruct (m a); cbn [length]; lia.
Qed.
Lemma in_at9 i j c : 1 <= i < L - 1 -> 1 <= j < H - 1 -> In c (at9 i j) -> 0 <= fst c < L /\ 0 <= snd c < H.
Proof. intros Hi Hj Hc. cbn in Hc. repeat destruct Hc as [<-|Hc]; try (cbn [fst snd]; lia); destruct Hc. Qed.
(** Counting the cell itself and leaving it out afterwards counts its neighbours. *)
Lemma count9 (m : memory bool) i j :
  Z.of_nat (length (filter m (map (adr p_in) (at9 i j)))) =
  Z.of_nat (neighbours (val m p_in H) i j) + (if val m p_in H i j then 1 else 0).
Proof.
  unfold neighbours. set (b := val m p_in H).
  assert (E : forall l, length (filter m (map (adr p_in) l)) = length (filter (fun c => b (fst c) (snd c)) l)).
  { induction l as [|c l IH]; cbn [map filter]; auto. change (m (adr p_in c)) with (b (fst c) (snd c)).
    destruct (b (fst c) (snd c)); cbn [length]; lia. }
  rewrite E. unfold at9, around. cbn [filter fst snd]. rewrite !Z.add_0_r.
  change (i + -1) with (i - 1). change (j + -1) with (j - 1).
  destruct (b (i - 1) (j - 1)), (b (i - 1) j), (b (i - 1) (j + 1)), (b i (j - 1)), (b i j), (b i (j + 1)), (b (i + 1) (j - 1)), (b (i + 1) j), (b (i + 1) (j + 1)); reflexivity.
Qed.

Lemma life_kernel m : 
  (forall i j, 0 <= i < L -> 0 <= j < H -> val m p_out H i j = val m p_in H i j) ->
  (exists c m', parallel_for_each (dom2 1 (L - 1) 1 (H - 1)) (life_call G_in G_out) c m = Ok m') /\
  (forall c m', parallel_for_each (dom2 1 (L - 1) 1 (H - 1)) (life_call G_in G_out) c m = Ok m' ->
    (forall i j, 0 <= i < L -> 0 <= j < H -> val m' p_out H i j = life L H (val m p_in H) i j) /\
    (forall a, ~ (p_out <= a < p_out + L * H) -> m' a = m a)) /\
  (forall c, parallel_for_each (dom2 1 (L - 1) 1 (H - 1)) (life_call G_in G_out) c m <> Undef).
Proof.
  intros Hsame.
  destruct (for_each_run (dom2 1 (L - 1) 1 (H - 1)) (life_call G_in G_out) (fun e => call_prog (vf e gx) (vf e gy))
    (fun _ a => p_in <= a < p_in + L * H) (fun e a => a = adr p_out (vf e gx, vf e gy)) m) as (K1 & K2 & K3).
  - apply dom2_wf; [exact gxy|lia..].
  - intros e He. apply (in_trace2 gx gy gxy) in He as (i & j & -> & Hi & Hj). rewrite (vf_x gx gy), (vf_y gx gy gxy). now apply call_ok.
  - intros e He. apply (in_trace2 gx gy gxy) in He as (i & j & -> & Hi & Hj). rewrite (vf_x gx gy), (vf_y gx gy gxy). unfold call_prog.
    apply count_within.
    + intros a Ha. apply in_map_iff in Ha as (c & <- & Hc). destruct (in_at9 i j c Hi Hj Hc). now apply off_at.
    + intros n. constructor; [left; apply (off_at p_in i j); lia|]. intros [].
      * destruct ((n - 1 <? 2) || (3 <? n - 1)); repeat constructor.
      * destruct (n =? 3); repeat constructor.
  - intros e e' a He He' Hne ->. apply (in_trace2 gx gy gxy) in He as (i & j & -> & Hi & Hj). apply (in_trace2 gx gy gxy) in He' as (i' & j' & -> & Hi' & Hj').
    rewrite !(vf_x gx gy), !(vf_y gx gy gxy). unfold adr. cbn [fst snd]. split.
    + assert (A := off_at p_out i j ltac:(lia) ltac:(lia)). unfold apart, apart_blocks in A1. lia.
    + intros E. apply Hne. destruct (index_inj H i j i' j') as [-> ->]; auto; lia.
  - split; [exact K1|]. split; [|exact K3]. intros c m' E. destruct (K2 c m' E) as [W1 W2]. split.
    + intros i j Hi Hj. unfold life. destruct (inner_b L H i j) eqn:I.
      * unfold inner_b in I. change (val m' p_out H i j) with (m' (adr p_out (i, j))). rewrite (W1 (el i j)).
        2:{ apply (in_trace2 gx gy gxy). exists i, j. split; auto. lia. }
        2:{ now rewrite (vf_x gx gy), (vf_y gx gy gxy). }
        rewrite (vf_x gx gy), (vf_y gx gy gxy). unfold call_prog. rewrite count_run, count9. cbn [run_alone].
        assert (S := Hsame i j Hi Hj). unfold rule. change (m (adr p_in (i, j))) with (val m p_in H i j).
        change (val m p_out H i j) with (m (adr p_out (i, j))) in S.
        set (n := neighbours (val m p_in H) i j). destruct (val m p_in H i j) eqn:Ev.
        -- destruct ((0 + (Z.of_nat n + 1) - 1 <? 2) || (3 <? 0 + (Z.of_nat n + 1) - 1)) eqn:C; cbn [run_alone].
           ++ unfold mem_write. rewrite Z.eqb_refl. symmetry. apply orb_false_iff. rewrite !Nat.eqb_neq. lia.
           ++ rewrite S. symmetry. apply orb_true_iff. rewrite !Nat.eqb_eq. lia.
        -- destruct (0 + (Z.of_nat n + 0) =? 3) eqn:C; cbn [run_alone].
           ++ unfold mem_write. rewrite Z.eqb_refl. symmetry. apply Nat.eqb_eq. lia.
           ++ rewrite S. symmetry. apply Nat.eqb_neq. lia.
      * rewrite <- Hsame by auto. unfold val. apply W2. intros e He Ee. apply (in_trace2 gx gy gxy) in He as (i' & j' & -> & Hi' & Hj').
        rewrite !(vf_x gx gy), !(vf_y gx gy gxy) in Ee. unfold adr in Ee. cbn [fst snd] in Ee.
        destruct (index_inj H i j i' j') as [-> ->]; try lia. unfold inner_b in I. lia.
    + intros a Ha. apply W2. intros e He ->. apply Ha. apply (in_trace2 gx gy gxy) in He as (i & j & -> & Hi & Hj).
      rewrite !(vf_x gx gy), !(vf_y gx gy gxy). apply (off_at p_out i j); lia.
Qed.

(** The boards of the successive generations. *)
Fixpoint gen (k : nat) : board := match k with O => blinker | S k' => life L H (gen k') end.
Lemma cells_listed b : listed 0 L 0 H b = cells L H b.
Proof.
  unfold GridProofs.listed, cells, zrange. rewrite !Z.sub_0_r. generalize (seq 0 (Z.to_nat L)). intros l. induction l as [|x l IH]; cbn [map flat_map]; auto.
  rewrite IH. f_equal. rewrite map_map. apply map_ext. intros y. f_equal; lia.
Qed.
Lemma shown_host m b : (forall i j, 0 <= i < L -> 0 <= j < H -> val m p_host H i j = b i j) -> contents m G_host = Ok (cells L H b).
Proof.
  intros E. rewrite <- cells_listed. apply (contents2 gx gy gxy); [reflexivity|apply dom2_wf; [exact gxy|lia..]|].
  intros i j Hi Hj. rewrite (grid_read gx gy gxy) by auto using life_sized. now rewrite E.
Qed.
Definition holds (m : memory bool) (b : board) : Prop :=
  forall i j, 0 <= i < L -> 0 <= j < H -> val m p_in H i j = b i j /\ val m p_out H i j = b i j.
Lemma val_frame (m m' : memory bool) p q i j : apart p q -> (forall a, ~ (p <= a < p + L * H) -> m' a = m a) ->
  0 <= i < L -> 0 <= j < H -> val m' q H i j = val m q H i j.
Proof. intros A F Hi Hj. apply F. assert (B := off_at q i j Hi Hj). unfold apart, apart_blocks in A. lia. Qed.
Lemma apart_sym p q : apart p q -> apart q p. Proof. unfold apart, apart_blocks. tauto. Qed.

Lemma iteration_ok k m shown : holds m (gen k) ->
  outcome (fun ss => life_iteration (dom2 1 (L - 1) 1 (H - 1)) G_in G_out G_host g (mk_machine m ss, shown))
    (fun f => exists m', holds m' (gen (S k)) /\ f = fun ss => (mk_machine m' ss, shown ++ [cells L H (gen k)])).
Proof.
  intros Hh. unfold life_iteration.
  destruct (grid_copy gx gy gxy m p_host p_in L H (g 4%nat) (g 4%nat)) as (B1 & B2 & B3); auto using life_sized; try (unfold apart, apart_blocks in *; lia).
  eapply o_bind. { apply o_launch with (Q := fun m' => (forall i j, 0 <= i < L -> 0 <= j < H -> val m' p_host H i j = val m p_in H i j) /\ (forall a, ~ (p_host <= a < p_host + L * H) -> m' a = m a)); auto. }
  intros f (m1 & (V1 & F1) & ->). cbn [p_mem].
  assert (E1 : forall i j, 0 <= i < L -> 0 <= j < H -> val m1 p_in H i j = gen k i j /\ val m1 p_out H i j = gen k i j).
  { intros i j Hi Hj. rewrite (val_frame m m1 p_host p_in), (val_frame m m1 p_host p_out) by auto using apart_sym. now apply Hh. }
  rewrite (shown_host m1 (gen k)) by (intros i j Hi Hj; rewrite V1 by auto; now apply Hh). cbn [rbind].
  destruct (life_kernel m1) as (C1 & C2 & C3). { intros i j Hi Hj. destruct (E1 i j Hi Hj). congruence. }
  eapply o_bind. { apply o_launch with (Q := fun m' => (forall i j, 0 <= i < L -> 0 <= j < H -> val m' p_out H i j = life L H (val m1 p_in H) i j) /\ (forall a, ~ (p_out <= a < p_out + L * H) -> m' a = m1 a)); auto. }
  intros f (m2 & (V2 & F2) & ->).
  destruct (grid_copy gx gy gxy m2 p_in p_out L H (g 4%nat) (g 4%nat)) as (D1 & D2 & D3); auto using life_sized; try (unfold apart, apart_blocks in *; lia).
  eapply o_bind. { apply o_launch with (Q := fun m' => (forall i j, 0 <= i < L -> 0 <= j < H -> val m' p_in H i j = val m2 p_out H i j) /\ (forall a, ~ (p_in <= a < p_in + L * H) -> m' a = m2 a)); auto. }
  intros f (m3 & (V3 & F3) & ->). apply (o_ret (fun ss => (mk_machine m3 ss, shown ++ [cells L H (gen k)]))). exists m3. split; [|reflexivity].
  intros i j Hi Hj. assert (G : val m2 p_out H i j = gen (S k) i j).
  { rewrite V2 by auto. cbn [gen]. apply life_ext; auto. intros x y Hx Hy. now apply E1. }
  split; [now rewrite V3|]. rewrite (val_frame m2 m3 p_in p_out); auto.
Qed.

Lemma domains_ok : (domain_x <- init_trivial_bounded_space gx L ;; domain_y <- init_trivial_bounded_space gy H ;; dom_merge [gx; gy] [domain_x; domain_y]) = Ok (dom2 0 L 0 H) /\
  remove_both (dom2 0 L 0 H) [(gx, 1); (gy, 1)] [(gx, 1); (gy, 1)] = Ok (dom2 1 (L - 1) 1 (H - 1)).
Proof.
  assert (U : forall x, 0 <= x < 2 ^ 63 -> u64_add 0 x = x) by (intros x Hx; unfold u64_add, u64, two64; rewrite Z.mod_small; lia).
  assert (I : forall x, 0 <= x < 2 ^ 63 -> i64 (u64_sub x 0) = x).
  { intros x Hx. unfold i64, u64_sub, u64, two64, two63. rewrite Z.sub_0_r. rewrite (Z.mod_small x) by lia. rewrite Z.mod_small by lia. lia. }
  split.
  - unfold init_trivial_bounded_space.
    change (mk_domain [(gx, 0)] [(gx, L)]) with (Ok (A := domain) [(gx, (0, u64_add 0 L))]).
    change (mk_domain [(gy, 0)] [(gy, H)]) with (Ok (A := domain) [(gy, (0, u64_add 0 H))]). cbn [rbind]. rewrite !U by lia.
    change (dom_merge [gx; gy] [[(gx, (0, L))]; [(gy, (0, H))]]) with
      (Ok (A := domain) [(gx, (0, u64_add 0 (i64 (u64_sub L 0)))); (gy, (0, u64_add 0 (i64 (u64_sub H 0))))]).
    rewrite !I, !U by lia. reflexivity.
  - unfold remove_both. change (elem_add (front (dom2 0 L 0 H)) [(gx, 1); (gy, 1)]) with (Ok (A := tagged) [(gx, 1); (gy, 1)]).
    change (extents (dom2 0 L 0 H)) with (Ok (A := tagged) [(gx, i64 (u64_sub L 0)); (gy, i64 (u64_sub H 0))]). rewrite !I by lia. cbn [rbind].
    assert (S : forall a b, 1 <= a < 2 ^ 63 -> 1 <= b < 2 ^ 63 -> vect_sub [(gx, a); (gy, b)] [(gx, 1); (gy, 1)] = Ok [(gx, a - 1); (gy, b - 1)]).
    { intros a b Ha Hb. apply vect_sub2; unfold is_i64, two63; lia. }
    rewrite S by lia. cbn [rbind]. rewrite S by lia. cbn [rbind].
    change (mk_domain [(gx, 1); (gy, 1)] [(gx, L - 1 - 1); (gy, H - 1 - 1)]) with (Ok (A := domain) [(gx, (1, u64_add 1 (L - 1 - 1))); (gy, (1, u64_add 1 (H - 1 - 1)))]).
    unfold u64_add, u64, two64. rewrite !Z.mod_small by lia. replace (1 + (L - 1 - 1)) with (L - 1) by lia. replace (1 + (H - 1 - 1)) with (H - 1) by lia. reflexivity.
Qed.

Theorem life_run nt m : 0 <= nt ->
  outcome (fun ss => life_main nt L H p_in p_out p_host g (mk_machine m ss))
    (fun f => exists m', f = fun ss => (mk_machine m' ss, map (fun k => cells L H (gen k)) (seq 0 (S (Z.to_nat nt))))).
Proof.
  intros Hnt. unfold life_main. destruct domains_ok as [D1 D2].
  destruct (init_trivial_bounded_space gx L) as [dx| |]; cbn [rbind] in D1; try discriminate.
  destruct (init_trivial_bounded_space gy H) as [dy| |]; cbn [rbind] in D1; try discriminate. cbn [rbind]. rewrite D1. cbn [rbind]. rewrite D2. cbn [rbind].
  rewrite !(grid_alloc gx gy gxy) by apply life_sized. cbn [rbind].
  unfold create_mirror. change (s_dom G_in) with (dom2 0 L 0 H). change (m_lay (s_md G_in)) with LRight. cbv iota.
  rewrite !(grid_alloc gx gy gxy) by apply life_sized. cbn [rbind].
  assert (A := alive_dom). unfold blinker_init at 1. destruct (remove_first (dom2 0 L 0 H) [(gx, 1); (gy, 2)]) as [d0| |] eqn:R; cbn [rbind] in A; try discriminate.
  cbn [rbind]. rewrite A. cbn [rbind].
  destruct (blinker_kernel p_in m) as (K1 & K2 & K3).
  eapply o_bind. { apply o_launch with (Q := fun m' => (forall i j, 0 <= i < L -> 0 <= j < H -> val m' p_in H i j = blinker i j) /\ (forall a, ~ (p_in <= a < p_in + L * H) -> m' a = m a)); auto. }
  intros f (m1 & (V1 & F1) & ->).
  unfold blinker_init. rewrite R. cbn [rbind]. rewrite A. cbn [rbind].
  destruct (blinker_kernel p_out m1) as (J1 & J2 & J3).
  eapply o_bind. { apply o_launch with (Q := fun m' => (forall i j, 0 <= i < L -> 0 <= j < H -> val m' p_out H i j = blinker i j) /\ (forall a, ~ (p_out <= a < p_out + L * H) -> m' a = m1 a)); auto. }
  intros f (m2 & (V2 & F2) & ->).
  eapply o_bind.
  { apply (o_for (fun i f => exists m', holds m' (gen (Z.to_nat i)) /\ f = fun ss => (mk_machine m' ss, map (fun k => cells L H (gen k)) (seq 0 (Z.to_nat i))))
      (fun _ => life_iteration (dom2 1 (L - 1) 1 (H - 1)) G_in G_out G_host g) 0 nt (fun ss => (mk_machine m2 ss, []))); auto.
    - exists m2. split; [|reflexivity]. intros i j Hi Hj. split; [|now apply V2]. rewrite (val_frame m1 m2 p_out p_in) by auto using apart_sym. now apply V1.
    - intros i f Hi (m3 & Hh & ->). eapply o_weaken; [|apply iteration_ok; exact Hh]. cbn beta. intros f (m4 & H4 & ->). exists m4.
      replace (Z.to_nat (i + 1)) with (S (Z.to_nat i)) by lia. split; auto. rewrite seq_S, map_app. reflexivity. }
  cbn beta. intros f (m3 & Hh & ->). cbv beta iota.
  destruct (grid_copy gx gy gxy m3 p_host p_in L H (g 4%nat) (g 4%nat)) as (B1 & B2 & B3); auto using life_sized; try (unfold apart, apart_blocks in *; lia).
  eapply o_bind. { apply o_launch with (Q := fun m' => (forall i j, 0 <= i < L -> 0 <= j < H -> val m' p_host H i j = val m3 p_in H i j) /\ (forall a, ~ (p_host <= a < p_host + L * H) -> m' a = m3 a)); auto. }
  intros f (m4 & (V4 & F4) & ->). cbn [p_mem].
  rewrite (shown_host m4 (gen (Z.to_nat nt))) by (intros i j Hi Hj; rewrite V4 by auto; now apply Hh). cbn [rbind].
  apply (o_ret (fun ss => (mk_machine m4 ss, _))). exists m4. rewrite seq_S, map_app. reflexivity.
Qed.
End Life.
