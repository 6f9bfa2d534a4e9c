From Verif Require Import Machine MachineProofs TypeSeqModel TypeSeqProofs TaggedModel TaggedSpec TaggedProofs
  DomainModel DomainSpec DomainProofs ListAux DomainProofs2 BlockModel BlockSpec.

(** * Pieces of one interval *)
Definition start (n nb i : Z) : Z := i * (n / nb) + Z.min i (n mod nb).
Lemma start_0 n nb : 0 <= n -> 0 < nb -> start n nb 0 = 0.
Proof. intros. unfold start. pose proof (Z.mod_pos_bound n nb). lia. Qed.
Lemma start_end n nb : 0 <= n -> 0 < nb -> start n nb nb = n.
Proof. intros. unfold start. pose proof (Z.mod_pos_bound n nb). pose proof (Z.div_mod n nb). lia. Qed.
Lemma start_step n nb i : 0 <= n -> 0 < nb -> start n nb (i + 1) = start n nb i + compute_block n nb i.
Proof.
  intros. unfold start, compute_block. rewrite Z.rem_mod_nonneg, Z.quot_div_nonneg by lia.
  destruct (Z.ltb_spec i (n mod nb)); nia.
Qed.
Lemma compute_block_bounds n nb i : 0 <= n -> 0 < nb -> n / nb <= compute_block n nb i <= n / nb + 1.
Proof. intros. unfold compute_block. rewrite Z.rem_mod_nonneg, Z.quot_div_nonneg by lia. destruct (_ <? _); lia. Qed.
Lemma start_mono n nb i j : 0 <= n -> 0 < nb -> i <= j -> start n nb i <= start n nb j.
Proof.
  intros. unfold start. pose proof (Z.div_pos n nb). nia.
Qed.
Lemma piece_exists n nb x : 0 <= n -> 0 < nb -> 0 <= x < n -> exists i, 0 <= i < nb /\ start n nb i <= x < start n nb (i + 1).
Proof.
  intros Hn Hnb Hx.
  assert (G : forall k : nat, x < start n nb (Z.of_nat k) -> exists i, 0 <= i < Z.of_nat k /\ start n nb i <= x < start n nb (i + 1)).
  { induction k as [|k IH]; intros Hk.
    - change (Z.of_nat 0) with 0 in Hk. rewrite start_0 in Hk by lia. lia.
    - destruct (Z.lt_ge_cases x (start n nb (Z.of_nat k))) as [L|L].
      + destruct (IH L) as (i & ? & ?). exists i. split; [lia|auto].
      + exists (Z.of_nat k). split; [lia|]. replace (Z.of_nat k + 1) with (Z.of_nat (S k)) by lia. auto. }
  destruct (G (Z.to_nat nb)) as (i & Hi & Hs).
  - rewrite Z2Nat.id by lia. rewrite start_end; lia.
  - exists i. split; [lia|auto].
Qed.
Lemma piece_unique n nb x i j : 0 <= n -> 0 < nb -> start n nb i <= x < start n nb (i + 1) -> start n nb j <= x < start n nb (j + 1) -> i = j.
Proof.
  intros Hn Hnb Hi Hj. destruct (Z.lt_trichotomy i j) as [L|[L|L]]; auto; exfalso.
  - pose proof (start_mono n nb (i + 1) j). lia.
  - pose proof (start_mono n nb (j + 1) i). lia.
Qed.

(** * Blocks as a list *)
Definition piece (p : tag * (Z * Z)) (nb i : Z) : tag * (Z * Z) :=
  let n := snd (snd p) - fst (snd p) in
  (fst p, (fst (snd p) + start n nb i, fst (snd p) + start n nb (i + 1))).
Fixpoint block_at (d : domain) (nbs is : list Z) : domain :=
  match d, nbs, is with
  | p :: d', nb :: nbs', i :: is' => piece p nb i :: block_at d' nbs' is'
  | _, _, _ => []
  end.

Lemma dom_list_eq (a b : domain) : ddims a = ddims b -> NoDup (ddims a) -> (forall q x f, In (q, (x, f)) a -> In (q, (x, f)) b) -> a = b.
Proof.
  revert b. induction a as [|(q, (x, f)) a IH]; intros [|(q', (x', f')) b] Hd Hn Hi; try discriminate; auto.
  cbn in Hd, Hn. injection Hd as -> Hd. apply NoDup_cons_iff in Hn as [Hq Hn]. f_equal.
  - destruct (Hi q' x f) as [E|E]; [now left|auto|]. exfalso. apply Hq. rewrite Hd. apply (in_map fst) in E. exact E.
  - apply IH; auto. intros q x0 f0 Hin. destruct (Hi q x0 f0) as [E|E]; [now right| |auto].
    exfalso. injection E as -> _ _. apply Hq. apply (in_map fst) in Hin. exact Hin.
Qed.
Lemma one_wf q b f : dom_wf [(q, (b, f))] <-> 0 <= b /\ b <= f < 2 ^ 64 /\ f - b < 2 ^ 63.
Proof.
  unfold dom_wf. split.
  - intros [_ H]. now inversion H.
  - intros H. split; [repeat constructor; simpl; tauto|]. repeat constructor; simpl; tauto.
Qed.
Lemma cut_one q b f n : b <= f -> f - b < 2 ^ 63 -> 0 <= n <= f - b -> cut_ok [(q, (b, f))] [(q, n)].
Proof.
  intros. split; [|split].
  - split; [repeat constructor; simpl; tauto|]. constructor; [|constructor]. unfold is_i64. change two63 with (2 ^ 63). cbn [snd]. lia.
  - intros; simpl; tauto.
  - intros q0 b0 f0 y [E|[]] [E'|[]]. injection E as <- <- <-. injection E' as <- . auto.
Qed.
Lemma take_one q b f n : dom_wf [(q, (b, f))] -> 0 <= n <= f - b -> take_first [(q, (b, f))] [(q, n)] = Ok [(q, (b, b + n))].
Proof.
  intros Hw Hn. pose proof Hw as Hw'. apply one_wf in Hw'. destruct (take_first_spec [(q, (b, f))] [(q, n)]) as (r & E & Hr & Hd & Hi); auto.
  { apply cut_one; lia. }
  rewrite E. f_equal. apply dom_list_eq; [now rewrite Hd|rewrite Hd; apply Hw|].
  intros q0 x0 f0 H. apply Hi in H as (y & f1 & [E1|[]] & [E2|[]] & ->). injection E1 as <- <-. injection E2 as <- <-. now left.
Qed.
Lemma remove_one q b f n : dom_wf [(q, (b, f))] -> 0 <= n <= f - b -> remove_first [(q, (b, f))] [(q, n)] = Ok [(q, (b + n, f))].
Proof.
  intros Hw Hn. pose proof Hw as Hw'. apply one_wf in Hw'. destruct (remove_first_spec [(q, (b, f))] [(q, n)]) as (r & E & Hr & Hd & Hi); auto.
  { apply cut_one; lia. }
  rewrite E. f_equal. apply dom_list_eq; [now rewrite Hd|rewrite Hd; apply Hw|].
  intros q0 x0 f0 H. apply Hi in H as (y & f1 & [E1|[]] & [E2|[]] & ->). injection E1 as <- <-. injection E2 as <- <-. now left.
Qed.
Lemma select_one d q b f : dom_wf d -> In (q, (b, f)) d -> dom_select [q] d = Ok [(q, (b, f))].
Proof.
  intros Hw Hi. unfold dom_select. destruct (dom_merge_spec [q] [d]) as (r & E & Hd & Hr & Hm).
  - constructor; auto.
  - simpl. rewrite app_nil_r. apply Hw.
  - repeat constructor; simpl; tauto.
  - intros q' [<-|[]]. simpl. rewrite app_nil_r. apply ddims_in. eauto.
  - rewrite E. f_equal. apply dom_list_eq; [exact Hd|apply Hr|].
    intros q0 x0 f0 H. apply Hm in H as ([<-|[]] & d0 & [<-|[]] & H).
    destruct (dom_fun d q b f x0 f0) as [-> ->]; auto; [apply Hw | now left].
Qed.
Lemma extent_one d q b f : dom_wf d -> In (q, (b, f)) d -> extent_of q d = Ok (f - b).
Proof.
  intros Hw Hi. unfold extent_of.
  assert (E : get q (dom_end d) = Ok f) by (apply get_spec; [rewrite dims_dom_end; apply Hw | apply val_dom_end; eauto]).
  assert (E' : get q (dom_begin d) = Ok b) by (apply get_spec; [rewrite dims_dom_begin; apply Hw | apply val_dom_begin; eauto]).
  rewrite E, E'. cbn [rbind]. f_equal. exact (extent1_wf d q b f Hw Hi).
Qed.
Lemma merge_parts ds : Forall dom_wf ds -> NoDup (concat (map ddims ds)) -> dom_merge (concat (map ddims ds)) ds = Ok (concat ds).
Proof.
  intros Hw Hn. destruct (dom_merge_spec (concat (map ddims ds)) ds) as (r & E & Hd & Hr & Hm); auto using incl_refl.
  rewrite E. f_equal. apply dom_list_eq.
  - rewrite Hd. unfold ddims. now rewrite concat_map.
  - now rewrite Hd.
  - intros q x f H. apply Hm in H as (_ & d0 & H1 & H2). apply in_concat. eauto.
Qed.

Lemma fold_res_ok {S A} (g : S -> A -> res S) (h : S -> A -> S) l : forall s,
  (forall s a, In a l -> g s a = Ok (h s a)) ->
  fold_left (fun st a => rbind st (fun s => g s a)) l (Ok s) = Ok (fold_left h l s).
Proof.
  induction l as [|a l IH]; intros s H; simpl; auto. rewrite H by now left. apply IH. intros; apply H; now right.
Qed.

Lemma zrange_nat n : 0 <= n -> forall k : nat, Z.of_nat k = n -> zrange n = map Z.of_nat (seq 0 k).
Proof. intros. unfold zrange. now replace (Z.to_nat n) with k by lia. Qed.

Lemma rec_ok {S} d (f : domain -> S -> S) : dom_wf d -> forall todo pre d2 s,
  d = pre ++ d2 -> dims todo = ddims d2 -> (forall q nb, val_of todo q nb -> 0 < nb) ->
  forall doms, map ddims doms = map (fun p => [fst p]) pre -> Forall dom_wf doms ->
  for_each_block_rec d todo f doms s =
  Ok (fold_left (fun s b => f b s) (map (fun is => concat doms ++ block_at d2 (values todo) is) (box (values todo))) s).
Proof.
  intros Hw. induction todo as [|(q, nb) todo IH]; intros pre d2 s Ed Hdim Hpos doms Hdd Hdw.
  - destruct d2 as [|p d2]; [|discriminate]. cbn [for_each_block_rec values map box fold_left block_at].
    rewrite app_nil_r in *. subst pre.
    assert (E : concat (map ddims doms) = ddims d).
    { rewrite Hdd. unfold ddims. clear. induction d as [|p d IH]; simpl; congruence. }
    rewrite <- E. rewrite merge_parts; auto. rewrite E. apply Hw.
  - destruct d2 as [|(q', (b, f')) d2]; [discriminate|]. cbn in Hdim. injection Hdim as <- Hdim.
    assert (Hin : In (q, (b, f')) d) by (rewrite Ed; apply in_or_app; right; now left).
    assert (Hnb : 0 < nb) by (apply (Hpos q); now left).
    pose proof (dom_wf_at d q b f' Hw Hin) as Hb.
    cbn [for_each_block_rec]. rewrite (extent_one d q b f') by auto. cbn [rbind].
    destruct (Z.eqb_spec nb 0) as [?|_]; [lia|]. rewrite (select_one d q b f') by auto. cbn [rbind].
    set (n := f' - b) in *.
    assert (G : forall k : nat, Z.of_nat k <= nb ->
      fold_left (fun st ib => rbind st (fun st' =>
               let block := [(q, compute_block n nb ib)] in
               rbind (take_first (fst st') block) (fun piece =>
               rbind (for_each_block_rec d todo f (doms ++ [piece]) (snd st')) (fun s' =>
               rbind (remove_first (fst st') block) (fun dom1d' => Ok (dom1d', s'))))))
             (map Z.of_nat (seq 0 k)) (Ok ([(q, (b, f'))], s)) =
      Ok ([(q, (b + start n nb (Z.of_nat k), f'))],
          fold_left (fun s b => f b s) (flat_map (fun i => map (fun is => concat doms ++ piece (q, (b, f')) nb i :: block_at d2 (values todo) is) (box (values todo))) (map Z.of_nat (seq 0 k))) s)).
    { induction k as [|k IHk]; intros Hk.
      - simpl. rewrite start_0 by lia. now rewrite Z.add_0_r.
      - rewrite seq_S, !map_app, fold_left_app, IHk by lia. cbn [map fold_left Nat.add rbind].
        set (st := start n nb (Z.of_nat k)). set (c := compute_block n nb (Z.of_nat k)).
        pose proof (start_step n nb (Z.of_nat k)) as Hst. fold st c in Hst.
        pose proof (start_mono n nb 0 (Z.of_nat k)) as Hm0. rewrite start_0 in Hm0 by lia. fold st in Hm0.
        pose proof (start_mono n nb (Z.of_nat k + 1) nb) as Hm1. rewrite start_end in Hm1 by lia.
        pose proof (compute_block_bounds n nb (Z.of_nat k)) as Hcb. fold c in Hcb. pose proof (Z.div_pos n nb).
        assert (Hw1 : dom_wf [(q, (b + st, f'))]) by (apply one_wf; lia).
        cbn [fst snd]. rewrite take_one by (auto; lia). cbn [rbind].
        rewrite (IH (pre ++ [(q, (b, f'))]) d2).
        + cbn [rbind]. rewrite remove_one by (auto; lia). cbn [rbind]. f_equal. f_equal.
          * replace (Z.of_nat (Datatypes.S k)) with (Z.of_nat k + 1) by lia. rewrite Hst by lia. now rewrite Z.add_assoc.
          * rewrite flat_map_app, fold_left_app. cbn [flat_map]. rewrite app_nil_r. f_equal.
            apply map_ext. intros is. rewrite concat_app. cbn [concat]. rewrite <- !app_assoc. cbn [app]. unfold piece. cbn [fst snd]. fold n st.
            rewrite Hst by lia. now rewrite Z.add_assoc.
        + rewrite <- app_assoc. exact Ed.
        + exact Hdim.
        + intros q0 nb0 Hv. apply (Hpos q0). now right.
        + rewrite !map_app, Hdd. reflexivity.
        + apply Forall_app. split; auto. constructor; auto. apply one_wf. lia. }
    rewrite (zrange_nat nb) with (k := Z.to_nat nb) by lia. rewrite G by lia. cbn [rbind snd]. f_equal. f_equal.
    change (values ((q, nb) :: todo)) with (nb :: values todo). cbn [box].
    rewrite (zrange_nat nb) with (k := Z.to_nat nb) by lia.
    rewrite !flat_map_concat_map, concat_map. f_equal. rewrite !map_map. apply map_ext. intros i. rewrite !map_map. reflexivity.
Qed.

Definition blocks (d : domain) (nbs : list Z) : list domain := map (block_at d nbs) (box nbs).

Lemma block_at_dims d nbs is : length nbs = length d -> length is = length d -> ddims (block_at d nbs is) = ddims d.
Proof.
  revert nbs is. induction d as [|p d IH]; intros [|nb nbs] [|i is] H1 H2; try discriminate; simpl; auto.
  f_equal. apply IH; auto.
Qed.
(** entry [k] *)
Lemma block_at_nth d nbs is k : length nbs = length d -> length is = length d ->
  nth_error (block_at d nbs is) k =
  match nth_error d k, nth_error nbs k, nth_error is k with Some p, Some nb, Some i => Some (piece p nb i) | _, _, _ => None end.
Proof.
  revert nbs is k. induction d as [|p d IH]; intros [|nb nbs] [|i is] [|k] H1 H2; try discriminate; simpl; auto.
Qed.
Lemma nth_some {A} (l : list A) k : (k < length l)%nat -> exists x, nth_error l k = Some x.
Proof. intros H. destruct (nth_error l k) eqn:E; eauto. apply nth_error_None in E. lia. Qed.
Lemma block_in d nbs is q x y : length nbs = length d -> length is = length d ->
  In (q, (x, y)) (block_at d nbs is) <-> exists k b f nb i, nth_error d k = Some (q, (b, f)) /\ nth_error nbs k = Some nb /\ nth_error is k = Some i /\
    x = b + start (f - b) nb i /\ y = b + start (f - b) nb (i + 1).
Proof.
  intros H1 H2. split.
  - intros H. apply In_nth_error in H as [k H]. rewrite block_at_nth in H by auto.
    destruct (nth_error d k) as [(q', (b, f))|] eqn:Ed; [|discriminate]. destruct (nth_error nbs k) as [nb|] eqn:En; [|discriminate].
    destruct (nth_error is k) as [i|] eqn:Ei; [|discriminate]. unfold piece in H. cbn in H. injection H as <- <- <-.
    exists k, b, f, nb, i. auto.
  - intros (k & b & f & nb & i & Ed & En & Ei & -> & ->). apply (nth_error_In _ k). rewrite block_at_nth by auto.
    rewrite Ed, En, Ei. reflexivity.
Qed.
Lemma Forall2_nth {A B} (R : A -> B -> Prop) a b : Forall2 R a b <-> length a = length b /\ forall k x y, nth_error a k = Some x -> nth_error b k = Some y -> R x y.
Proof.
  split.
  - intros H. split; [now apply Forall2_len with (R := R)|]. induction H; intros [|k] x' y' Hx Hy; try discriminate.
    + injection Hx as <-. injection Hy as <-. auto.
    + eapply IHForall2; eauto.
  - intros [Hl H]. revert b Hl H. induction a as [|x a IH]; intros [|y b] Hl H; try discriminate; constructor.
    + apply (H O); auto.
    + apply IH; [now injection Hl|]. intros k x0 y0. apply (H (S k)).
Qed.
Lemma choose_list {A B} (P : A -> B -> Prop) (l : list A) : (forall a, In a l -> exists b, P a b) -> exists r, Forall2 P l r.
Proof.
  induction l as [|a l IH]; intros H.
  - exists []. constructor.
  - destruct (H a) as [b Hb]; [now left|]. destruct IH as [r Hr]; [intros; apply H; now right|]. exists (b :: r). now constructor.
Qed.
Lemma nth_error_combine_some {A B} (a : list A) (b : list B) k x y : nth_error a k = Some x -> nth_error b k = Some y -> nth_error (combine a b) k = Some (x, y).
Proof. revert b k. induction a as [|a0 a IH]; intros [|b0 b] [|k] Ha Hb; try discriminate; simpl in *; [congruence|auto]. Qed.

Lemma blocks_partition d nbs : dom_wf d -> length nbs = length d -> Forall (fun nb => 0 < nb) nbs ->
  partition d (blocks d nbs) /\ balanced (blocks d nbs) /\ Z.of_nat (length (blocks d nbs)) = product nbs.
Proof.
  intros Hw Hl Hp.
  assert (Hlen : forall is, In is (box nbs) -> length is = length d).
  { intros is H. apply in_box_list, Forall2_len in H. congruence. }
  assert (Hnn : forall k nb, nth_error nbs k = Some nb -> 0 < nb) by (intros k nb H; rewrite Forall_forall in Hp; apply Hp; eapply nth_error_In; eauto).
  assert (Hext : forall k q b f, nth_error d k = Some (q, (b, f)) -> 0 <= b /\ b <= f < 2 ^ 64 /\ f - b < 2 ^ 63)
    by (intros k q b f H; eapply dom_wf_at; eauto; eapply nth_error_In; eauto).
  assert (Hbound : forall k q b f nb i is, In is (box nbs) -> nth_error d k = Some (q, (b, f)) -> nth_error nbs k = Some nb -> nth_error is k = Some i ->
     0 <= i < nb /\ 0 <= start (f - b) nb i <= start (f - b) nb (i + 1) /\ start (f - b) nb (i + 1) <= f - b).
  { intros k q b f nb i is Hib Hd Hn Hi. apply in_box_list, Forall2_nth in Hib as [_ Hib]. specialize (Hib k i nb Hi Hn).
    pose proof (Hext _ _ _ _ Hd). pose proof (Hnn _ _ Hn).
    pose proof (start_mono (f - b) nb 0 i). rewrite start_0 in H1 by lia.
    pose proof (start_mono (f - b) nb i (i + 1)). pose proof (start_mono (f - b) nb (i + 1) nb). rewrite start_end in H3 by lia. lia. }
  assert (Hsub : Forall (sub_block d) (blocks d nbs)).
  { apply Forall_forall. intros b Hb. apply in_map_iff in Hb as (is & <- & Hib). pose proof (Hlen _ Hib) as Hli.
    assert (Hbw : dom_wf (block_at d nbs is)).
    { split; [rewrite block_at_dims by auto; apply Hw|]. apply Forall_forall. intros (q, (x, y)) H.
      apply block_in in H as (k & b & f & nb & i & Ed & En & Ei & -> & ->); auto.
      pose proof (Hbound _ _ _ _ _ _ _ Hib Ed En Ei). pose proof (Hext _ _ _ _ Ed). cbn [fst snd]. lia. }
    split; [exact Hbw|]. split; [now apply block_at_dims|].
    intros e [[He1 He2] He3]. split.
    - split; auto. intros q. rewrite He2. rewrite block_at_dims by auto. tauto.
    - intros q b f Hin. apply In_nth_error in Hin as [k Ed].
      assert (Hk : (k < length d)%nat) by (apply nth_error_Some; congruence).
      destruct (nth_some nbs k) as [nb En]; [lia|]. destruct (nth_some is k) as [i Ei]; [lia|].
      destruct (He3 q (b + start (f - b) nb i) (b + start (f - b) nb (i + 1))) as (x & Hx & Hxx).
      { apply block_in; auto. exists k, b, f, nb, i. auto. }
      exists x. split; auto. pose proof (Hbound _ _ _ _ _ _ _ Hib Ed En Ei). lia. }
  split; [split; [exact Hsub|]|split].
  - intros e [[He1 He2] He3].
    destruct (choose_list (fun pn i => let '((q, (b, f)), nb) := pn in forall x, val_of e q x -> 0 <= i < nb /\ b + start (f - b) nb i <= x < b + start (f - b) nb (i + 1)) (combine d nbs)) as [is His].
    { intros ((q, (b, f)), nb) Hin. pose proof (in_combine_l _ _ _ _ Hin) as Hd. pose proof (in_combine_r _ _ _ _ Hin) as Hn.
      destruct (He3 q b f Hd) as (x & Hx & Hxx). rewrite Forall_forall in Hp. specialize (Hp nb Hn).
      destruct (piece_exists (f - b) nb (x - b)) as (i & Hi & Hs); [lia|lia|lia|].
      exists i. intros x' Hx'. replace x' with x by (eapply val_of_fun; eauto). lia. }
    apply Forall2_nth in His as [Hlis His]. rewrite combine_length, Hl, Nat.min_id in Hlis.
    assert (Hall : forall k q b f nb i x, nth_error d k = Some (q, (b, f)) -> nth_error nbs k = Some nb -> nth_error is k = Some i -> val_of e q x ->
       0 <= i < nb /\ b + start (f - b) nb i <= x < b + start (f - b) nb (i + 1)).
    { intros k q b f nb i x Ed En Ei Hx. specialize (His k ((q, (b, f)), nb) i). rewrite (nth_error_combine_some d nbs k (q, (b, f)) nb) in His; auto. }
    assert (Hib : In is (box nbs)).
    { apply in_box_list, Forall2_nth. split; [lia|]. intros k i nb Ei En.
      assert (Hk : (k < length d)%nat) by (rewrite <- Hl; apply nth_error_Some; congruence).
      destruct (nth_some d k Hk) as [(q, (b, f)) Ed]. destruct (He3 q b f) as (x & Hx & _); [eapply nth_error_In; eauto|].
      eapply Hall; eauto. }
    pose proof Hib as Hib'. apply In_nth_error in Hib' as [k0 Hk0].
    exists k0. split.
    + exists (block_at d nbs is). split; [unfold blocks; now rewrite nth_error_map, Hk0|].
      split; [split; auto; intros q; rewrite He2, block_at_dims by auto; tauto|].
      intros q x y Hin. apply block_in in Hin as (k & b & f & nb & i & Ed & En & Ei & -> & ->); auto.
      destruct (He3 q b f) as (x & Hx & _); [eapply nth_error_In; eauto|]. exists x. split; auto. eapply Hall; eauto.
    + intros k' b' Hk' [_ Hb']. unfold blocks in Hk'. rewrite nth_error_map in Hk'. destruct (nth_error (box nbs) k') as [js|] eqn:Ej; [|discriminate].
      injection Hk' as <-. assert (Hjb : In js (box nbs)) by (eapply nth_error_In; eauto). pose proof (Hlen _ Hjb) as Hlj.
      assert (js = is).
      { apply nth_ext with (d := 0) (d' := 0); [lia|]. intros k Hk.
        destruct (nth_some d k) as [(q, (b, f)) Ed]; [lia|]. destruct (nth_some nbs k) as [nb En]; [lia|].
        destruct (nth_some is k) as [i Ei]; [lia|]. destruct (nth_some js k) as [j Ej']; [lia|].
        rewrite (nth_error_nth _ _ _ Ei), (nth_error_nth _ _ _ Ej').
        destruct (He3 q b f) as (x & Hx & _); [eapply nth_error_In; eauto|].
        destruct (Hb' q (b + start (f - b) nb j) (b + start (f - b) nb (j + 1))) as (x' & Hx' & Hxx').
        { apply block_in; auto. exists k, b, f, nb, j. auto. }
        replace x' with x in Hxx' by (eapply val_of_fun; eauto).
        destruct (Hall k q b f nb i x) as [? ?]; auto.
        pose proof (Hext _ _ _ _ Ed). pose proof (Hnn _ _ En).
        apply (piece_unique (f - b) nb (x - b)); lia. }
      subst js. apply (proj1 (NoDup_nth_error (box nbs))); [|apply nth_error_Some; congruence|congruence].
      eapply sorted_nodup; [|apply box_sorted]. apply lex_irrefl.
  - intros b1 b2 q x1 y1 x2 y2 H1 H2 Hi1 Hi2. apply in_map_iff in H1 as (is & <- & H1). apply in_map_iff in H2 as (js & <- & H2).
    apply block_in in Hi1 as (k & b & f & nb & i & Ed & En & Ei & -> & ->); auto.
    apply block_in in Hi2 as (k' & b' & f' & nb' & j & Ed' & En' & Ej & -> & ->); auto.
    assert (k = k').
    { eapply (proj1 (NoDup_nth_error (ddims d))); [apply Hw|unfold ddims; rewrite map_length; apply nth_error_Some; congruence|].
      unfold ddims. rewrite !nth_error_map, Ed, Ed'. reflexivity. }
    subst k'. rewrite Ed in Ed'. injection Ed' as <- <-. rewrite En in En'. injection En' as <-.
    pose proof (Hext _ _ _ _ Ed). pose proof (Hnn _ _ En).
    rewrite !start_step by lia. pose proof (compute_block_bounds (f - b) nb i). pose proof (compute_block_bounds (f - b) nb j). lia.
  - unfold blocks. rewrite map_length. apply box_length. rewrite Forall_forall in *. intros x Hx. specialize (Hp x Hx). lia.
Qed.

Lemma blocks_nonempty d nbs : dom_wf d -> length nbs = length d ->
  (forall k q b f nb, nth_error d k = Some (q, (b, f)) -> nth_error nbs k = Some nb -> 0 < nb <= f - b) ->
  Forall (fun b => box_count b <> 0) (blocks d nbs).
Proof.
  intros Hw Hl Hp. assert (Hpos : Forall (fun nb => 0 < nb) nbs).
  { apply Forall_forall. intros nb Hin. apply In_nth_error in Hin as [k Hk].
    destruct (nth_some d k) as [(q, (b, f)) Ed]; [rewrite <- Hl; apply nth_error_Some; congruence|]. specialize (Hp k q b f nb Ed Hk). lia. }
  destruct (blocks_partition d nbs Hw Hl Hpos) as [[Hs _] _]. rewrite Forall_forall in *. intros b Hb Hc.
  pose proof (Hs b Hb) as (Hbw & _ & _). apply box_count_zero in Hc as (q & x & y & Hin & Hxy); auto.
  apply in_map_iff in Hb as (is & <- & Hb). pose proof (proj1 (in_box_list nbs is) Hb) as Hf. apply Forall2_nth in Hf as [Hlf Hf].
  apply block_in in Hin as (k & b & f & nb & i & Ed & En & Ei & -> & ->); auto; [|lia].
  specialize (Hp k q b f nb Ed En). rewrite start_step in Hxy by lia. pose proof (compute_block_bounds (f - b) nb i).
  assert (1 <= (f - b) / nb) by (apply Z.div_le_lower_bound; lia). lia.
Qed.

Lemma for_each_block_ok d nbs : dom_wf d -> block_counts d nbs ->
  exists l : list domain,
    (forall (S : Type) (f : domain -> S -> S) (s : S), for_each_block d nbs f s = Ok (fold_left (fun s b => f b s) l s)) /\
    partition d l /\ balanced l /\ Z.of_nat (length l) = product (values nbs) /\
    ((forall q b f nb, In (q, (b, f)) d -> val_of nbs q nb -> nb <= f - b) -> Forall (fun b => box_count b <> 0) l).
Proof.
  intros Hw [Hd Hp]. assert (Hl : length (values nbs) = length d).
  { unfold values. rewrite map_length. transitivity (length (dims nbs)); [unfold dims; now rewrite map_length|]. rewrite Hd. unfold ddims. now rewrite map_length. }
  assert (Hpos : Forall (fun nb => 0 < nb) (values nbs)).
  { apply Forall_forall. intros x Hx. apply in_map_iff in Hx as ((q, y) & <- & Hx). apply (Hp q y Hx). }
  exists (blocks d (values nbs)). split; [|split; [|split; [|split]]].
  - intros S f s. unfold for_each_block. rewrite (rec_ok d f Hw nbs [] d); auto. intros q nb Hv. apply (Hp q nb Hv).
  - now apply blocks_partition.
  - now apply blocks_partition.
  - now apply blocks_partition.
  - intros Hle. apply blocks_nonempty; auto. intros k q b f nb Ed En. rewrite Forall_forall in Hpos. split; [apply Hpos; eapply nth_error_In; eauto|].
    apply (Hle q); [eapply nth_error_In; eauto|].
    unfold values in En. rewrite nth_error_map in En. destruct (nth_error nbs k) as [(q', nb')|] eqn:E; [|discriminate]. injection En as <-.
    assert (q' = q).
    { assert (nth_error (dims nbs) k = nth_error (ddims d) k) by congruence. unfold dims, ddims in H. rewrite !nth_error_map, E, Ed in H. cbn in H. congruence. }
    subst q'. eapply nth_error_In; eauto.
Qed.
