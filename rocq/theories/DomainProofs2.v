(** Size, equality, iteration, restriction and products. *)
From Coq Require Import Permutation Sorting.Sorted.
From Verif Require Import ListAux Machine MachineProofs TypeSeqModel TypeSeqProofs TaggedModel TaggedSpec TaggedProofs DomainModel DomainSpec DomainProofs.

(** ** Size *)
Lemma extent1_wf d q b f : dom_wf d -> In (q, (b, f)) d -> extent1 (q, (b, f)) = f - b.
Proof. intros Hd Hi. assert (H := dom_wf_at d _ _ _ Hd Hi). unfold extent1. simpl. mlia. Qed.
Lemma dom_wf_tail p d : dom_wf (p :: d) -> dom_wf d.
Proof. intros [H1 H2]. inversion H1; inversion H2; subst. split; auto. Qed.
Lemma box_count_nonneg d : dom_wf d -> 0 <= box_count d.
Proof.
  induction d as [|[q [b f]] d IH]; intros Hd; simpl; [lia|].
  assert (H := dom_wf_at _ q b f Hd (or_introl eq_refl)). specialize (IH (dom_wf_tail _ _ Hd)).
  apply Z.mul_nonneg_nonneg; lia.
Qed.
Lemma dom_size_mod d : dom_wf d -> dom_size d = (box_count d) mod 2 ^ 64.
Proof.
  intros Hd. unfold dom_size.
  assert (H : forall acc, 0 <= acc -> fold_left (fun acc p => u64_mul acc (u64 (extent1 p))) d (acc mod 2 ^ 64)
              = (acc * box_count d) mod 2 ^ 64).
  { induction d as [|[q [b f]] d IH]; intros acc Ha; cbn [fold_left].
    - unfold box_count. simpl. now rewrite Z.mul_1_r.
    - rewrite (extent1_wf _ q b f Hd (or_introl eq_refl)).
      assert (Hr := dom_wf_at _ q b f Hd (or_introl eq_refl)).
      replace (u64_mul (acc mod 2 ^ 64) (u64 (f - b))) with ((acc * (f - b)) mod 2 ^ 64).
      + rewrite IH; [|eapply dom_wf_tail; eauto | nia]. f_equal. simpl. lia.
      + unfold u64_mul, u64, two64. rewrite Z.mul_mod_idemp_l by lia. rewrite Z.mul_mod_idemp_r by lia. reflexivity. }
  specialize (H 1 ltac:(lia)). rewrite Z.mod_small in H at 1 by lia. rewrite H. f_equal. lia.
Qed.
Lemma dom_size_exact d : dom_wf d -> box_count d < 2 ^ 64 -> dom_size d = box_count d.
Proof. intros Hd Hb. rewrite dom_size_mod by auto. apply Z.mod_small. split; auto. now apply box_count_nonneg. Qed.
Lemma box_count_zero d : dom_wf d -> (box_count d = 0 <-> exists q b f, In (q, (b, f)) d /\ b = f).
Proof.
  induction d as [|[q [b f]] d IH]; intros Hd; simpl.
  - split; [lia | intros (? & ? & ? & [] & _)].
  - assert (H := dom_wf_at _ q b f Hd (or_introl eq_refl)). specialize (IH (dom_wf_tail _ _ Hd)).
    rewrite Z.mul_eq_0, IH. split.
    + intros [E|(q' & b' & f' & Hi & E)]; [exists q, b, f; split; auto; lia | exists q', b', f'; auto].
    + intros (q' & b' & f' & [E|Hi] & E'); [injection E as -> -> ->; left; lia | right; eauto].
Qed.

(** ** Element sets *)
(** Front of a domain with all extents positive is in the box. *)
Lemma begin_in_box d : dom_wf d -> (forall q b f, In (q, (b, f)) d -> b < f) -> in_box d (dom_begin d).
Proof.
  intros Hd H. split.
  - split; [rewrite dims_dom_begin; apply Hd | intros q; now rewrite dims_dom_begin].
  - intros q b f Hi. exists b. split; [apply val_dom_begin; eauto|]. specialize (H _ _ _ Hi). lia.
Qed.
Lemma empty_box d : dom_wf d -> box_count d = 0 -> forall e, ~ in_box d e.
Proof.
  intros Hd H0 e [_ He]. apply box_count_zero in H0 as (q & b & f & Hi & ->); auto.
  destruct (He q f f Hi) as (x & _ & Hx). lia.
Qed.
Lemma nonempty_lt d q b f : dom_wf d -> box_count d <> 0 -> In (q, (b, f)) d -> b < f.
Proof.
  intros Hd H0 Hi. assert (H := dom_wf_at _ _ _ _ Hd Hi).
  destruct (Z.eq_dec b f) as [->|]; [|lia]. exfalso. apply H0. apply box_count_zero; eauto.
Qed.
Lemma dims_back d : dims (back d) = ddims d.
Proof. unfold dims, back, ddims. rewrite map_map. apply map_ext. reflexivity. Qed.
(** Same intervals give the same elements; a non-empty box determines its intervals. *)
Lemma box_determines d o : dom_wf d -> dom_wf o -> (forall q, In q (ddims d) <-> In q (ddims o)) ->
  box_count d <> 0 -> (forall e, in_box d e -> in_box o e) ->
  forall q b f b' f', In (q, (b, f)) d -> In (q, (b', f')) o -> b' <= b /\ f <= f'.
Proof.
  intros Hd Ho Hs H0 Hin q b f b' f' Hi Hi'.
  assert (Hlt := nonempty_lt d q b f Hd H0 Hi).
  assert (Hfront := Hin _ (begin_in_box d Hd (fun q b f => nonempty_lt d q b f Hd H0))).
  destruct Hfront as [_ Hfr]. destruct (Hfr q b' f' Hi') as (x & Hx & Hxr).
  apply val_dom_begin in Hx as [f0 Hf0]. destruct (dom_fun d q b f x f0) as [<- <-]; auto; [apply Hd|].
  assert (Hback : in_box d (back d)).
  { split.
    - split; [rewrite dims_back; apply Hd | intros t; now rewrite dims_back].
    - intros t b1 f1 Hi1. exists (f1 - 1). assert (H1 := nonempty_lt d t b1 f1 Hd H0 Hi1).
      assert (H2 := dom_wf_at _ _ _ _ Hd Hi1). split; [|lia].
      unfold back, val_of. apply in_map_iff. exists (t, (b1, f1)). split; auto. simpl. f_equal. mlia. }
  apply Hin in Hback as [_ Hbk]. destruct (Hbk q b' f' Hi') as (y & Hy & Hyr).
  unfold back, val_of in Hy. apply in_map_iff in Hy as ([t [b1 f1]] & E & Hi1). simpl in E. injection E as -> E.
  destruct (dom_fun d q b f b1 f1) as [<- <-]; auto; [apply Hd|].
  assert (H2 := dom_wf_at _ _ _ _ Hd Hi). assert (y = f - 1) by (subst y; mlia). lia.
Qed.

Lemma dom_eq_exact d o : dom_wf d -> dom_wf o -> (forall q, In q (ddims d) <-> In q (ddims o)) ->
  box_count d < 2 ^ 64 -> box_count o < 2 ^ 64 ->
  exists r, dom_eq d o = Ok r /\ (r = true <-> forall e, in_box d e <-> in_box o e).
Proof.
  intros Hd Ho Hs Hcd Hco. unfold dom_eq, dom_empty.
  rewrite (dom_size_exact d), (dom_size_exact o) by auto.
  destruct (Z.eqb_spec (box_count d) 0) as [Zd|Nd]; destruct (Z.eqb_spec (box_count o) 0) as [Zo|No].
  1: { exists true. split; [reflexivity|]. split; auto. intros _ e. split; intros H; exfalso.
       - eapply (empty_box d); eauto. - eapply (empty_box o); eauto. }
  all: cbn [andb];
    destruct (tagged_eq_spec (dom_begin d) (dom_begin o)) as (b1 & E1 & H1);
    [ rewrite dims_dom_begin; apply Hd | rewrite dims_dom_begin; apply Ho
    | intros q; rewrite !dims_dom_begin; apply Hs |];
    destruct (tagged_eq_spec (dom_end d) (dom_end o)) as (b2 & E2 & H2);
    [ rewrite dims_dom_end; apply Hd | rewrite dims_dom_end; apply Ho
    | intros q; rewrite !dims_dom_end; apply Hs |];
    rewrite E1; cbn [rbind]; rewrite E2; cbn [rbind]; eexists; (split; [reflexivity|]);
    rewrite andb_true_iff, H1, H2; clear E1 E2.
  all: assert (Hsame : same_values (dom_begin d) (dom_begin o) /\ same_values (dom_end d) (dom_end o) ->
     forall q b f, In (q, (b, f)) d <-> In (q, (b, f)) o).
  1,3,5: intros [S1 S2] q b f; split; intros Hi;
     [ destruct (proj1 (ddims_in o q)) as (b' & f' & Hi'); [apply Hs, ddims_in; eauto|] |
       destruct (proj1 (ddims_in d q)) as (b' & f' & Hi'); [apply Hs, ddims_in; eauto|] ];
     [ assert (Hb : val_of (dom_begin o) q b) by (apply S1, val_dom_begin; eauto);
       assert (Hf : val_of (dom_end o) q f) by (apply S2, val_dom_end; eauto);
       apply val_dom_begin in Hb as [f1 Hb]; apply val_dom_end in Hf as [b1' Hf];
       destruct (dom_fun o q b' f' b f1) as [<- _]; auto; [apply Ho|];
       destruct (dom_fun o q b' f' b1' f) as [_ <-]; auto; apply Ho
     | assert (Hb : val_of (dom_begin d) q b) by (apply S1, val_dom_begin; eauto);
       assert (Hf : val_of (dom_end d) q f) by (apply S2, val_dom_end; eauto);
       apply val_dom_begin in Hb as [f1 Hb]; apply val_dom_end in Hf as [b1' Hf];
       destruct (dom_fun d q b' f' b f1) as [<- _]; auto; [apply Hd|];
       destruct (dom_fun d q b' f' b1' f) as [_ <-]; auto; apply Hd ].
  all: split.
  1,3,5: intros HS e; specialize (Hsame HS); unfold in_box, elem_of_dims; split; intros [[Hn He1] He2];
     (split; [split; [auto | intros q; rewrite He1; (apply Hs || (symmetry; apply Hs))]|]);
     intros q b f Hi; apply He2; now apply Hsame.
  all: intros Hbox.
  - exfalso. apply (empty_box d Hd Zd (dom_begin o)). apply Hbox. apply begin_in_box; auto.
    intros q b f. apply nonempty_lt; auto.
  - exfalso. apply (empty_box o Ho Zo (dom_begin d)). apply Hbox. apply begin_in_box; auto.
    intros q b f. apply nonempty_lt; auto.
  - assert (Heq : forall q b f b' f', In (q, (b, f)) d -> In (q, (b', f')) o -> b = b' /\ f = f').
    { intros q b f b' f' Hi Hi'.
      destruct (box_determines d o Hd Ho Hs Nd (fun e => proj1 (Hbox e)) q b f b' f' Hi Hi').
      destruct (box_determines o d Ho Hd (fun q => iff_sym (Hs q)) No (fun e => proj2 (Hbox e)) q b' f' b f Hi' Hi).
      lia. }
    assert (Hio : forall q b f, In (q, (b, f)) d -> In (q, (b, f)) o).
    { intros q b f Hi. destruct (proj1 (ddims_in o q)) as (b' & f' & Hi'); [apply Hs, ddims_in; eauto|].
      destruct (Heq _ _ _ _ _ Hi Hi') as [<- <-]. auto. }
    split; apply same_values_of_dims; rewrite ?dims_dom_begin, ?dims_dom_end; try apply Hd; try apply Ho; auto.
    + intros q x Hx. apply val_dom_begin in Hx as [f Hf]. apply val_dom_begin. eauto.
    + intros q x Hx. apply val_dom_end in Hx as [f Hf]. apply val_dom_end. eauto.
Qed.

(** ** Iteration *)
(** All offsets of a box, in lexicographic order. *)
Fixpoint box (sizes : list Z) : list (list Z) :=
  match sizes with
  | [] => [[]]
  | n :: r => flat_map (fun i => map (cons i) (box r)) (zrange n)
  end.
Lemma in_zrange n i : In i (zrange n) <-> 0 <= i < n.
Proof.
  unfold zrange. rewrite in_map_iff. split.
  - intros (k & <- & H). apply in_seq in H. lia.
  - intros H. exists (Z.to_nat i). split; [lia|]. apply in_seq. lia.
Qed.
Lemma zrange_sorted n : StronglySorted Z.lt (zrange n).
Proof.
  unfold zrange. generalize O. induction (Z.to_nat n) as [|m IH]; intros s; simpl; constructor; auto.
  apply Forall_forall. intros x Hx. apply in_map_iff in Hx as (k & <- & H). apply in_seq in H. lia.
Qed.
Lemma zrange_length n : 0 <= n -> Z.of_nat (length (zrange n)) = n.
Proof. intros H. unfold zrange. rewrite map_length, seq_length. lia. Qed.
Lemma in_box_list sizes is : In is (box sizes) <-> Forall2 (fun i n => 0 <= i < n) is sizes.
Proof.
  revert is. induction sizes as [|n r IH]; intros is; simpl.
  - split; [intros [<-|[]]; constructor | intros H; inversion H; auto].
  - rewrite in_flat_map. split.
    + intros (i & Hi & H). apply in_map_iff in H as (t & <- & Ht). constructor; [now apply in_zrange | now apply IH].
    + intros H. inversion H as [|i ? t ? Hi Ht]; subst. exists i. split; [now apply in_zrange|].
      apply in_map. now apply IH.
Qed.
Lemma StronglySorted_app {A} (R : A -> A -> Prop) a b : StronglySorted R a -> StronglySorted R b ->
  (forall x y, In x a -> In y b -> R x y) -> StronglySorted R (a ++ b).
Proof.
  intros Ha Hb H. induction Ha; simpl; auto. constructor.
  - apply IHHa. intros x y Hx. apply H. now right.
  - apply Forall_app. split; auto. apply Forall_forall. intros y Hy. apply H; auto. now left.
Qed.
Lemma StronglySorted_map {A B} (f : A -> B) (R : A -> A -> Prop) (S : B -> B -> Prop) l :
  (forall x y, In x l -> In y l -> R x y -> S (f x) (f y)) -> StronglySorted R l -> StronglySorted S (map f l).
Proof.
  intros Hf H. induction H as [|a l Hs IH Hfa]; simpl; constructor.
  - apply IH. intros; apply Hf; auto; now right.
  - apply Forall_forall. intros y Hy. apply in_map_iff in Hy as (x & <- & Hx).
    rewrite Forall_forall in Hfa. apply Hf; auto; [now left | now right].
Qed.
Lemma box_sorted sizes : StronglySorted lex_lt (box sizes).
Proof.
  induction sizes as [|n r IH]; simpl; [repeat constructor|].
  generalize (zrange_sorted n). induction (zrange n) as [|i l IHl]; simpl; intros Hs; [constructor|].
  inversion Hs as [|? ? Hs' Hf]; subst. apply StronglySorted_app; auto.
  - eapply StronglySorted_map; [|exact IH]. intros x y _ _ Hxy. simpl. auto.
  - intros x y Hx Hy. apply in_map_iff in Hx as (x' & <- & _). apply in_flat_map in Hy as (j & Hj & Hy).
    apply in_map_iff in Hy as (y' & <- & _). rewrite Forall_forall in Hf. simpl. left. auto.
Qed.
Lemma lex_irrefl a : ~ lex_lt a a.
Proof. induction a as [|x a IH]; simpl; [tauto|]. intros [H|[_ H]]; [lia | auto]. Qed.
Lemma sorted_nodup {A} (R : A -> A -> Prop) l : (forall x, ~ R x x) -> StronglySorted R l -> NoDup l.
Proof.
  intros Hi H. induction H as [|a l Hs IH Hf]; constructor; auto. intros Ha.
  rewrite Forall_forall in Hf. eapply Hi; eauto.
Qed.
Lemma box_length sizes : Forall (fun n => 0 <= n) sizes ->
  Z.of_nat (length (box sizes)) = fold_right Z.mul 1 sizes.
Proof.
  induction sizes as [|n r IH]; intros H; simpl; auto. inversion H as [|? ? Hn Hr]; subst.
  specialize (IH Hr).
  assert (E : forall l, Z.of_nat (length (flat_map (fun i : Z => map (cons i) (box r)) l))
            = Z.of_nat (length l) * Z.of_nat (length (box r))).
  { induction l as [|i l IHl]; [reflexivity|]. cbn [flat_map length]. rewrite app_length, map_length. lia. }
  rewrite E, zrange_length, IH by auto. reflexivity.
Qed.

Definition visit {S} (at_ : tagged -> res tagged) (ts : type_seq) (f : tagged -> S -> S) (s : res S) (is : list Z) : res S :=
  rbind s (fun s => rbind (at_ (combine ts is)) (fun e => Ok (f e s))).
Lemma for_each_serial_box {S} at_ ts (f : tagged -> S -> S) sizes : forall is s,
  for_each_serial at_ ts sizes f is s = fold_left (visit at_ ts f) (map (app is) (box sizes)) s.
Proof.
  induction sizes as [|n r IH]; intros is s; simpl.
  - now rewrite app_nil_r.
  - revert s. induction (zrange n) as [|i l IHl]; intros s; simpl; auto.
    rewrite IHl, IH, map_app, fold_left_app. f_equal. f_equal. rewrite map_map. apply map_ext.
    intros x. now rewrite <- app_assoc.
Qed.

(** Elements at in-range offsets. *)
Definition elem_at (d : domain) (is : list Z) : tagged :=
  map (fun pi => (fst (fst pi), fst (snd (fst pi)) + snd pi)) (combine d is).
Lemma combine_nodup_in (t : type_seq) (is : list Z) q x : In (q, x) (combine t is) -> In q t.
Proof. apply in_combine_l. Qed.
Lemma dims_combine (t : type_seq) (is : list Z) : length is = length t -> dims (combine t is) = t.
Proof.
  revert is. induction t as [|a t IH]; intros [|i is] H; simpl in *; try discriminate; auto. f_equal. apply IH. lia.
Qed.
Lemma tagged_eq_list a b : dims a = dims b -> NoDup (dims a) -> (forall q x, val_of a q x -> val_of b q x) -> a = b.
Proof.
  revert b. induction a as [|[t x] a IH]; intros [|[t' y] b] Hd Hn H; simpl in *; try discriminate; auto.
  injection Hd as -> Hd. inversion Hn as [|? ? Hni Hnd]; subst.
  destruct (H t' x (or_introl eq_refl)) as [E|Hi].
  - injection E as ->. f_equal. apply IH; auto. intros q z Hz.
    destruct (H q z (or_intror Hz)) as [E|Hi]; auto. injection E as -> ->.
    exfalso. apply Hni. eapply val_of_dims; eauto.
  - exfalso. apply Hni. fold (dims a) in *. fold (dims b) in *. rewrite Hd. eapply val_of_dims; eauto.
Qed.
Lemma elem_at_dims d is : length is = length d -> dims (elem_at d is) = ddims d.
Proof.
  unfold elem_at, dims, ddims. rewrite map_map. simpl. revert is.
  induction d as [|p d IH]; intros [|i is] H; simpl in *; try discriminate; auto. f_equal. apply IH. lia.
Qed.
Lemma dom_at_ok d is : dom_wf d ->
  Forall2 (fun i n => 0 <= i < n) is (map (fun p => snd (snd p) - fst (snd p)) d) ->
  dom_at d (combine (ddims d) is) = Ok (elem_at d is).
Proof.
  intros Hd HF. assert (Hlen : length is = length d) by (apply Forall2_len in HF; now rewrite map_length in HF).
  assert (Hdc : dims (combine (ddims d) is) = ddims d) by (apply dims_combine; unfold ddims; now rewrite map_length).
  assert (Hval : forall q y, val_of (combine (ddims d) is) q y -> exists b f, In (q, (b, f)) d /\ 0 <= y < f - b /\ val_of (elem_at d is) q (b + y)).
  { intros q y. clear Hdc Hd. revert is HF Hlen.
    induction d as [|[t [b f]] d IH]; intros [|i is] HF Hlen Hin; simpl in *; try contradiction.
    inversion HF as [|? ? ? ? Hi HF']; subst. destruct Hin as [E|Hin].
    - injection E as <- <-. exists b, f. repeat split; auto; try lia. left. reflexivity.
    - destruct (IH is HF' ltac:(lia) Hin) as (b' & f' & H1 & H2 & H3). exists b', f'. repeat split; auto; try lia. now right. }
  assert (Hvwf : vect_wf (combine (ddims d) is)).
  { split; [rewrite Hdc; apply Hd|]. apply forall_values. intros q y Hy.
    destruct (Hval q y Hy) as (b & f & Hi & Hr & _). assert (H2 := dom_wf_at _ _ _ _ Hd Hi). mlia. }
  destruct (elem_add_sub_frame true (dom_begin d) (combine (ddims d) is)) as (e & E & Hwe & Hde & _ & Hve).
  { now apply begin_wf. } { auto. } { intros q. now rewrite Hdc, dims_dom_begin. }
  unfold dom_at. rewrite E. f_equal. rewrite dims_dom_begin in Hde.
  apply tagged_eq_list; [rewrite Hde; symmetry; now apply elem_at_dims | rewrite Hde; apply Hd |].
  intros q x Hx. destruct (dims_val (combine (ddims d) is) q) as [y Hy]; [rewrite Hdc, <- Hde; eapply val_of_dims; eauto|].
  destruct (Hval q y Hy) as (b & f & Hi & Hr & Hv).
  assert (Hz : val_of e q ((b + y) mod 2 ^ 64)) by (apply Hve; auto; apply val_dom_begin; eauto).
  assert (H2 := dom_wf_at _ _ _ _ Hd Hi). rewrite Z.mod_small in Hz by lia.
  assert (x = b + y) by (eapply (val_of_fun e); eauto; apply Hwe). now subst.
Qed.

Lemma extents_values d : dom_wf d -> exists ex, extents d = Ok ex /\
  values ex = map (fun p => snd (snd p) - fst (snd p)) d.
Proof.
  intros Hd. destruct (extents_spec d Hd) as (ex & E & Hdx & Hwx & Hvx). exists ex. split; auto.
  assert (Ee : ex = map (fun p => (fst p, snd (snd p) - fst (snd p))) d).
  { symmetry. apply tagged_eq_list.
    - unfold dims at 1. rewrite map_map. simpl. symmetry. exact Hdx.
    - unfold dims. rewrite map_map. simpl. apply Hd.
    - intros q x Hx. unfold val_of in Hx. apply in_map_iff in Hx as ([t [b f]] & E' & Hi).
      simpl in E'. injection E' as <- <-. now apply Hvx. }
  rewrite Ee. unfold values. rewrite map_map. reflexivity.
Qed.

(** A loop nest over offsets that are all valid is a fold over the corresponding elements. *)
Lemma for_each_serial_trace {S} at_ ts (g : list Z -> tagged) (f : tagged -> S -> S) sizes s :
  (forall is, Forall2 (fun i n => 0 <= i < n) is sizes -> at_ (combine ts is) = Ok (g is)) ->
  for_each_serial at_ ts sizes f [] (Ok s) = Ok (fold_left (fun s e => f e s) (map g (box sizes)) s).
Proof.
  intros Hat. rewrite for_each_serial_box. rewrite map_ext with (g := fun x => x) by reflexivity. rewrite map_id.
  assert (H : forall l, (forall is, In is l -> Forall2 (fun i n => 0 <= i < n) is sizes) -> forall s,
    fold_left (visit at_ ts f) l (Ok s) = Ok (fold_left (fun s e => f e s) (map g l) s)).
  { induction l as [|is l IH]; intros Hl s0; cbn [fold_left map]; auto.
    replace (visit at_ ts f (Ok s0) is) with (Ok (f (g is) s0)) by (unfold visit; cbn [rbind]; rewrite Hat by (apply Hl; now left); reflexivity).
    apply IH. intros is' Hi. apply Hl. now right. }
  apply H. intros is Hi. now apply in_box_list.
Qed.
(** The visited elements. *)
Definition trace (d : domain) : list tagged :=
  map (elem_at d) (box (map (fun p => snd (snd p) - fst (snd p)) d)).
Lemma host_for_each_trace {S} d (f : tagged -> S -> S) s : dom_wf d ->
  host_for_each d f s = Ok (fold_left (fun s e => f e s) (trace d) s).
Proof.
  intros Hd. unfold host_for_each. destruct (extents_values d Hd) as (ex & E & Hv).
  rewrite E. cbn [rbind]. rewrite Hv. unfold trace. apply for_each_serial_trace.
  intros is His. now apply dom_at_ok.
Qed.
Lemma trace_in d e : dom_wf d -> (In e (trace d) <-> dims e = ddims d /\ in_box d e).
Proof.
  intros Hd. unfold trace. rewrite in_map_iff. split.
  - intros (is & <- & Hi). apply in_box_list in Hi.
    assert (Hlen : length is = length d) by (apply Forall2_len in Hi; now rewrite map_length in Hi).
    assert (Hdd := elem_at_dims d is Hlen). split; auto. split.
    + split; [rewrite Hdd; apply Hd | intros q; now rewrite Hdd].
    + intros q b f Hin. clear Hdd Hd. revert is Hi Hlen. induction d as [|[t [b0 f0]] d IH]; intros [|i is] Hi Hlen; simpl in *; try contradiction; try lia.
      inversion Hi as [|? ? ? ? Hi0 HF']; subst. destruct Hin as [E|Hin].
      * injection E as -> -> ->. exists (b + i). split; [left; reflexivity | lia].
      * destruct (IH Hin is HF' ltac:(lia)) as (x & Hx & Hr). exists x. split; auto. now right.
  - intros [Hde [_ Hb]]. exists (map (fun pe => snd (snd pe) - fst (snd (fst pe))) (combine d e)).
    assert (Hp : forall k q b f x, nth_error d k = Some (q, (b, f)) -> nth_error e k = Some (q, x) -> b <= x < f).
    { apply contains_loop_spec; auto. apply contains_loop_val; auto. apply Hd. }
    clear Hd Hb. revert e Hde Hp. induction d as [|[t [b f]] d IH]; intros [|[t' x] e] Hde Hp; simpl in *; try discriminate.
    + split; auto.
    + injection Hde as -> Hde. assert (H0 := Hp O t b f x eq_refl eq_refl).
      destruct (IH e Hde (fun k => Hp (S k))) as [E Hin]. split.
      * unfold elem_at in *. simpl. rewrite E. f_equal. f_equal. lia.
      * apply in_flat_map. exists (x - b). split; [apply in_zrange; lia|]. apply in_map. exact Hin.
Qed.
Lemma elem_at_values d is : length is = length d ->
  values (elem_at d is) = map (fun pi => fst pi + snd pi) (combine (map (fun p => fst (snd p)) d) is).
Proof.
  unfold elem_at, values. rewrite map_map. simpl. revert is.
  induction d as [|p d IH]; intros [|i is] H; simpl in *; try discriminate; auto. f_equal. apply IH. lia.
Qed.
Lemma trace_sorted d : dom_wf d -> StronglySorted (fun a b => lex_lt (values a) (values b)) (trace d).
Proof.
  intros Hd. unfold trace. eapply StronglySorted_map; [|apply box_sorted].
  intros x y Hx Hy. apply in_box_list in Hx. apply in_box_list in Hy.
  apply Forall2_len in Hx. apply Forall2_len in Hy. rewrite map_length in *.
  rewrite !elem_at_values by auto. clear Hd. revert x y Hx Hy.
  induction d as [|p d IH]; intros [|i x] [|j y] Hx Hy; simpl in *; try discriminate; try tauto.
  intros [H|[-> H]]; [left; lia | right; split; auto].
Qed.
Lemma trace_nodup d : dom_wf d -> NoDup (trace d).
Proof. intros Hd. eapply sorted_nodup; [|now apply trace_sorted]. intros x. apply lex_irrefl. Qed.
Lemma trace_length d : dom_wf d -> Z.of_nat (length (trace d)) = box_count d.
Proof.
  intros Hd. unfold trace. rewrite map_length, box_length.
  - induction d as [|p d IH]; simpl; auto. f_equal. apply IH. eapply dom_wf_tail; eauto.
  - apply Forall_forall. intros x Hx. apply in_map_iff in Hx as ([q [b f]] & <- & Hi). simpl.
    assert (H := dom_wf_at _ _ _ _ Hd Hi). lia.
Qed.
Lemma host_for_each_exact d : dom_wf d ->
  exists l : list tagged,
    (forall (S : Type) (f : tagged -> S -> S) (s : S),
        host_for_each d f s = Ok (fold_left (fun s e => f e s) l s)) /\
    (forall e, dims e = ddims d -> (In e l <-> contains d [e] = Ok true)) /\
    (forall e, In e l -> dims e = ddims d) /\
    NoDup l /\ StronglySorted (fun a b => lex_lt (values a) (values b)) l /\
    Z.of_nat (length l) = box_count d.
Proof.
  intros Hd. exists (trace d). split; [intros; now apply host_for_each_trace|]. split; [|split; [|split; [|split]]].
  - intros e He. rewrite trace_in by auto.
    destruct (contains_spec_box d [e]) as (r & Er & Hr); [apply Hd| |].
    { simpl. rewrite app_nil_r. split; [rewrite He; apply Hd | intros q; now rewrite He]. }
    simpl in Hr. rewrite app_nil_r in Hr. rewrite Er. split.
    + intros [_ H]. f_equal. now apply Hr.
    + intros E. injection E as ->. split; auto. now apply Hr.
  - intros e He. now apply trace_in in He.
  - now apply trace_nodup.
  - now apply trace_sorted.
  - now apply trace_length.
Qed.

(** ** Merge, selection, restriction *)
Lemma dom_end_of_spec d : dom_wf d -> dom_end_of d = Ok (dom_end d).
Proof.
  intros Hd. destruct (extents_spec d Hd) as (ex & E & Hdx & Hwx & Hvx). unfold dom_end_of. rewrite E. simpl.
  destruct (elem_add_sub_frame true (front d) ex) as (e & Ee & Hwe & Hde & _ & Hve).
  { now apply begin_wf. } { auto. } { intros q. unfold front. now rewrite Hdx, dims_dom_begin. }
  rewrite Ee. f_equal. unfold front in *. rewrite dims_dom_begin in Hde. apply tagged_eq_list.
  - rewrite dims_dom_end. auto. - apply Hwe.
  - intros q x Hx. destruct (proj1 (ddims_in d q)) as (b & f & Hi). { rewrite <- Hde. eapply val_of_dims; eauto. }
    assert (Hz : val_of e q ((b + (f - b)) mod 2 ^ 64)) by (apply Hve; [apply val_dom_begin; eauto | now apply Hvx]).
    assert (H2 := dom_wf_at _ _ _ _ Hd Hi). rewrite Z.mod_small in Hz by lia.
    assert (x = b + (f - b)) by (eapply (val_of_fun e); eauto; apply Hwe). apply val_dom_end.
    exists b. now replace x with f by lia.
Qed.
Lemma map_res_ok {A B} (f : A -> res B) (g : A -> B) l : (forall x, In x l -> f x = Ok (g x)) -> map_res f l = Ok (map g l).
Proof.
  induction l as [|x l IH]; intros H; simpl; auto. rewrite (H x) by (now left). simpl.
  rewrite IH by (intros; apply H; now right). reflexivity.
Qed.
Lemma dims_concat_begin ds : dims (concat (map dom_begin ds)) = concat (map ddims ds).
Proof. rewrite dims_concat, map_map. f_equal. apply map_ext. apply dims_dom_begin. Qed.
Lemma dims_concat_end ds : dims (concat (map dom_end ds)) = concat (map ddims ds).
Proof. rewrite dims_concat, map_map. f_equal. apply map_ext. apply dims_dom_end. Qed.
Lemma dom_merge_spec ts ds : Forall dom_wf ds -> NoDup (concat (map ddims ds)) -> NoDup ts ->
  incl ts (concat (map ddims ds)) ->
  exists r, dom_merge ts ds = Ok r /\ ddims r = ts /\ dom_wf r /\
    forall q b f, In (q, (b, f)) r <-> In q ts /\ exists d, In d ds /\ In (q, (b, f)) d.
Proof.
  intros Hw Hn Hnt Hi. unfold dom_merge.
  destruct (construct_spec ts (map front ds)) as (b & Eb & Hdb & Hvb).
  { unfold front. now rewrite dims_concat_begin. } { unfold front. now rewrite dims_concat_begin. }
  rewrite Eb. simpl. rewrite (map_res_ok dom_end_of dom_end).
  2: { intros d Hd. apply dom_end_of_spec. rewrite Forall_forall in Hw. auto. }
  simpl. destruct (construct_spec ts (map dom_end ds)) as (e & Ee & Hde & Hve).
  { now rewrite dims_concat_end. } { now rewrite dims_concat_end. }
  rewrite Ee. simpl. destruct (dom_zip_spec b e) as [Hz1 Hz2]; [congruence | now rewrite Hdb|].
  assert (Hchar : forall q x f, In (q, (x, f)) (dom_zip b e) <-> In q ts /\ exists d, In d ds /\ In (q, (x, f)) d).
  { intros q x f. rewrite Hz2, Hvb, Hve. split.
    - intros [[Hq Hx] [_ Hf]]. split; auto. unfold val_of in *. apply in_concat in Hx as (l & Hl & Hx).
      apply in_map_iff in Hl as (d & <- & Hd). apply in_concat in Hf as (l & Hl & Hf).
      apply in_map_iff in Hl as (d' & <- & Hd'). apply val_dom_begin in Hx as [f' Hx]. apply val_dom_end in Hf as [x' Hf].
      assert (d = d').
      { assert (Hq1 : In q (ddims d)) by (apply ddims_in; eauto). assert (Hq2 : In q (ddims d')) by (apply ddims_in; eauto).
        revert Hn Hd Hd' Hq1 Hq2. clear. induction ds as [|d0 ds IH]; simpl; [tauto|]. intros Hn.
        apply NoDup_app_inv in Hn as (H1 & H2 & H3). intros [->|Hd] [->|Hd'] Hq1 Hq2; auto.
        - exfalso. eapply H3; eauto. apply in_concat. exists (ddims d'). split; auto. now apply in_map.
        - exfalso. eapply H3; eauto. apply in_concat. exists (ddims d). split; auto. now apply in_map. }
      subst d'. rewrite Forall_forall in Hw. destruct (dom_fun d q x f' x' f) as [<- <-]; auto; [apply Hw; auto|].
      exists d. auto.
    - intros [Hq (d & Hd & Hin)]. repeat split; auto.
      + apply in_concat. exists (dom_begin d). split; [now apply in_map|]. apply val_dom_begin; eauto.
      + apply in_concat. exists (dom_end d). split; [now apply in_map|]. apply val_dom_end; eauto. }
  exists (dom_zip b e). split; [reflexivity|]. split; [congruence|]. split; [|exact Hchar].
  split; [rewrite Hz1, Hdb; auto|]. apply Forall_forall. intros [q [x f]] Hin.
  apply Hchar in Hin as (_ & d & Hd & Hin). rewrite Forall_forall in Hw. apply (dom_wf_at d) in Hin; auto.
Qed.

(** Projection of an element on some dimensions. *)
Lemma proj_val ts e q x : val_of (proj ts e) q x <-> In q ts /\ val_of e q x.
Proof.
  unfold proj, val_of. rewrite filter_In. simpl. destruct (in_dec Nat.eq_dec q ts); intuition discriminate.
Qed.
Lemma proj_nodup ts e : NoDup (dims e) -> NoDup (dims (proj ts e)).
Proof.
  induction e as [|[t x] e IH]; simpl; auto. intros H. inversion H as [|? ? Hni Hnd]; subst.
  destruct (in_dec Nat.eq_dec t ts); simpl; auto. constructor; auto.
  intros Hi. apply Hni. apply dims_val in Hi as [y Hy]. apply proj_val in Hy as [_ Hy]. eapply val_of_dims; eauto.
Qed.
Lemma proj_dims ts e q : In q (dims (proj ts e)) <-> In q ts /\ In q (dims e).
Proof.
  split.
  - intros H. apply dims_val in H as [x Hx]. apply proj_val in Hx as [H1 H2]. split; auto. eapply val_of_dims; eauto.
  - intros [H1 H2]. apply dims_val in H2 as [x Hx]. eapply val_of_dims. apply proj_val. eauto.
Qed.
Lemma merge_elements ts ds : Forall dom_wf ds -> NoDup (concat (map ddims ds)) ->
  (forall q, In q ts <-> In q (concat (map ddims ds))) -> NoDup ts ->
  exists r, dom_merge ts ds = Ok r /\ dom_wf r /\ ddims r = ts /\
    forall e, in_box r e <-> (NoDup (dims e) /\ (forall q, In q (dims e) <-> In q ts) /\
                              forall d, In d ds -> in_box d (proj (ddims d) e)).
Proof.
  intros Hw Hn Hs Hnt. destruct (dom_merge_spec ts ds) as (r & E & Hdr & Hwr & Hv); auto.
  { intros q. apply Hs. }
  exists r. repeat split; auto; try apply Hwr.
  - apply H. - destruct H as [[_ H] _]. rewrite <- Hdr. apply H. - destruct H as [[_ H] _]. rewrite <- Hdr. apply H.
  - apply proj_nodup. apply H.
  - intros Hq. now apply proj_dims in Hq.
  - intros Hq. apply proj_dims. split; auto. destruct H as [[_ H] _]. apply H. rewrite Hdr. apply Hs.
    apply in_concat. exists (ddims d). split; auto. now apply in_map.
  - intros q b f Hi. destruct H as [_ H]. destruct (H q b f) as (x & Hx & Hr).
    { apply Hv. split; [|eauto]. apply Hs. apply in_concat. exists (ddims d). split; [now apply in_map|]. apply ddims_in; eauto. }
    exists x. split; auto. apply proj_val. split; auto. apply ddims_in; eauto.
  - apply H. - rewrite Hdr. apply H. - rewrite Hdr. apply H.
  - intros q b f Hi. apply Hv in Hi as [Hq (d & Hd & Hi)]. destruct H as (_ & _ & H).
    destruct (H d Hd) as [_ Hb]. destruct (Hb q b f Hi) as (x & Hx & Hr). exists x. split; auto.
    now apply proj_val in Hx.
Qed.
Lemma merge_single_dims ds d : concat (map ddims [d]) = ddims d -> ds = [d] -> concat (map ddims ds) = ddims d.
Proof. intros H ->. exact H. Qed.
Lemma select_elements ts d : dom_wf d -> NoDup ts -> incl ts (ddims d) -> box_count d <> 0 ->
  exists r, dom_select ts d = Ok r /\ dom_wf r /\ ddims r = ts /\
    forall e, in_box r e <-> exists e', in_box d e' /\ same_values e (proj ts e') /\ NoDup (dims e).
Proof.
  intros Hd Hnt Hi H0. destruct (dom_merge_spec ts [d]) as (r & E & Hdr & Hwr & Hv); auto.
  { simpl. rewrite app_nil_r. apply Hd. } { simpl. now rewrite app_nil_r. }
  exists r. split; [exact E|]. split; [auto|]. split; [auto|].
  assert (Hin : forall q b f, In (q, (b, f)) r <-> In q ts /\ In (q, (b, f)) d).
  { intros q b f. rewrite Hv. split; [intros [Hq (d' & [<-|[]] & H)]; auto | intros [Hq H]; split; auto; exists d; simpl; auto]. }
  intros e. split.
  - intros [[Hne Hse] Hb].
    exists (e ++ filter (fun p => if in_dec Nat.eq_dec (fst p) ts then false else true) (dom_begin d)).
    set (rest := filter _ _).
    assert (Hrest : forall q x, In (q, x) rest <-> ~ In q ts /\ val_of (dom_begin d) q x).
    { intros q x. unfold rest. rewrite filter_In. unfold val_of. simpl. destruct (in_dec Nat.eq_dec q ts); intuition discriminate. }
    assert (Hnr : NoDup (dims rest)).
    { unfold rest. assert (Hnb : NoDup (dims (dom_begin d))) by (rewrite dims_dom_begin; apply Hd).
      revert Hnb. clear. induction (dom_begin d) as [|[t x] l IH]; simpl; auto. intros H. inversion H as [|? ? Hni Hnd]; subst.
      destruct (in_dec Nat.eq_dec t ts); simpl; auto. constructor; auto. intros Hx. apply Hni.
      apply dims_val in Hx as [y Hy]. unfold val_of in Hy. apply filter_In in Hy as [Hy _]. eapply val_of_dims; eauto. }
    rewrite Hdr in Hse. split; [split; [split|]|split]; auto.
    + unfold dims. rewrite map_app. apply NoDup_app_intro; auto. intros q H1 H2.
      apply Hse in H1. apply dims_val in H2 as [x Hx]. apply Hrest in Hx as [Hx _]. contradiction.
    + intros q. unfold dims. rewrite map_app, in_app_iff. fold (dims e) (dims rest). rewrite Hse. split.
      * intros [H|H]; [auto|]. apply dims_val in H as [x Hx]. apply Hrest in Hx as [_ Hx].
        rewrite <- dims_dom_begin. eapply val_of_dims; eauto.
      * intros H. destruct (in_dec Nat.eq_dec q ts); auto. right.
        rewrite <- dims_dom_begin in H. apply dims_val in H as [x Hx]. eapply val_of_dims. apply Hrest. eauto.
    + intros q b f Hq. destruct (in_dec Nat.eq_dec q ts) as [Hy|Hno].
      * destruct (Hb q b f) as (x & Hx & Hr); [apply Hin; auto|]. exists x. split; auto. apply in_or_app. now left.
      * exists b. split. { apply in_or_app. right. apply Hrest. split; auto. apply val_dom_begin; eauto. }
        assert (H := nonempty_lt d q b f Hd H0 Hq). lia.
    + intros q x. rewrite proj_val. unfold val_of. rewrite in_app_iff. split.
      * intros Hx. split; [apply Hse; eapply val_of_dims; eauto | auto].
      * intros [Hq [Hx|Hx]]; auto. apply Hrest in Hx as [Hx _]. contradiction.
  - intros (e' & [[Hn' Hs'] Hb'] & Hsame & Hne). split; [split; [auto|]|].
    + intros q. rewrite Hdr. split.
      * intros H. apply dims_val in H as [x Hx]. apply Hsame in Hx. now apply proj_val in Hx.
      * intros H. destruct (dims_val e' q) as [x Hx]; [apply Hs'; auto|]. eapply val_of_dims. apply Hsame. apply proj_val; eauto.
    + intros q b f Hq. apply Hin in Hq as [Hq Hd']. destruct (Hb' q b f Hd') as (x & Hx & Hr). exists x. split; auto.
      apply Hsame. apply proj_val; auto.
Qed.
Lemma remove_dims_elements ts d : dom_wf d -> box_count d <> 0 ->
  exists r, remove_dims_of d ts = Ok r /\ dom_wf r /\
    ddims r = filter (fun q => if in_dec Nat.eq_dec q ts then false else true) (ddims d) /\
    forall e, in_box r e <-> exists e', in_box d e' /\ same_values e (proj (ddims r) e') /\ NoDup (dims e).
Proof.
  intros Hd H0. unfold remove_dims_of. destruct (remove_exact (ddims d) ts) as [E Hn].
  destruct (select_elements (type_seq_remove (ddims d) ts) d) as (r & Er & Hwr & Hdr & H); auto.
  { apply Hn. apply Hd. } { rewrite E. intros q Hq. now apply filter_In in Hq. }
  exists r. split; [auto|]. split; [auto|]. split; [congruence|]. intros e. rewrite Hdr. apply H.
Qed.

Lemma restrict_with_full d o : dom_wf d -> dom_wf o -> incl (ddims o) (ddims d) ->
  (forall q b f b' f', In (q, (b, f)) d -> In (q, (b', f')) o -> b <= b' /\ f' <= f) ->
  exists r, restrict_with d o = Ok r /\ dom_wf r /\ ddims r = ddims d /\
    (forall q x f, In (q, (x, f)) r <-> In (q, (x, f)) o \/ (~ In q (ddims o) /\ In (q, (x, f)) d)) /\
    forall e, in_box r e <-> in_box d e /\ in_box o (proj (ddims o) e).
Proof.
  intros Hd Ho Hi Hr. unfold restrict_with.
  assert (Ha : assert_le d o = Ok true).
  { unfold assert_le. rewrite (map_res_ok _ (fun _ => true)).
    - simpl. f_equal. induction o; simpl; auto. apply IHo.
      + eapply dom_wf_tail; eauto. + intros q Hq. apply Hi. now right. + intros q b f b' f' H1 H2. eapply Hr; eauto. now right.
    - intros [q [b' f']] Hq. simpl. destruct (proj1 (ddims_in d q)) as (b & f & Hq').
      { apply Hi. apply ddims_in; eauto. }
      assert (Eb : get q (dom_begin d) = Ok b) by (apply get_spec; [rewrite dims_dom_begin; apply Hd | apply val_dom_begin; eauto]).
      assert (Ef : get q (dom_end d) = Ok f) by (apply get_spec; [rewrite dims_dom_end; apply Hd | apply val_dom_end; eauto]).
      rewrite Eb, Ef. simpl. destruct (Hr _ _ _ _ _ Hq' Hq). f_equal. lia. }
  rewrite Ha. simpl. destruct (extents_spec d Hd) as (ex & Ex & Hdx & Hwx & Hvx). rewrite Ex. simpl.
  destruct (extents_spec o Ho) as (ox & Eo & Hdo & Hwo & Hvo). rewrite Eo. simpl.
  pose (pick := fun (src : tagged) (p : tag * Z) => match get (fst p) src with Ok x => x | _ => snd p end).
  assert (Hpick : forall src p, NoDup (dims src) -> select_or (fst p) src (snd p) = Ok (pick src p)).
  { intros src [q x] Hn. unfold select_or, pick. simpl. destruct (in_tags_v q (dims src)) eqn:E.
    - apply in_tags_v_spec in E. destruct (get_in q src E) as [y Hy]. now rewrite Hy.
    - apply in_tags_v_false in E. now rewrite get_not_in. }
  assert (Hpv : forall src q x, NoDup (dims src) -> In q (dims src) -> val_of src q (pick src (q, x))).
  { intros src q x Hn Hq. unfold pick. simpl. destruct (get_in q src Hq) as [y Hy]. rewrite Hy. now apply get_spec. }
  assert (Hpn : forall src q x, ~ In q (dims src) -> pick src (q, x) = x).
  { intros src q x Hq. unfold pick. simpl. now rewrite get_not_in. }
  assert (Hnb : NoDup (dims (dom_begin o))) by (rewrite dims_dom_begin; apply Ho).
  rewrite (map_res_ok _ (fun p => (fst p, pick (dom_begin o) (fst p, fst (snd p))))).
  2: { intros p _. change (fst p) with (fst (fst p, fst (snd p))) at 1. change (fst (snd p)) with (snd (fst p, fst (snd p))) at 1.
       rewrite Hpick by auto. reflexivity. }
  simpl. rewrite (map_res_ok _ (fun p => (fst p, pick ox p))).
  2: { intros p _. rewrite Hpick by apply Hwo. reflexivity. }
  simpl. set (b := map _ d). set (n := map _ ex).
  assert (Hdb : dims b = ddims d) by (unfold b, dims; rewrite map_map; reflexivity).
  assert (Hdn : dims n = ddims d) by (unfold n, dims; rewrite map_map; exact Hdx).
  assert (Hb : forall q x, val_of b q x <-> exists b0 f0, In (q, (b0, f0)) d /\ x = pick (dom_begin o) (q, b0)).
  { intros q x. unfold b, val_of. rewrite in_map_iff. split.
    - intros ([t [b0 f0]] & E & Hin). simpl in E. injection E as <- <-. eauto.
    - intros (b0 & f0 & Hin & ->). exists (q, (b0, f0)). auto. }
  assert (Hn : forall q x, val_of n q x <-> exists y, val_of ex q y /\ x = pick ox (q, y)).
  { intros q x. unfold n, val_of. rewrite in_map_iff. split.
    - intros ([t y] & E & Hin). simpl in E. injection E as <- <-. eauto.
    - intros (y & Hin & ->). exists (q, y). auto. }
  (* values per dimension *)
  assert (Hbo : forall q b' f' x, In (q, (b', f')) o -> val_of b q x -> x = b').
  { intros q b' f' x Hq Hx. apply Hb in Hx as (b0 & f0 & _ & ->).
    assert (H := Hpv (dom_begin o) q b0 Hnb). apply (val_of_fun (dom_begin o) q); auto; [|apply val_dom_begin; eauto].
    apply H. rewrite dims_dom_begin. apply ddims_in; eauto. }
  assert (Hno : forall q b' f' x, In (q, (b', f')) o -> val_of n q x -> x = f' - b').
  { intros q b' f' x Hq Hx. apply Hn in Hx as (y & _ & ->).
    apply (val_of_fun ox q); [apply Hwo | | now apply Hvo]. apply Hpv; [apply Hwo|]. rewrite Hdo. apply ddims_in; eauto. }
  assert (Hbn : forall q x b0 f0, ~ In q (ddims o) -> In (q, (b0, f0)) d -> val_of b q x -> x = b0).
  { intros q x b0 f0 Hq Hin Hx. apply Hb in Hx as (b1 & f1 & Hin1 & ->). rewrite Hpn by now rewrite dims_dom_begin.
    destruct (dom_fun d q b0 f0 b1 f1); auto. apply Hd. }
  assert (Hnn : forall q x b0 f0, ~ In q (ddims o) -> In (q, (b0, f0)) d -> val_of n q x -> x = f0 - b0).
  { intros q x b0 f0 Hq Hin Hx. apply Hn in Hx as (y & Hy & ->). rewrite Hpn by now rewrite Hdo.
    apply (val_of_fun ex q); [apply Hwx | auto | now apply Hvx]. }
  assert (Hcase : forall q, In q (ddims d) -> exists bb ff, (In (q, (bb, ff)) o \/ (~ In q (ddims o) /\ In (q, (bb, ff)) d)) /\ 
      val_of b q bb /\ val_of n q (ff - bb) /\ 0 <= bb <= ff /\ ff < 2 ^ 64 /\ ff - bb < 2 ^ 63).
  { intros q Hq. destruct (dims_val b q) as [x Hx]; [now rewrite Hdb|]. destruct (dims_val n q) as [y Hy]; [now rewrite Hdn|].
    destruct (in_dec Nat.eq_dec q (ddims o)) as [Hqo|Hqn].
    - apply ddims_in in Hqo as (b' & f' & Hq'). exists b', f'. assert (H2 := dom_wf_at _ _ _ _ Ho Hq').
      rewrite (Hbo _ _ _ _ Hq' Hx) in Hx. rewrite (Hno _ _ _ _ Hq' Hy) in Hy. repeat split; auto; lia.
    - apply ddims_in in Hq as (b' & f' & Hq'). exists b', f'. assert (H2 := dom_wf_at _ _ _ _ Hd Hq').
      rewrite (Hbn _ _ _ _ Hqn Hq' Hx) in Hx. rewrite (Hnn _ _ _ _ Hqn Hq' Hy) in Hy. repeat split; auto; lia. }
  assert (Hwb : elem_wf b).
  { split; [rewrite Hdb; apply Hd|]. apply forall_values. intros q x Hx. destruct (Hcase q) as (bb & ff & _ & H1 & H2 & H3).
    { rewrite <- Hdb. eapply val_of_dims; eauto. } assert (x = bb) by (apply (val_of_fun b q); auto; rewrite Hdb; apply Hd). mlia. }
  assert (Hwn : vect_wf n).
  { split; [rewrite Hdn; apply Hd|]. apply forall_values. intros q x Hx. destruct (Hcase q) as (bb & ff & _ & H1 & H2 & H3).
    { rewrite <- Hdn. eapply val_of_dims; eauto. } assert (x = ff - bb) by (apply (val_of_fun n q); auto; rewrite Hdn; apply Hd). mlia. }
  destruct (mk_domain_spec b n Hwb Hwn) as (r & E & Hdr & Hwr & Hv).
  { intros q. rewrite Hdb, Hdn. tauto. }
  { intros q x y Hx Hy. destruct (Hcase q) as (bb & ff & _ & H1 & H2 & H3).
    { rewrite <- Hdb. eapply val_of_dims; eauto. }
    assert (x = bb) by (apply (val_of_fun b q); auto; rewrite Hdb; apply Hd).
    assert (y = ff - bb) by (apply (val_of_fun n q); auto; rewrite Hdn; apply Hd). lia. }
  exists r. split; [exact E|]. split; [auto|]. split; [congruence|]. rewrite Hdb in Hdr.
  assert (Hrin : forall q x f, In (q, (x, f)) r <-> In (q, (x, f)) o \/ (~ In q (ddims o) /\ In (q, (x, f)) d)).
  { intros q x f. rewrite Hv. split.
    - intros [Hx Hf]. destruct (Hcase q) as (bb & ff & H0 & H1 & H2 & H3). { rewrite <- Hdb. eapply val_of_dims; eauto. }
      assert (x = bb) by (apply (val_of_fun b q); auto; rewrite Hdb; apply Hd). subst bb.
      assert (f - x = ff - x) by (apply (val_of_fun n q); auto; rewrite Hdn; apply Hd). assert (f = ff) by lia. now subst.
    - intros H. assert (Hq : In q (ddims d)).
      { destruct H as [H|[_ H]]; [apply Hi|]; apply ddims_in; eauto. }
      destruct (Hcase q Hq) as (bb & ff & H0 & H1 & H2 & H3).
      assert (bb = x /\ ff = f) as [-> ->]; [|auto].
      destruct H as [H|[Hno' H]]; destruct H0 as [H0|[Hno'' H0]].
      + eapply dom_fun; eauto. apply Ho. + exfalso. apply Hno''. apply ddims_in; eauto.
      + exfalso. apply Hno'. apply ddims_in; eauto. + eapply dom_fun; eauto. apply Hd. }
  split; [exact Hrin|]. intros e. unfold in_box, elem_of_dims. rewrite Hdr. split.
  - intros [[Hne Hse] Hb']. split; split; auto.
    + intros q b0 f0 Hq. destruct (in_dec Nat.eq_dec q (ddims o)) as [Hqo|Hqn].
      * apply ddims_in in Hqo as (b' & f' & Hq'). destruct (Hb' q b' f') as (x & Hx & Hxr); [apply Hrin; auto|].
        exists x. split; auto. destruct (Hr _ _ _ _ _ Hq Hq'). lia.
      * apply Hb'. apply Hrin. auto.
    + split; [now apply proj_nodup|]. intros q. rewrite proj_dims, Hse. split; [tauto|]. intros H. split; auto.
    + intros q b' f' Hq. destruct (Hb' q b' f') as (x & Hx & Hxr); [apply Hrin; auto|]. exists x. split; auto.
      apply proj_val. split; auto. apply ddims_in; eauto.
  - intros [[[Hne Hse] Hb1] [_ Hb2]]. split; auto. intros q b0 f0 Hq. apply Hrin in Hq as [Hq|[_ Hq]].
    + destruct (Hb2 q b0 f0 Hq) as (x & Hx & Hxr). exists x. split; auto. now apply proj_val in Hx.
    + now apply Hb1.
Qed.
Lemma restrict_with_spec d o : dom_wf d -> dom_wf o -> incl (ddims o) (ddims d) ->
  (forall q b f b' f', In (q, (b, f)) d -> In (q, (b', f')) o -> b <= b' /\ f' <= f) ->
  exists r, restrict_with d o = Ok r /\ dom_wf r /\ ddims r = ddims d /\
    forall e, in_box r e <-> in_box d e /\ in_box o (proj (ddims o) e).
Proof.
  intros Hd Ho Hi Hr. destruct (restrict_with_full d o Hd Ho Hi Hr) as (r & H1 & H2 & H3 & _ & H4). eauto.
Qed.

(** ** replace_dim_of *)
Lemma replace_single_12 t1 t2 s :
  type_seq_replace s [t1] [t2] = Some (map (fun x => if Nat.eqb x t1 then t2 else x) s).
Proof.
  unfold type_seq_replace.
  assert (H : forall r, ts_replace s [t1] [t2] r = Some (r ++ map (fun x => if Nat.eqb x t1 then t2 else x) s)).
  { induction s as [|x s IH]; intros r; simpl; [now rewrite app_nil_r|].
    destruct (Nat.eqb x t1); rewrite IH, <- app_assoc; reflexivity. }
  apply (H []).
Qed.
Lemma replace_dim_spec t1 t2 a b : dom_wf a -> dom_wf b -> In t2 (ddims b) -> ~ In t2 (ddims a) ->
  exists r, replace_dim_of t1 t2 a b = Ok r /\ dom_wf r /\
    ddims r = map (fun x => if Nat.eqb x t1 then t2 else x) (ddims a) /\
    forall q x f, In (q, (x, f)) r <->
      (q = t2 /\ In t1 (ddims a) /\ In (t2, (x, f)) b) \/ (q <> t1 /\ In (q, (x, f)) a).
Proof.
  intros Ha Hb H2b H2a. unfold replace_dim_of. rewrite replace_single_12.
  set (R := fun x => if Nat.eqb x t1 then t2 else x).
  assert (Hds : forall l, incl l (ddims a) -> exists ds, map_res (fun ta => replace_dim_of_1d t1 t2 ta a b) l = Ok ds /\
     Forall dom_wf ds /\ map ddims ds = map (fun x => [R x]) l /\
     (forall q x f, (exists d, In d ds /\ In (q, (x, f)) d) <->
        (q = t2 /\ In t1 l /\ In (t2, (x, f)) b) \/ (q <> t1 /\ In q l /\ In (q, (x, f)) a))).
  { induction l as [|ta l IH]; intros Hl.
    - exists []. split; [reflexivity|]. split; [constructor|]. split; [reflexivity|]. simpl. intros q x f. split.
      + intros (d & [] & _). + intros [(_ & [] & _)|(_ & [] & _)].
    - destruct IH as (ds & E & Hw & Hdd & Hv); [intros q Hq; apply Hl; now right|].
      cbn [map_res]. unfold replace_dim_of_1d at 1. unfold R in *. destruct (Nat.eqb_spec ta t1) as [->|Hne].
      + destruct (dom_merge_spec [t2] [b]) as (d & Ed & Hdd' & Hwd & Hvd).
        { constructor; auto. } { simpl. rewrite app_nil_r. apply Hb. } { repeat constructor; simpl; tauto. }
        { simpl. rewrite app_nil_r. intros q [<-|[]]. auto. }
        unfold dom_select. rewrite Ed. cbn [rbind]. rewrite E. cbn [rbind]. eexists. split; [reflexivity|].
        split; [constructor; auto|]. split; [simpl; rewrite Nat.eqb_refl; f_equal; auto|].
        intros q x f. split.
        * intros (d' & [<-|Hd'] & Hi).
          -- apply Hvd in Hi as ([<-|[]] & d' & [<-|[]] & Hi). left. repeat split; auto. now left.
          -- destruct (proj1 (Hv q x f)) as [(-> & H1 & H2)|(H1 & H2 & H3)]; [eauto | left; repeat split; auto; now right | right; repeat split; auto; now right].
        * intros [(-> & _ & Hi)|(H1 & [<-|H2] & H3)].
          -- exists d. split; [now left|]. apply Hvd. split; [now left|]. exists b. split; [now left | auto].
          -- congruence.
          -- destruct (proj2 (Hv q x f)) as (d' & Hd' & Hi); [right; auto|]. exists d'. split; [now right | auto].
      + destruct (dom_merge_spec [ta] [a]) as (d & Ed & Hdd' & Hwd & Hvd).
        { constructor; auto. } { simpl. rewrite app_nil_r. apply Ha. } { repeat constructor; simpl; tauto. }
        { simpl. rewrite app_nil_r. intros q [<-|[]]. apply Hl. now left. }
        unfold dom_select. rewrite Ed. cbn [rbind]. rewrite E. cbn [rbind]. eexists. split; [reflexivity|].
        split; [constructor; auto|].
        split; [simpl; apply Nat.eqb_neq in Hne; rewrite Hne; f_equal; auto|].
        intros q x f. split.
        * intros (d' & [<-|Hd'] & Hi).
          -- apply Hvd in Hi as ([<-|[]] & d' & [<-|[]] & Hi). right. repeat split; auto. now left.
          -- destruct (proj1 (Hv q x f)) as [(-> & H1 & H2)|(H1 & H2 & H3)]; [eauto | left; repeat split; auto; now right | right; repeat split; auto; now right].
        * intros [(-> & [Hc|H1] & Hi)|(H1 & [<-|H2] & H3)].
          -- congruence.
          -- destruct (proj2 (Hv t2 x f)) as (d' & Hd' & Hi'); [left; auto|]. exists d'. split; [now right | auto].
          -- exists d. split; [now left|]. apply Hvd. split; [now left|]. exists a. split; [now left | auto].
          -- destruct (proj2 (Hv q x f)) as (d' & Hd' & Hi'); [right; auto|]. exists d'. split; [now right | auto]. }
  destruct (Hds (ddims a) (fun q H => H)) as (ds & E & Hw & Hdd & Hv). rewrite E. cbn [rbind].
  assert (Hc : concat (map ddims ds) = map R (ddims a)).
  { rewrite Hdd. clear. induction (ddims a); simpl; auto. f_equal. auto. }
  assert (HnR : NoDup (map R (ddims a))).
  { assert (Hn : NoDup (ddims a)) by apply Ha. revert Hn H2a. generalize (ddims a) as l. clear. intros l.
    induction l as [|x l IH]; simpl; intros Hn Hni; [constructor|]. inversion Hn as [|? ? Hx Hl]; subst. constructor; auto.
    intros Hi. apply in_map_iff in Hi as (y & Ey & Hy). unfold R in Ey.
    destruct (Nat.eqb_spec y t1), (Nat.eqb_spec x t1); subst; auto; apply Hni; auto. }
  destruct (dom_merge_spec (map R (ddims a)) ds) as (r & Er & Hdr & Hwr & Hvr); auto.
  { now rewrite Hc. } { rewrite Hc. intros q Hq. exact Hq. }
  exists r. split; [exact Er|]. split; [auto|]. split; [exact Hdr|].
  intros q x f. rewrite Hvr, Hv. split.
  - intros [_ [H|(H1 & _ & H3)]]; auto.
  - intros [(-> & H1 & H2)|(H1 & H2)].
    + split; [|left; auto]. apply in_map_iff. exists t1. split; auto. unfold R. now rewrite Nat.eqb_refl.
    + assert (Hq : In q (ddims a)) by (apply ddims_in; eauto). split; [|right; auto].
      apply in_map_iff. exists q. split; auto. unfold R. apply Nat.eqb_neq in H1. now rewrite H1.
Qed.

(** The size of a domain is the number of elements iteration visits, modulo 2^64. *)
Lemma size_counts d : dom_wf d -> exists l : list tagged,
  NoDup l /\ (forall e, In e l <-> dims e = ddims d /\ in_box d e) /\
  dom_size d = Z.of_nat (length l) mod 2 ^ 64.
Proof.
  intros Hd. exists (trace d). split; [now apply trace_nodup|]. split; [intros e; now apply trace_in|].
  rewrite trace_length by auto. now apply dom_size_mod.
Qed.
