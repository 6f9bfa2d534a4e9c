From Coq Require Import Permutation Sorting.Sorted.
From Verif Require Import ListAux Machine MachineProofs TypeSeqModel TypeSeqProofs TaggedModel TaggedSpec TaggedProofs DomainModel DomainSpec.

(** ** Projections *)
Lemma dims_dom_begin d : dims (dom_begin d) = ddims d.
Proof. unfold dims, dom_begin, ddims. rewrite map_map. apply map_ext. reflexivity. Qed.
Lemma dims_dom_end d : dims (dom_end d) = ddims d.
Proof. unfold dims, dom_end, ddims. rewrite map_map. apply map_ext. reflexivity. Qed.
Lemma val_dom_begin d q x : val_of (dom_begin d) q x <-> exists f, In (q, (x, f)) d.
Proof.
  unfold val_of, dom_begin. rewrite in_map_iff. split.
  - intros ([t [b f]] & E & H). simpl in E. injection E as <- <-. eauto.
  - intros (f & H). exists (q, (x, f)). auto.
Qed.
Lemma val_dom_end d q x : val_of (dom_end d) q x <-> exists b, In (q, (b, x)) d.
Proof.
  unfold val_of, dom_end. rewrite in_map_iff. split.
  - intros ([t [b f]] & E & H). simpl in E. injection E as <- <-. eauto.
  - intros (f & H). exists (q, (f, x)). auto.
Qed.
Lemma dom_fun d q b f b' f' : NoDup (ddims d) -> In (q, (b, f)) d -> In (q, (b', f')) d -> b = b' /\ f = f'.
Proof.
  intros Hn H H'. split.
  - apply (val_of_fun (dom_begin d) q); [now rewrite dims_dom_begin | |]; apply val_dom_begin; eauto.
  - apply (val_of_fun (dom_end d) q); [now rewrite dims_dom_end | |]; apply val_dom_end; eauto.
Qed.
Lemma ddims_in d q : In q (ddims d) <-> exists b f, In (q, (b, f)) d.
Proof.
  unfold ddims. rewrite in_map_iff. split.
  - intros ([t [b f]] & <- & H). eauto.
  - intros (b & f & H). exists (q, (b, f)). auto.
Qed.
Lemma dom_wf_at d q b f : dom_wf d -> In (q, (b, f)) d -> 0 <= b /\ b <= f < 2 ^ 64 /\ f - b < 2 ^ 63.
Proof. intros [_ H] Hi. rewrite Forall_forall in H. apply (H _ Hi). Qed.
Lemma begin_wf d : dom_wf d -> elem_wf (dom_begin d).
Proof.
  intros H. split; [rewrite dims_dom_begin; apply H|]. apply forall_values. intros q x Hx.
  apply val_dom_begin in Hx as [f Hf]. apply (dom_wf_at d) in Hf; auto. mlia.
Qed.
Lemma end_wf d : dom_wf d -> elem_wf (dom_end d).
Proof.
  intros H. split; [rewrite dims_dom_end; apply H|]. apply forall_values. intros q x Hx.
  apply val_dom_end in Hx as [f Hf]. apply (dom_wf_at d) in Hf; auto. mlia.
Qed.

Lemma dom_zip_spec b e : dims b = dims e -> NoDup (dims b) ->
  ddims (dom_zip b e) = dims b /\
  forall q x y, In (q, (x, y)) (dom_zip b e) <-> val_of b q x /\ val_of e q y.
Proof.
  revert e. induction b as [|[t x] b IH]; intros [|[t' y] e] Hd Hn; simpl in *; try discriminate.
  - split; auto. unfold val_of. simpl. tauto.
  - injection Hd as <- Hd. inversion Hn as [|? ? Hni Hnd]; subst. destruct (IH e Hd Hnd) as [E H].
    split; [simpl; f_equal; exact E|]. intros q a c. unfold val_of in *. simpl. rewrite H.
    assert (Hb : forall z, ~ In (t, z) b) by (intros z Hz; apply Hni; eapply val_of_dims; exact Hz).
    assert (He : forall z, ~ In (t, z) e) by (intros z Hz; apply Hni; fold (dims b) in Hd; fold (dims e) in Hd; fold (dims b); rewrite Hd; eapply val_of_dims; exact Hz).
    split.
    + intros [E'|H']; [injection E' as <- <- <-; auto | tauto].
    + intros [[E1|H1] [E2|H2]].
      * injection E1 as <- <-. injection E2 as <-. auto.
      * injection E1 as <- <-. exfalso. eapply He; eauto.
      * injection E2 as <- <-. exfalso. eapply Hb; eauto.
      * auto.
Qed.

(** ** Extents *)
Lemma extents_spec d : dom_wf d ->
  exists ex, extents d = Ok ex /\ dims ex = ddims d /\ vect_wf ex /\
    forall q b f, In (q, (b, f)) d -> val_of ex q (f - b).
Proof.
  intros H. destruct (elem_diff_spec (dom_end d) (dom_begin d)) as (v & E & Hd & Hf & Hv).
  - apply end_wf; auto. - apply begin_wf; auto.
  - intros q. rewrite dims_dom_begin, dims_dom_end. tauto.
  - exists v. rewrite dims_dom_end in Hd. repeat split; auto.
    + rewrite Hd. apply H.
    + intros q b f Hi. assert (Hw := dom_wf_at d q b f H Hi).
      replace (f - b) with (i64 (u64_sub f b)) by mlia. apply Hv.
      * apply val_dom_end; eauto. * apply val_dom_begin; eauto.
Qed.

(** ** Construction from front and sizes *)
Lemma mk_domain_spec b n : elem_wf b -> vect_wf n -> (forall q, In q (dims n) <-> In q (dims b)) ->
  (forall q x y, val_of b q x -> val_of n q y -> 0 <= y /\ x + y < 2 ^ 64) ->
  exists d, mk_domain b n = Ok d /\ ddims d = dims b /\ dom_wf d /\
    forall q x f, In (q, (x, f)) d <-> val_of b q x /\ val_of n q (f - x).
Proof.
  intros Hb Hn Hs Hr. unfold mk_domain.
  destruct (elem_add_sub_frame true b n Hb Hn) as (e & E & He & Hd & _ & Hv).
  { intros q Hq. now apply Hs. }
  rewrite E. simpl. destruct (dom_zip_spec b e) as [Hz1 Hz2]; [auto | apply Hb |].
  assert (Hchar : forall q x f, In (q, (x, f)) (dom_zip b e) <-> val_of b q x /\ val_of n q (f - x)).
  { intros q x f. rewrite Hz2. split; intros [Hx Hy]; split; auto.
    - destruct (dims_val n q) as [y Hny]; [apply Hs; eapply val_of_dims; eauto|].
      assert (Hw := Hv q x y Hx Hny). assert (Hrr := Hr q x y Hx Hny).
      assert (Hbu := elem_val_u64 b q x Hb Hx).
      rewrite Z.mod_small in Hw by mlia.
      assert (f = x + y) by (eapply (val_of_fun e); eauto; apply He). subst f.
      replace (x + y - x) with y by lia. auto.
    - assert (Hw := Hv q x _ Hx Hy). assert (Hrr := Hr q x _ Hx Hy).
      assert (Hbu := elem_val_u64 b q x Hb Hx).
      rewrite Z.mod_small in Hw by mlia. now replace (x + (f - x)) with f in Hw by lia. }
  exists (dom_zip b e). split; [reflexivity|]. split; [exact Hz1|]. split; [|exact Hchar].
  split; [rewrite Hz1; apply Hb|]. apply Forall_forall. intros [q [x f]] Hi. simpl.
  apply Hchar in Hi as [Hx Hy]. assert (Hrr := Hr q x _ Hx Hy).
  assert (Hbu := elem_val_u64 b q x Hb Hx). assert (Hnu := vect_val_i64 n q _ Hn Hy). mlia.
Qed.

(** ** Cutting operations *)

Lemma cut_val d n q b f : cut_ok d n -> In (q, (b, f)) d -> exists y, val_of n q y /\ 0 <= y <= f - b.
Proof.
  intros (Hn & Hs & Hr) Hi. destruct (dims_val n q) as [y Hy]; [apply Hs, ddims_in; eauto|].
  exists y. split; auto. eapply Hr; eauto.
Qed.

Lemma take_first_spec d n : dom_wf d -> cut_ok d n ->
  exists r, take_first d n = Ok r /\ dom_wf r /\ ddims r = ddims d /\
   forall q b f, In (q, (b, f)) r <-> exists y f0, val_of n q y /\ In (q, (b, f0)) d /\ f = b + y.
Proof.
  intros Hd Hc. assert (Hb := begin_wf d Hd). destruct Hc as (Hn & Hs & Hr).
  destruct (mk_domain_spec (front d) n) as (r & E & Hdr & Hwr & Hv); auto.
  { intros q. unfold front. rewrite dims_dom_begin. apply Hs. }
  { intros q x y Hx Hy. apply val_dom_begin in Hx as [f Hf].
    assert (H1 := Hr _ _ _ _ Hf Hy). assert (H2 := dom_wf_at d _ _ _ Hd Hf). lia. }
  exists r. split; [exact E|]. split; [auto|]. unfold front in *. rewrite dims_dom_begin in Hdr.
  split; [auto|]. intros q b f. rewrite Hv, val_dom_begin. split.
  - intros [[f0 Hf0] Hy]. exists (f - b), f0. repeat split; auto. lia.
  - intros (y & f0 & Hy & Hf0 & ->). split; [eauto|]. replace (b + y - b) with y by lia. auto.
Qed.

(** [extents - n]. *)
Lemma extents_minus d n : dom_wf d -> cut_ok d n ->
  exists ex m, extents d = Ok ex /\ vect_sub ex n = Ok m /\ vect_wf m /\ dims m = ddims d /\
   forall q z, val_of m q z <-> exists b f y, In (q, (b, f)) d /\ val_of n q y /\ z = f - b - y.
Proof.
  intros Hd Hc. destruct (extents_spec d Hd) as (ex & Eex & Hdx & Hwx & Hvx).
  destruct (vect_addsub_same false ex n) as [H _]; auto. { apply Hc. }
  { intros q. rewrite Hdx. symmetry. apply Hc. }
  destruct H as (m & Em & Hwm & Hdm & Hvm).
  { intros q x y Hx Hy. destruct (proj1 (ddims_in d q)) as (b & f & Hi).
    { rewrite <- Hdx. eapply val_of_dims; eauto. }
    assert (x = f - b) by (eapply (val_of_fun ex); eauto; apply Hwx). subst x.
    destruct Hc as (_ & _ & Hr). assert (H1 := Hr _ _ _ _ Hi Hy).
    assert (H2 := dom_wf_at d _ _ _ Hd Hi). mlia. }
  exists ex, m. split; [auto|]. split; [exact Em|]. split; [auto|]. split; [congruence|].
  intros q z. split.
  - intros Hz. destruct (proj1 (ddims_in d q)) as (b & f & Hi).
    { rewrite <- Hdx, <- Hdm. eapply val_of_dims; eauto. }
    destruct (cut_val d n q b f Hc Hi) as (y & Hy & Hyr).
    exists b, f, y. repeat split; auto.
    assert (Hm := Hvm q _ _ (Hvx _ _ _ Hi) Hy). eapply (val_of_fun m); eauto. apply Hwm.
  - intros (b & f & y & Hi & Hy & ->). exact (Hvm q _ _ (Hvx _ _ _ Hi) Hy).
Qed.

Lemma add_front d n : dom_wf d -> cut_ok d n ->
  exists b', elem_add (front d) n = Ok b' /\ elem_wf b' /\ dims b' = ddims d /\
   forall q z, val_of b' q z <-> exists b f y, In (q, (b, f)) d /\ val_of n q y /\ z = b + y.
Proof.
  intros Hd Hc. assert (Hb := begin_wf d Hd).
  destruct (elem_add_sub_frame true (front d) n Hb) as (r & E & Hwr & Hdr & _ & Hv).
  { apply Hc. } { intros q Hq. unfold front. rewrite dims_dom_begin. now apply Hc. }
  exists r. unfold front in *. rewrite dims_dom_begin in Hdr. repeat split; auto; try apply Hwr.
  - intros Hz. destruct (proj1 (ddims_in d q)) as (b & f & Hi).
    { rewrite <- Hdr. eapply val_of_dims; eauto. }
    destruct (cut_val d n q b f Hc Hi) as (y & Hy & Hyr).
    exists b, f, y. repeat split; auto.
    assert (Hm : val_of r q ((b + y) mod 2 ^ 64)) by (apply Hv; [apply val_dom_begin; eauto | auto]).
    assert (H2 := dom_wf_at d _ _ _ Hd Hi). rewrite Z.mod_small in Hm by lia.
    eapply (val_of_fun r); eauto. apply Hwr.
  - intros (b & f & y & Hi & Hy & ->).
    assert (Hm : val_of r q ((b + y) mod 2 ^ 64)) by (apply Hv; [apply val_dom_begin; eauto | auto]).
    assert (H2 := dom_wf_at d _ _ _ Hd Hi). destruct Hc as (_ & _ & Hr). assert (H1 := Hr _ _ _ _ Hi Hy).
    rewrite Z.mod_small in Hm by lia. auto.
Qed.

Lemma remove_first_spec d n : dom_wf d -> cut_ok d n ->
  exists r, remove_first d n = Ok r /\ dom_wf r /\ ddims r = ddims d /\
   forall q b f, In (q, (b, f)) r <-> exists y b0, val_of n q y /\ In (q, (b0, f)) d /\ b = b0 + y.
Proof.
  intros Hd Hc. destruct (add_front d n Hd Hc) as (b' & Eb & Hwb & Hdb & Hvb).
  destruct (extents_minus d n Hd Hc) as (ex & m & Eex & Em & Hwm & Hdm & Hvm).
  unfold remove_first. rewrite Eb. simpl. rewrite Eex. simpl. rewrite Em. simpl.
  destruct (mk_domain_spec b' m) as (r & E & Hdr & Hwr & Hv); auto.
  { intros q. rewrite Hdb, Hdm. tauto. }
  { intros q x z Hx Hz. apply Hvb in Hx as (b & f & y & Hi & Hy & ->).
    apply Hvm in Hz as (b1 & f1 & y1 & Hi1 & Hy1 & ->).
    destruct (dom_fun d q b f b1 f1) as [<- <-]; auto; [apply Hd|].
    assert (y = y1) by (eapply (val_of_fun n); eauto; apply Hc). subst y1.
    destruct Hc as (_ & _ & Hr). assert (H1 := Hr _ _ _ _ Hi Hy).
    assert (H2 := dom_wf_at d _ _ _ Hd Hi). lia. }
  exists r. split; [exact E|]. split; [auto|]. split; [congruence|].
  intros q b f. rewrite Hv, Hvb, Hvm. split.
  - intros [(b0 & f0 & y & Hi & Hy & ->) (b1 & f1 & y1 & Hi1 & Hy1 & Ef)].
    destruct (dom_fun d q b0 f0 b1 f1) as [<- <-]; auto; [apply Hd|].
    assert (y = y1) by (eapply (val_of_fun n); eauto; apply Hc). subst y1.
    exists y, b0. replace f with f0 by lia. auto.
  - intros (y & b0 & Hy & Hi & ->). split; [exists b0, f, y; auto|].
    exists b0, f, y. repeat split; auto. lia.
Qed.
Lemma remove_last_spec d n : dom_wf d -> cut_ok d n ->
  exists r, remove_last d n = Ok r /\ dom_wf r /\ ddims r = ddims d /\
   forall q b f, In (q, (b, f)) r <-> exists y f0, val_of n q y /\ In (q, (b, f0)) d /\ f = f0 - y.
Proof.
  intros Hd Hc. assert (Hwb := begin_wf d Hd).
  destruct (extents_minus d n Hd Hc) as (ex & m & Eex & Em & Hwm & Hdm & Hvm).
  unfold remove_last. rewrite Eex. simpl. rewrite Em. simpl. unfold front.
  destruct (mk_domain_spec (dom_begin d) m) as (r & E & Hdr & Hwr & Hv); auto.
  { intros q. rewrite dims_dom_begin, Hdm. tauto. }
  { intros q x z Hx Hz. apply val_dom_begin in Hx as (f & Hi).
    apply Hvm in Hz as (b1 & f1 & y1 & Hi1 & Hy1 & ->).
    destruct (dom_fun d q x f b1 f1) as [<- <-]; auto; [apply Hd|].
    destruct Hc as (_ & _ & Hr). assert (H1 := Hr _ _ _ _ Hi Hy1).
    assert (H2 := dom_wf_at d _ _ _ Hd Hi). lia. }
  exists r. split; [exact E|]. split; [auto|]. split; [rewrite Hdr; apply dims_dom_begin|].
  intros q b f. rewrite Hv, val_dom_begin, Hvm. split.
  - intros [(f0 & Hi) (b1 & f1 & y1 & Hi1 & Hy1 & Ef)].
    destruct (dom_fun d q b f0 b1 f1) as [<- <-]; auto; [apply Hd|].
    exists y1, f0. repeat split; auto. lia.
  - intros (y & f0 & Hy & Hi & ->). split; [eauto|].
    exists b, f0, y. repeat split; auto. lia.
Qed.
Lemma take_last_spec d n : dom_wf d -> cut_ok d n ->
  exists r, take_last d n = Ok r /\ dom_wf r /\ ddims r = ddims d /\
   forall q b f, In (q, (b, f)) r <-> exists y b0, val_of n q y /\ In (q, (b0, f)) d /\ b = f - y.
Proof.
  intros Hd Hc.
  destruct (extents_minus d n Hd Hc) as (ex & m & Eex & Em & Hwm & Hdm & Hvm).
  unfold take_last. rewrite Eex. simpl. rewrite Em. simpl.
  assert (Hcm : cut_ok d m).
  { split; [auto|]. split; [intros q; now rewrite Hdm|]. intros q b f z Hi Hz.
    apply Hvm in Hz as (b1 & f1 & y1 & Hi1 & Hy1 & ->).
    destruct (dom_fun d q b f b1 f1) as [<- <-]; auto; [apply Hd|].
    destruct Hc as (_ & _ & Hr). assert (H1 := Hr _ _ _ _ Hi Hy1). lia. }
  destruct (add_front d m Hd Hcm) as (b' & Eb & Hwb & Hdb & Hvb). rewrite Eb. simpl.
  assert (Hb' : forall q z, val_of b' q z <-> exists b f y, In (q, (b, f)) d /\ val_of n q y /\ z = f - y).
  { intros q z. rewrite Hvb. split.
    - intros (b & f & y & Hi & Hy & ->). apply Hvm in Hy as (b1 & f1 & y1 & Hi1 & Hy1 & ->).
      destruct (dom_fun d q b f b1 f1) as [<- <-]; auto; [apply Hd|].
      exists b, f, y1. repeat split; auto. lia.
    - intros (b & f & y & Hi & Hy & ->). exists b, f, (f - b - y). repeat split; auto; [|lia].
      apply Hvm. exists b, f, y. auto. }
  destruct (mk_domain_spec b' n) as (r & E & Hdr & Hwr & Hv); auto.
  { apply Hc. } { intros q. rewrite Hdb. apply Hc. }
  { intros q x z Hx Hz. apply Hb' in Hx as (b & f & y & Hi & Hy & ->).
    assert (y = z) by (eapply (val_of_fun n); eauto; apply Hc). subst z.
    destruct Hc as (_ & _ & Hr). assert (H1 := Hr _ _ _ _ Hi Hy).
    assert (H2 := dom_wf_at d _ _ _ Hd Hi). lia. }
  exists r. split; [exact E|]. split; [auto|]. split; [congruence|].
  intros q b f. rewrite Hv, Hb'. split.
  - intros [(b0 & f0 & y & Hi & Hy & ->) Hz].
    assert (y = f - (f0 - y)) by (eapply (val_of_fun n); eauto; apply Hc).
    exists y, b0. replace f with f0 by lia. repeat split; auto.
  - intros (y & b0 & Hy & Hi & ->). split; [exists b0, f, y; auto|].
    replace (f - (f - y)) with y by lia. auto.
Qed.
Lemma remove_both_spec d n1 n2 : dom_wf d -> cut_ok d n1 -> cut_ok d n2 ->
  (forall q b f y1 y2, In (q, (b, f)) d -> val_of n1 q y1 -> val_of n2 q y2 -> y1 + y2 <= f - b) ->
  exists r, remove_both d n1 n2 = Ok r /\ dom_wf r /\ ddims r = ddims d /\
   forall q b f, In (q, (b, f)) r <-> exists y1 y2 b0 f0, val_of n1 q y1 /\ val_of n2 q y2 /\
      In (q, (b0, f0)) d /\ b = b0 + y1 /\ f = f0 - y2.
Proof.
  intros Hd Hc1 Hc2 Hsum. destruct (add_front d n1 Hd Hc1) as (b' & Eb & Hwb & Hdb & Hvb).
  destruct (extents_minus d n1 Hd Hc1) as (ex & m & Eex & Em & Hwm & Hdm & Hvm).
  unfold remove_both. rewrite Eb. simpl. rewrite Eex. simpl. rewrite Em. simpl.
  destruct (vect_addsub_same false m n2) as [H _]; auto. { apply Hc2. }
  { intros q. rewrite Hdm. symmetry. apply Hc2. }
  destruct H as (k & Ek & Hwk & Hdk & Hvk).
  { intros q x y Hx Hy. apply Hvm in Hx as (b & f & y1 & Hi & Hy1 & ->).
    assert (H1 := Hsum _ _ _ _ _ Hi Hy1 Hy). destruct Hc1 as (_ & _ & Hr1). destruct Hc2 as (_ & _ & Hr2).
    assert (H3 := Hr1 _ _ _ _ Hi Hy1). assert (H4 := Hr2 _ _ _ _ Hi Hy).
    assert (H2 := dom_wf_at d _ _ _ Hd Hi). mlia. }
  rewrite Ek. simpl.
  assert (Hk : forall q z, val_of k q z <-> exists b f y1 y2, In (q, (b, f)) d /\ val_of n1 q y1 /\ val_of n2 q y2 /\ z = f - b - y1 - y2).
  { intros q z. split.
    - intros Hz. destruct (proj1 (ddims_in d q)) as (b & f & Hi).
      { rewrite <- Hdm, <- Hdk. eapply val_of_dims; eauto. }
      destruct (cut_val d n1 q b f Hc1 Hi) as (y1 & Hy1 & _).
      destruct (cut_val d n2 q b f Hc2 Hi) as (y2 & Hy2 & _).
      exists b, f, y1, y2. repeat split; auto.
      assert (val_of m q (f - b - y1)) by (apply Hvm; exists b, f, y1; auto).
      assert (H0 := Hvk q _ _ H Hy2). eapply (val_of_fun k); eauto. apply Hwk.
    - intros (b & f & y1 & y2 & Hi & Hy1 & Hy2 & ->). apply (Hvk q); auto. apply Hvm. exists b, f, y1; auto. }
  destruct (mk_domain_spec b' k) as (r & E & Hdr & Hwr & Hv); auto.
  { intros q. rewrite Hdb, Hdk, Hdm. tauto. }
  { intros q x z Hx Hz. apply Hvb in Hx as (b & f & y & Hi & Hy & ->).
    apply Hk in Hz as (b1 & f1 & y1 & y2 & Hi1 & Hy1 & Hy2 & ->).
    destruct (dom_fun d q b f b1 f1) as [<- <-]; auto; [apply Hd|].
    assert (y = y1) by (eapply (val_of_fun n1); eauto; apply Hc1). subst y1.
    assert (H0 := Hsum _ _ _ _ _ Hi Hy1 Hy2).
    destruct Hc2 as (_ & _ & Hr). assert (H1 := Hr _ _ _ _ Hi Hy2).
    assert (H2 := dom_wf_at d _ _ _ Hd Hi). lia. }
  exists r. split; [exact E|]. split; [auto|]. split; [congruence|].
  intros q b f. rewrite Hv, Hvb, Hk. split.
  - intros [(b0 & f0 & y & Hi & Hy & ->) (b1 & f1 & y1 & y2 & Hi1 & Hy1 & Hy2 & Ef)].
    destruct (dom_fun d q b0 f0 b1 f1) as [<- <-]; auto; [apply Hd|].
    assert (y = y1) by (eapply (val_of_fun n1); eauto; apply Hc1). subst y1.
    exists y, y2, b0, f0. repeat split; auto. lia.
  - intros (y1 & y2 & b0 & f0 & Hy1 & Hy2 & Hi & -> & ->). split; [exists b0, f0, y1; auto|].
    exists b0, f0, y1, y2. repeat split; auto. lia.
Qed.

(** ** Merging elements *)
Lemma contains_single q e : type_seq_contains_v [q] (dims e) = true <-> In q (dims e).
Proof. rewrite contains_spec. unfold incl. simpl. split; [intros H; apply H; auto | intros H t [<-|[]]; auto]. Qed.
Lemma dims_concat es : dims (concat es) = concat (map dims es).
Proof. unfold dims. rewrite concat_map. reflexivity. Qed.
Lemma take_from_spec q es : NoDup (dims (concat es)) -> In q (dims (concat es)) ->
  exists h, take_from q es = Ok h /\ In h es /\ In q (dims h) /\ NoDup (dims h).
Proof.
  induction es as [|h es IH]; simpl; [tauto|]. intros Hn Hq.
  unfold dims in Hn, Hq. rewrite map_app in Hn, Hq. fold (dims h) in Hn, Hq. fold (dims (concat es)) in Hn, Hq.
  destruct (in_tags_v q (dims h)) eqn:E.
  - apply in_tags_v_spec in E. simpl.
    assert (Hall : forallb (fun x => negb (in_tags_v q (dims x) && true)) es = true).
    { apply forallb_forall. intros x Hx. destruct (in_tags_v q (dims x)) eqn:Ex; auto.
      apply in_tags_v_spec in Ex. exfalso.
      assert (In q (dims (concat es))).
      { rewrite dims_concat. apply in_concat. exists (dims x). split; auto. now apply in_map. }
      revert Hn E H. clear. induction (dims h); simpl; [tauto|]. intros Hn [<-|H1] H2; inversion Hn as [|? ? Hna Hnb]; subst.
      - apply Hna. apply in_or_app; auto.
      - apply IHt; auto. }
    rewrite Hall. exists h. repeat split; auto. now apply NoDup_app_inv in Hn.
  - simpl. apply in_tags_v_false in E. apply in_app_or in Hq as [Hq|Hq]; [contradiction|].
    destruct IH as (h' & E' & Hi & Hd & Hnd); auto. { now apply NoDup_app_inv in Hn. }
    exists h'. auto.
Qed.
Lemma construct_spec ts es : NoDup (dims (concat es)) -> incl ts (dims (concat es)) ->
  exists r, construct ts es = Ok r /\ dims r = ts /\
    forall q x, val_of r q x <-> In q ts /\ val_of (concat es) q x.
Proof.
  intros Hn. induction ts as [|q ts IH]; intros Hi; simpl.
  - exists []. split; [reflexivity|]. split; [reflexivity|]. intros q x. unfold val_of. simpl. tauto.
  - destruct (take_from_spec q es) as (h & E & Hh & Hq & Hnh); auto; [apply Hi; now left|].
    rewrite E. simpl. destruct (get_in q h Hq) as [a Ha]. rewrite Ha. simpl.
    destruct IH as (r & Er & Hd & Hv); [intros t Ht; apply Hi; now right|]. rewrite Er. simpl.
    apply get_spec in Ha; auto.
    assert (Hca : val_of (concat es) q a) by (apply in_concat; exists h; auto).
    eexists. split; [reflexivity|]. split; [simpl; f_equal; exact Hd|].
    intros t x. unfold val_of in *. simpl. rewrite Hv. split.
    + intros [Et|[Ht Hx]]; [injection Et as <- <-; auto | auto].
    + intros [[<-|Ht] Hx]; [|auto]. left. f_equal. eapply (val_of_fun (concat es)); eauto.
Qed.

Lemma sum_sizes_spec es : sum_sizes es = length (concat es).
Proof.
  unfold sum_sizes. assert (H : forall a, fold_left (fun a e => (a + length e)%nat) es a = (a + length (concat es))%nat).
  { induction es as [|e es IH]; intros a; simpl; [lia|]. rewrite IH, app_length. lia. }
  apply (H O).
Qed.
Lemma elem_of_dims_length d e : NoDup (ddims d) -> elem_of_dims d e -> length d = length e.
Proof.
  intros Hn [He Hs]. rewrite <- (map_length fst d), <- (map_length fst e).
  apply Nat.le_antisymm; apply NoDup_incl_length; auto; intros q Hq; now apply Hs.
Qed.

Lemma contains_loop_spec d e : dims e = ddims d ->
  (contains_loop d e = true <-> forall k q b f x, nth_error d k = Some (q, (b, f)) -> nth_error e k = Some (q, x) -> b <= x < f).
Proof.
  revert e. induction d as [|[t [b f]] d IH]; intros [|[t' x] e] Hd; simpl in *; try discriminate.
  - split; auto. intros _ [|k]; discriminate.
  - injection Hd as -> Hd. specialize (IH e Hd).
    destruct ((x <? b) || (f <=? x)) eqn:E.
    + split; [discriminate|]. intros H. specialize (H O t b f x eq_refl eq_refl). lia.
    + rewrite IH. split.
      * intros H [|k] q b' f' x'; simpl; [|apply H]. intros E1 E2. injection E1 as <- <- <-. injection E2 as <-. lia.
      * intros H k. apply (H (S k)).
Qed.
Lemma nth_dims_agree d e k q b f : dims e = ddims d -> nth_error d k = Some (q, (b, f)) -> exists x, nth_error e k = Some (q, x).
Proof.
  revert e k. induction d as [|[t [b0 f0]] d IH]; intros [|[t' x] e] [|k] Hd; simpl in *; try discriminate.
  - intros E. injection E as -> -> ->. injection Hd as -> _. eauto.
  - injection Hd as _ Hd. now apply IH.
Qed.
Lemma nth_dims_agree' d e k q x : dims e = ddims d -> nth_error e k = Some (q, x) -> exists b f, nth_error d k = Some (q, (b, f)).
Proof.
  revert e k. induction d as [|[t [b0 f0]] d IH]; intros [|[t' y] e] [|k] Hd; simpl in *; try discriminate.
  - intros E. injection E as -> ->. injection Hd as -> _. eauto.
  - injection Hd as _ Hd. now apply IH.
Qed.
Lemma contains_loop_val d e : dims e = ddims d -> NoDup (ddims d) ->
  (contains_loop d e = true <-> forall q b f, In (q, (b, f)) d -> exists x, val_of e q x /\ b <= x < f).
Proof.
  intros Hd Hn. rewrite contains_loop_spec by auto. split.
  - intros H q b f Hi. apply In_nth_error in Hi as [k Hk].
    destruct (nth_dims_agree d e k q b f Hd Hk) as [x Hx]. exists x. split; [eapply nth_error_In; eauto|].
    eapply H; eauto.
  - intros H k q b f x Hk Hx. apply nth_error_In in Hk. destruct (H _ _ _ Hk) as (y & Hy & Hr).
    apply nth_error_In in Hx. assert (x = y); [|now subst]. eapply (val_of_fun e); eauto. now rewrite Hd.
Qed.
Lemma contains_spec_box d es : NoDup (ddims d) -> elem_of_dims d (concat es) ->
  exists r, contains d es = Ok r /\ (r = true <-> in_box d (concat es)).
Proof.
  intros Hn He. unfold contains. rewrite sum_sizes_spec, <- (elem_of_dims_length d (concat es)) by auto.
  rewrite Nat.eqb_refl. destruct (construct_spec (ddims d) es) as (r & E & Hd & Hv).
  { apply He. } { intros q Hq. now apply He. }
  rewrite E. simpl. eexists. split; [reflexivity|]. rewrite contains_loop_val by auto.
  unfold in_box. split.
  - intros H. split; [auto|]. intros q b f Hi. destruct (H q b f Hi) as (x & Hx & Hr).
    exists x. split; auto. now apply Hv in Hx.
  - intros [_ H] q b f Hi. destruct (H q b f Hi) as (x & Hx & Hr). exists x. split; auto.
    apply Hv. split; auto. apply ddims_in; eauto.
Qed.

(** ** distance_from_front *)
Lemma distance_loop_spec d e : dims e = ddims d ->
  dims (distance_loop d e) = ddims d /\
  forall k q b f x, nth_error d k = Some (q, (b, f)) -> nth_error e k = Some (q, x) ->
    nth_error (distance_loop d e) k = Some (q, i64 (u64_sub x b)).
Proof.
  revert e. induction d as [|[t [b f]] d IH]; intros [|[t' x] e] Hd; simpl in *; try discriminate.
  - split; auto. intros [|k]; discriminate.
  - injection Hd as -> Hd. destruct (IH e Hd) as [H1 H2]. split; [f_equal; exact H1|].
    intros [|k] q b' f' x'; simpl; [|apply H2]. intros E1 E2. injection E1 as <- <- <-. now injection E2 as <-.
Qed.
Lemma distance_spec d es : dom_wf d -> elem_of_dims d (concat es) ->
  exists v, distance_from_front d es = Ok v /\ dims v = ddims d /\
    forall q b f x, In (q, (b, f)) d -> val_of (concat es) q x -> val_of v q (i64 (u64_sub x b)).
Proof.
  intros Hd He. unfold distance_from_front. rewrite sum_sizes_spec, <- (elem_of_dims_length d (concat es)); auto; [|apply Hd].
  rewrite Nat.eqb_refl. destruct (construct_spec (ddims d) es) as (r & E & Hdr & Hv).
  { apply He. } { intros q Hq. now apply He. }
  rewrite E. simpl. destruct (distance_loop_spec d r Hdr) as [H1 H2]. eexists. split; [reflexivity|].
  split; [exact H1|]. intros q b f x Hi Hx. apply In_nth_error in Hi as [k Hk].
  destruct (nth_dims_agree d r k q b f Hdr Hk) as [y Hy].
  assert (y = x).
  { eapply (val_of_fun (concat es)); [apply He | | exact Hx]. apply (proj1 (Hv q y)). eapply nth_error_In; eauto. }
  subst y. eapply nth_error_In. eapply H2; eauto.
Qed.


Lemma distance_then_at d es : dom_wf d -> in_box d (concat es) ->
  exists v e, distance_from_front d es = Ok v /\ offset_in_range d v /\
    dom_at d v = Ok e /\ same_values e (concat es).
Proof.
  intros Hd [He Hb]. destruct (distance_spec d es Hd He) as (v & Ev & Hdv & Hv).
  assert (Hval : forall q b f, In (q, (b, f)) d -> exists x, val_of (concat es) q x /\ b <= x < f /\ val_of v q (x - b)).
  { intros q b f Hi. destruct (Hb q b f Hi) as (x & Hx & Hr). exists x. repeat split; auto; try lia.
    assert (H := Hv q b f x Hi Hx). assert (H2 := dom_wf_at d _ _ _ Hd Hi).
    replace (i64 (u64_sub x b)) with (x - b) in H by mlia. auto. }
  assert (Hnv : NoDup (dims v)) by (rewrite Hdv; apply Hd).
  assert (Hvwf : vect_wf v).
  { split; auto. apply forall_values. intros q y Hy. destruct (proj1 (ddims_in d q)) as (b & f & Hi).
    { rewrite <- Hdv. eapply val_of_dims; eauto. }
    destruct (Hval q b f Hi) as (x & Hx & Hr & Hw). assert (y = x - b) by (eapply (val_of_fun v); eauto).
    assert (H2 := dom_wf_at d _ _ _ Hd Hi). mlia. }
  destruct (elem_add_sub_frame true (dom_begin d) v) as (e & E & Hwe & Hde & _ & Hve).
  { apply begin_wf; auto. } { auto. } { intros q. now rewrite Hdv, dims_dom_begin. }
  exists v, e. split; [exact Ev|]. split.
  { split; [split; [auto | intros q; now rewrite Hdv]|]. intros q b f Hi.
    destruct (Hval q b f Hi) as (x & Hx & Hr & Hw). exists (x - b). split; auto. lia. }
  split; [exact E|]. rewrite dims_dom_begin in Hde.
  apply same_values_of_dims; [rewrite Hde; apply Hd | apply He | intros q; rewrite Hde; symmetry; apply He |].
  intros q y Hy. destruct (proj1 (ddims_in d q)) as (b & f & Hi).
  { rewrite <- Hde. eapply val_of_dims; eauto. }
  destruct (Hval q b f Hi) as (x & Hx & Hr & Hw).
  assert (Hz : val_of e q ((b + (x - b)) mod 2 ^ 64)).
  { apply Hve; auto. apply val_dom_begin; eauto. }
  assert (H2 := dom_wf_at d _ _ _ Hd Hi). rewrite Z.mod_small in Hz by lia.
  replace (b + (x - b)) with x in Hz by lia.
  assert (y = x) by (eapply (val_of_fun e); eauto; apply Hwe). now subst.
Qed.
Lemma at_then_distance d v : dom_wf d -> offset_in_range d v ->
  exists e w, dom_at d v = Ok e /\ in_box d e /\ contains d [e] = Ok true /\
    distance_from_front d [e] = Ok w /\ same_values w v.
Proof.
  intros Hd [[Hnv Hsv] Hr].
  assert (Hvr : forall q y, val_of v q y -> exists b f, In (q, (b, f)) d /\ 0 <= y < f - b).
  { intros q y Hy. destruct (proj1 (ddims_in d q)) as (b & f & Hi).
    { apply Hsv. eapply val_of_dims; eauto. }
    destruct (Hr q b f Hi) as (x & Hx & Hxr). assert (x = y) by (eapply (val_of_fun v); eauto).
    subst. exists b, f. auto. }
  assert (Hvwf : vect_wf v).
  { split; auto. apply forall_values. intros q y Hy. destruct (Hvr q y Hy) as (b & f & Hi & Hy').
    assert (H2 := dom_wf_at d _ _ _ Hd Hi). mlia. }
  destruct (elem_add_sub_frame true (dom_begin d) v) as (e & E & Hwe & Hde & _ & Hve).
  { apply begin_wf; auto. } { auto. } { intros q Hq. rewrite dims_dom_begin. now apply Hsv. }
  rewrite dims_dom_begin in Hde.
  assert (Hve' : forall q b f y, In (q, (b, f)) d -> val_of v q y -> val_of e q (b + y) /\ 0 <= y < f - b).
  { intros q b f y Hi Hy. assert (Hb : val_of (dom_begin d) q b) by (apply val_dom_begin; eauto).
    assert (H := Hve q b y Hb Hy). destruct (Hvr q y Hy) as (b' & f' & Hi' & Hy').
    destruct (dom_fun d q b f b' f') as [<- <-]; auto; [apply Hd|].
    assert (H2 := dom_wf_at d _ _ _ Hd Hi). rewrite Z.mod_small in H by lia. auto. }
  assert (Hed : elem_of_dims d e) by (split; [apply Hwe | intros q; now rewrite Hde]).
  assert (Hbox : in_box d e).
  { split; auto. intros q b f Hi. destruct (Hr q b f Hi) as (y & Hy & Hyr).
    exists (b + y). destruct (Hve' q b f y Hi Hy). split; auto. lia. }
  destruct (contains_spec_box d [e]) as (r & Er & Hrr); [apply Hd | simpl; now rewrite app_nil_r|].
  simpl in Hrr. rewrite app_nil_r in Hrr. rewrite (proj2 Hrr Hbox) in Er.
  destruct (distance_spec d [e] Hd) as (w & Ew & Hdw & Hw); [simpl; now rewrite app_nil_r|].
  simpl in Hw. rewrite app_nil_r in Hw.
  exists e, w. repeat split; auto; try apply Hed; try apply Hbox; intros Hx.
  - destruct (proj1 (ddims_in d q)) as (b & f & Hi). { rewrite <- Hdw. eapply val_of_dims; eauto. }
    destruct (Hr q b f Hi) as (y & Hy & Hyr). destruct (Hve' q b f y Hi Hy) as [Hby _].
    assert (H := Hw q b f _ Hi Hby). assert (H2 := dom_wf_at d _ _ _ Hd Hi).
    replace (i64 (u64_sub (b + y) b)) with y in H by mlia.
    assert (x = y); [|now subst]. eapply (val_of_fun w); eauto. rewrite Hdw. apply Hd.
  - destruct (Hvr q x Hx) as (b & f & Hi & Hxr). destruct (Hve' q b f x Hi Hx) as [Hby _].
    assert (H := Hw q b f _ Hi Hby). assert (H2 := dom_wf_at d _ _ _ Hd Hi).
    replace (i64 (u64_sub (b + x) b)) with x in H by mlia. auto.
Qed.
