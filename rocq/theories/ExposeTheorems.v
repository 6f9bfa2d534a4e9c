From Coq Require Import String.
From Verif Require Import Machine ListAux TypeSeqModel TaggedModel TaggedSpec DomainModel DomainSpec DomainProofs DomainProofs2 SpanModel SpanSpec
  SpanProofs StorageProofs ParModel ParSpec ParProofs ParProofs2 PdiModel PdiSpec PdiProofs ExposeModel ExposeSpec ExposeProofs.
Local Open Scope Z_scope.

Lemma sizes_fit d : dom_wf d -> Forall (fun n => 0 <= n < 2 ^ 64) (sizes d).
Proof. intros (_ & H). apply Forall_map. eapply Forall_impl; [|exact H]. intros (q & b & f). cbn. lia. Qed.

Lemma expose_reads {V} ev l1 l2 name a s wr w0 (m : memory V) : span_wf s -> packed s ->
  (forall k, owned w0 k = None) -> (forall n k b, ~ In (Own k, b) (shared w0 n)) ->
  Forall acceptable (l1 ++ l2) -> Forall extents_fit (l1 ++ l2) -> apart name l2 ->
  match a with Some a => acc_in a = true -> wr = true | None => True end ->
  exists d before after w1 w2 vals, exposed s wr = Ok d /\
    event_life ev (l1 ++ (name, a, d) :: l2) = Ok (before ++ [PDI_event ev] ++ after) /\
    (forall n, ~ In (PDI_event n) (before ++ after)) /\ steps w0 before w1 /\ steps w1 after w2 /\ same_world w2 w0 /\
    pdi_sees w1 m name (sizes (s_dom s)) vals (match a with Some a => a | None => if wr then read_write else read_only end) /\
    values_of m s vals.
Proof.
  intros Hw Hp Hf Hs Ha He Hap Hacc. assert (Hd := proj1 Hw).
  destruct (life_sees ev l1 l2 name a (sizes (s_dom s)) (m_ptr (s_md s)) wr w0 m Hf Hs) as (before & after & w1 & w2 & E & N & S1 & S2 & SW & P); auto.
  - apply Forall_app in Ha as [Ha1 Ha2]. apply Forall_app. split; [auto|]. constructor; [cbn; destruct a; auto | auto].
  - apply Forall_app in He as [He1 He2]. apply Forall_app. split; [auto|]. constructor; [cbn; now apply sizes_fit | auto].
  - exists (Chunk (sizes (s_dom s)) (m_ptr (s_md s)) wr), before, after, w1, w2, (array_at m (m_ptr (s_md s)) (sizes (s_dom s))).
    split; [now apply exposed_ok|]. split; [exact E|]. split; [exact N|]. split; [exact S1|]. split; [exact S2|]. split; [exact SW|]. split; [exact P|]. now apply reads_values.
Qed.

(** ** The converse *)
Lemma steps_det w l : forall w1 w2, steps w l w1 -> steps w l w2 -> w1 = w2.
Proof.
  revert w. induction l as [|c l IH]; intros w w1 w2 H1 H2; inversion H1; inversion H2; subst; auto.
  assert (w' = w'0); [|subst; eauto].
  match goal with A : step w c w', B : step w c w'0 |- _ => clear -A B; inversion A; subst; inversion B; subst; try reflexivity; try congruence end.
Qed.
Lemma event_once ev (b a b' a' : list call) : (forall n, ~ In (PDI_event n) (b ++ a)) ->
  b ++ [PDI_event ev] ++ a = b' ++ [PDI_event ev] ++ a' -> b = b'.
Proof.
  revert b'. induction b as [|c b IH]; intros [|c' b'] N E; cbn in *; auto.
  - injection E as _ Ea. exfalso. apply (N ev). rewrite Ea. apply in_app_iff. cbn. auto.
  - injection E as Ec _. exfalso. apply (N ev). cbn. auto.
  - injection E as <- E. f_equal. eapply IH; [|exact E]. intros n H. apply (N n). auto.
Qed.
Lemma expose_iff s wr ev name : span_wf s -> (reads_well s wr ev name <-> packed s).
Proof.
  intros Hw. split.
  - intros H. apply reads_values_conv; auto. intros m. destruct (H m) as (d & before & after & w1 & vals & Ed & E & S1 & P & Q).
    rewrite exposed_ok in Ed by auto. assert (d = Chunk (sizes (s_dom s)) (m_ptr (s_md s)) wr) by congruence. subst d. clear Ed.
    destruct (life_sees ev [] [] name None (sizes (s_dom s)) (m_ptr (s_md s)) wr no_pdi m) as (before' & after' & w1' & w2' & E' & N' & S1' & _ & _ & P').
    { reflexivity. } { intros n k b []. } { repeat constructor. } { repeat constructor. cbn. now apply sizes_fit, Hw. } { intros ? ? []. }
    cbn [app] in E'. rewrite E' in E.
    assert (EE : before' ++ [PDI_event ev] ++ after' = before ++ [PDI_event ev] ++ after) by (cbn [app] in *; congruence).
    apply event_once in EE; auto. subst before'. assert (w1' = w1) by (eapply steps_det; eauto). subst w1'.
    destruct P as (p & i & j & r1 & r2 & r3 & _ & _ & _ & _ & Ep & Ev), P' as (p' & i' & j' & r1' & r2' & r3' & _ & _ & _ & _ & Ep' & Ev').
    assert (p = p') by congruence. subst p'. rewrite Ev', <- Ev. exact Q.
  - intros Hp m. destruct (expose_reads ev [] [] name None s wr no_pdi m Hw Hp) as (d & before & after & w1 & w2 & vals & Ed & E & _ & S1 & _ & _ & P & Q).
    { reflexivity. } { intros n k b []. } { constructor. } { constructor. } { intros ? ? []. } { exact I. }
    exists d, before, after, w1, vals. auto.
Qed.

(** ** Chunks and slices that are packed *)
Lemma chunk_packed ptr d s : dom_wf d -> box_count d < 2 ^ 64 -> span_of_ptr LRight ptr d = Ok s -> span_wf s /\ s_dom s = d /\ packed s.
Proof.
  intros Hd Hc E. destruct (address_exact ptr d Hd Hc) as (sr & sl & Er & _ & H). rewrite span_of_ptr_ok in E by auto.
  assert (s = mk_span (mk_mdspan ptr LRight (map ext1 d)) d) by congruence. subst s. clear E.
  split; [apply alloc_wf; auto; now left|]. split; [reflexivity|]. intros e X Hb HX. cbn [s_md s_dom m_ptr] in *.
  rewrite span_of_ptr_ok in Er by auto. assert (sr = mk_span (mk_mdspan ptr LRight (map ext1 d)) d) by congruence. subst sr.
  destruct (H [e] X) as [H1 _]; cbn [concat]; rewrite ?app_nil_r; auto.
Qed.
Lemma row_major_app a b X : row_major (a ++ b) X = row_major a X * box_count b + row_major b X.
Proof.
  induction a as [|(q, (x, f)) a IH]; cbn [row_major app]; [lia|]. rewrite IH.
  assert (E : box_count (a ++ b) = box_count a * box_count b).
  { clear. induction a as [|p a IH]; cbn [app]; [change (box_count []) with 1; ring|].
    change (box_count (p :: a ++ b)) with ((snd (snd p) - fst (snd p)) * box_count (a ++ b)). change (box_count (p :: a)) with ((snd (snd p) - fst (snd p)) * box_count a). rewrite IH. ring. }
  rewrite E. ring.
Qed.
Lemma dot_zero l st : Forall (fun x => x = 0) l -> dot l st = 0.
Proof. intros H. revert st. induction H as [|x l -> _ IH]; intros [|s st]; cbn; auto. Qed.
(** The first element. *)
Definition front_of (d : domain) : tagged := map (fun p => (fst p, fst (snd p))) d.
Lemma front_loc s : span_wf s -> loc s (vf (front_of (s_dom s))) = m_ptr (s_md s).
Proof.
  intros ((Hn & _) & _). unfold loc. rewrite dot_zero; [lia|]. apply Forall_map, Forall_forall. intros (q & b & f) Hi. cbn.
  rewrite (vf_val _ q b); [lia| |].
  - unfold front_of, dims. now rewrite map_map.
  - unfold val_of, front_of. apply in_map_iff. now exists (q, (b, f)).
Qed.
Lemma front_in d : Forall (fun p => fst (snd p) < snd (snd p)) d -> NoDup (ddims d) -> in_box d (front_of d).
Proof.
  intros H Hn. assert (Ed : dims (front_of d) = ddims d) by (unfold front_of, dims; now rewrite map_map).
  split; [split; rewrite Ed; [auto | reflexivity]|]. intros q b f Hi. rewrite Forall_forall in H. specialize (H _ Hi). cbn in H.
  exists b. split; [|lia]. unfold val_of, front_of. apply in_map_iff. now exists (q, (b, f)).
Qed.
Lemma box_pos d e : in_box d e -> Forall (fun p => fst (snd p) < snd (snd p)) d.
Proof. intros (_ & H). apply Forall_forall. intros (q & b & f) Hi. destruct (H _ _ _ Hi) as (x & _ & Hx). cbn. lia. Qed.
Lemma sliced_positions s sls : span_wf s -> packed s -> slices_ok (s_dom s) sls ->
  exists s', run_slices s sls = Ok s' /\ span_wf s' /\ s_dom s' = left_domain (s_dom s) sls /\
    ((forall e, in_box (s_dom s') e ->
        row_major (s_dom s) (vf (e ++ concat (fixed_elems sls))) - row_major (s_dom s) (vf (front_of (s_dom s') ++ concat (fixed_elems sls))) =
        row_major (s_dom s') (vf e)) <-> packed s').
Proof.
  intros Hw Hp Hs. destruct (slices_compose sls s Hw Hs) as (s' & E & Hw' & Ed & H). exists s'. split; [exact E|]. split; [exact Hw'|]. split; [exact Ed|].
  assert (L : forall e, in_box (s_dom s') e -> loc s' (vf e) = m_ptr (s_md s) + row_major (s_dom s) (vf (e ++ concat (fixed_elems sls)))).
  { intros e He. destruct (H [e]) as (Hb & x & A & B); [cbn; now rewrite app_nil_r|].
    rewrite access_loc in A by (cbn; rewrite ?app_nil_r; auto). cbn in A. rewrite app_nil_r in A.
    assert (M := access_merge s _ Hw Hb). rewrite B in M. change (concat ([e] ++ fixed_elems sls)) with (e ++ concat (fixed_elems sls)) in *. clear B. rename M into B.
    assert (P1 := Hp _ (vf (e ++ concat (fixed_elems sls))) Hb (fun q Hq => vf_val_of _ _ _ Hb Hq)).
    assert (P2 := eq_trans (eq_sym B) P1). congruence. }
  assert (F : forall e, in_box (s_dom s') e -> m_ptr (s_md s') = m_ptr (s_md s) + row_major (s_dom s) (vf (front_of (s_dom s') ++ concat (fixed_elems sls)))).
  { intros e He. rewrite <- L by (apply front_in; [now apply (box_pos _ e) | apply Hw']). symmetry. now apply front_loc. }
  rewrite packed_loc by auto. split.
  - intros G e He. destruct (trace_box _ _ (proj1 Hw') He) as (_ & _ & _ & Hb & _). rewrite L, (F e) by auto. specialize (G e Hb). lia.
  - intros G e He. assert (Q := proj2 (packed_loc s' Hw') G e (vf e) He (fun q => vf_val_of _ _ q He)).
    rewrite access_loc in Q by (cbn; rewrite ?app_nil_r; auto). cbn in Q. rewrite app_nil_r in Q.
    assert (loc s' (vf e) = m_ptr (s_md s') + row_major (s_dom s') (vf e)) by congruence.
    rewrite L, (F e) in H0 by auto. lia.
Qed.

(** ** PDI writes *)
Lemma nth_map_range {V} (m : memory V) p vals dflt : (forall k, (k < length vals)%nat -> m (p + Z.of_nat k) = nth k vals dflt) ->
  map (fun k => m (p + Z.of_nat k)) (seq 0 (length vals)) = vals.
Proof.
  intros H. apply (nth_ext _ _ dflt dflt); [now rewrite map_length, seq_length|]. intros k Hk. rewrite map_length, seq_length in Hk.
  rewrite (nth_indep _ dflt (m (p + Z.of_nat 0))) by (rewrite map_length, seq_length; lia).
  rewrite (map_nth (fun k => m (p + Z.of_nat k))). rewrite seq_nth by lia. cbn [plus]. now apply H.
Qed.
Lemma expose_writes {V} s (m : memory V) vals : span_wf s -> packed s -> Z.of_nat (length vals) = elements (sizes (s_dom s)) ->
  values_of (overwrite m (m_ptr (s_md s)) vals) s vals /\
  forall a, ~ cell_of s a -> overwrite m (m_ptr (s_md s)) vals a = m a.
Proof.
  intros Hw Hp Hl. assert (Hd := proj1 Hw). split.
  - replace vals with (array_at (overwrite m (m_ptr (s_md s)) vals) (m_ptr (s_md s)) (sizes (s_dom s))) at 2; [now apply reads_values|].
    unfold array_at. rewrite <- Hl, Nat2Z.id. destruct vals as [|v0 vals]; [reflexivity|]. apply (nth_map_range _ _ _ v0). intros k Hk. unfold overwrite.
    replace (m_ptr (s_md s) <=? m_ptr (s_md s) + Z.of_nat k) with true by lia.
    replace (m_ptr (s_md s) + Z.of_nat k <? m_ptr (s_md s) + Z.of_nat (length (v0 :: vals))) with true by lia. cbn [andb].
    replace (Z.to_nat (m_ptr (s_md s) + Z.of_nat k - m_ptr (s_md s))) with k by lia. now apply nth_indep.
  - intros a Ha. unfold overwrite. destruct (_ && _) eqn:B; auto. exfalso. apply Ha.
    assert (Hk : In (a - m_ptr (s_md s)) (zrange (prod (sizes (s_dom s))))) by (apply in_zrange; rewrite <- elements_prod, <- Hl; lia).
    rewrite <- row_order in Hk by auto. apply in_map_iff in Hk as (e & Ee & He). destruct (trace_box _ _ Hd He) as (_ & _ & _ & Hb & _).
    exists e. split; [exact Hb|]. rewrite (Hp e (vf e) Hb (fun q => vf_val_of _ _ q Hb)), Ee. f_equal. lia.
Qed.

Lemma filter_all {A} (f : A -> bool) l : (forall x, In x l -> f x = true) -> filter f l = l.
Proof. induction l as [|x l IH]; intros H; cbn; auto. rewrite (H x) by (cbn; auto). f_equal. apply IH. intros y Hy. apply H. cbn; auto. Qed.
Lemma row_major_front d : NoDup (ddims d) -> forall F, (forall q b f, In (q, (b, f)) d -> F q = b) -> row_major d F = 0.
Proof.
  intros _ F. induction d as [|(q, (b, f)) d IH]; intros H; cbn [row_major]; auto. rewrite IH by (intros; eapply H; cbn; eauto).
  rewrite (H q b f) by (cbn; auto). lia.
Qed.
Section leading.
Context (lead rest : domain) (q : tag) (b f b' f' : Z) (e : tagged).
Let d := lead ++ (q, (b, f)) :: rest.
Let o : domain := [(q, (b', f'))].
Lemma left_lead : NoDup (ddims d) -> (forall t, In t (dims e) <-> In t (ddims lead)) -> left_domain d [SElem e; SDom o] = (q, (b', f')) :: rest.
Proof.
  intros Hn He. unfold d, ddims in Hn. rewrite map_app in Hn. cbn [map fst] in Hn.
  cbn [left_domain]. unfold left_dims, d. rewrite filter_app.
  rewrite (filter_none _ lead).
  2:{ intros (t, x) Hi. cbn. apply Bool.negb_false_iff, has_dim_spec, He. unfold ddims. apply in_map_iff. now exists (t, x). }
  cbn [app]. rewrite filter_all.
  2:{ intros (t, x) Hi. cbn. apply Bool.negb_true_iff. destruct (has_dim (dims e) t) eqn:Ht; auto. apply has_dim_spec, He in Ht. exfalso.
      assert (Ht' : In t (q :: map fst rest)) by (change (In (fst (t, x)) (map fst ((q, (b, f)) :: rest))); now apply in_map).
      clear -Hn Ht Ht'. unfold ddims in Ht. induction (map fst lead) as [|y l IH]; cbn in *; [easy|]. inversion Hn; subst.
      destruct Ht as [->|Ht]; [|now apply IH]. apply H1, in_app_iff. now right. }
  unfold override, o. cbn [map find fst snd]. rewrite Nat.eqb_refl. f_equal.
  rewrite <- (map_id rest) at 2. apply map_ext_in. intros (t, x) Hi. cbn.
  destruct (Nat.eqb_spec q t) as [->|]; auto. exfalso. apply NoDup_remove_2 in Hn. apply Hn, in_app_iff. right. apply in_map_iff. now exists (t, x).
Qed.
Lemma leading_packed ptr s : dom_wf d -> box_count d < 2 ^ 64 -> elem_ok d e -> (forall t, In t (dims e) <-> In t (ddims lead)) ->
  b <= b' <= f' -> f' <= f -> span_of_ptr LRight ptr d = Ok s ->
  exists s', run_slices s [SElem e; SDom o] = Ok s' /\ span_wf s' /\ s_dom s' = (q, (b', f')) :: rest /\ packed s'.
Proof.
  intros Hd Hc He Hdim H1 H2 E. destruct (chunk_packed ptr d s Hd Hc E) as (Hw & Es & Hp). assert (Hn := proj1 Hd).
  assert (Hq : 0 <= b /\ b <= f < 2 ^ 64 /\ f - b < 2 ^ 63).
  { destruct Hd as [_ Hd]. rewrite Forall_forall in Hd. apply (Hd (q, (b, f))). unfold d. apply in_app_iff. cbn. auto. }
  assert (Hld : left_dims d e = (q, (b, f)) :: rest).
  { unfold left_dims, d. rewrite filter_app.
    rewrite (filter_none _ lead). 2:{ intros (t, x) Hi. cbn. apply Bool.negb_false_iff, has_dim_spec, Hdim. unfold ddims. apply in_map_iff. now exists (t, x). }
    cbn [app]. apply filter_all. intros (t, x) Hi. cbn. apply Bool.negb_true_iff. destruct (has_dim (dims e) t) eqn:Ht; auto. apply has_dim_spec, Hdim in Ht. exfalso.
    assert (Ht' : In t (q :: map fst rest)) by (change (In (fst (t, x)) (map fst ((q, (b, f)) :: rest))); now apply in_map).
    unfold d, ddims in Hn. rewrite map_app in Hn. cbn [map fst] in Hn. clear -Hn Ht Ht'. unfold ddims in Ht. induction (map fst lead) as [|y l IH]; cbn in *; [easy|]. inversion Hn; subst.
    destruct Ht as [->|Ht]; [|now apply IH]. apply H1, in_app_iff. now right. }
  assert (Hnr : NoDup (ddims ((q, (b, f)) :: rest))) by (rewrite <- Hld; apply left_dims_wf; auto).
  assert (Hs : slices_ok (s_dom s) [SElem e; SDom o]).
  { rewrite Es. cbn [slices_ok]. split; [exact He|]. rewrite Hld. split; [|exact I]. unfold o. split; [|split].
    - split; [repeat constructor; easy | repeat constructor; cbn; lia].
    - intros t [<-|[]]. cbn. auto.
    - intros t x y x' y' Hi [Hj|[]]. injection Hj as <- <- <-. assert (x = b /\ y = f); [|lia].
      cbn in Hnr. inversion Hnr; subst. destruct Hi as [Hi|Hi]; [split; congruence|]. exfalso. apply H3. apply in_map_iff. now exists (q, (x, y)). }
  destruct (sliced_positions s _ Hw Hp Hs) as (s' & Er & Hw' & Ed' & [Hpack _]).
  assert (El := left_lead Hn Hdim). rewrite Es in Ed'. rewrite El in Ed'. exists s'. split; [exact Er|]. split; [exact Hw'|]. split; [exact Ed'|].
  apply Hpack. intros x Hx. rewrite Es. unfold d. rewrite !row_major_app. cbn [fixed_elems app concat]. rewrite app_nil_r. rewrite Ed' in *.
  assert (Hfr : in_box ((q, (b', f')) :: rest) (front_of ((q, (b', f')) :: rest))) by (apply front_in; [now apply (box_pos _ x) | exact Hnr]).
  assert (V : forall y, in_box ((q, (b', f')) :: rest) y -> (forall t, In t (ddims lead) -> vf (y ++ e) t = vf e t) /\
                        (forall t, In t (q :: ddims rest) -> vf (y ++ e) t = vf y t)).
  { intros y Hy. assert (N : NoDup (dims (y ++ e))).
    { destruct Hy as ((Ny & Iy) & _). unfold dims. rewrite map_app. change (NoDup (dims y ++ dims e)). apply NoDup_app_intro; auto; [apply He|].
      intros t Ht Ht'. apply Iy in Ht. apply Hdim in Ht'. unfold d, ddims in Hn. rewrite map_app in Hn. cbn [map fst] in Hn. change (In t (q :: map fst rest)) in Ht. unfold ddims in Ht'.
      clear -Hn Ht Ht'. induction (map fst lead) as [|z l IH]; cbn [app] in *; [easy|]. inversion Hn; subst.
      destruct Ht' as [->|Ht']; [|now apply IH]. apply H1, in_app_iff. now right. }
    split; intros t Ht; [apply vf_app_r; auto; now apply Hdim|]. apply vf_app_l; auto. destruct Hy as ((_ & Iy) & _). apply Iy. exact Ht. }
  destruct (V x Hx) as [Vx1 Vx2], (V _ Hfr) as [Vf1 Vf2].
  rewrite (row_major_ext lead _ (vf e)) by exact Vx1. rewrite (row_major_ext lead (vf (_ ++ e)) (vf e)) by exact Vf1.
  cbn [row_major]. rewrite Vx2, Vf2 by (cbn; auto).
  rewrite (row_major_ext rest (vf (x ++ e)) (vf x)) by (intros t Ht; apply Vx2; cbn; auto).
  assert (Fv : forall t y z, In (t, (y, z)) ((q, (b', f')) :: rest) -> vf (front_of ((q, (b', f')) :: rest)) t = y).
  { intros t y z Hi. apply vf_val; [apply Hfr|]. unfold val_of, front_of. apply in_map_iff. now exists (t, (y, z)). }
  rewrite (row_major_front rest) with (F := vf (front_of ((q, (b', f')) :: rest) ++ e)); [|now inversion Hnr|].
  - rewrite (Fv q b' f') by (cbn; auto). ring.
  - intros t y z Hi. rewrite Vf2; [apply (Fv t y z); cbn; auto|]. right. apply in_map_iff. now exists (t, (y, z)).
Qed.
End leading.

(** ** Slices and layouts that are not *)
Section plane.
Context (qx qy : tag) (x0 x1 y0 y1 ptr : Z) (Hq : qx <> qy).
Let d : domain := [(qx, (x0, x1)); (qy, (y0, y1))].
Context (Hd : dom_wf d) (Hc : box_count d < 2 ^ 64).
Lemma get_two t t' u v : t <> t' -> vf [(t, u); (t', v)] t = u /\ vf [(t, u); (t', v)] t' = v.
Proof.
  intros Ht. assert (N : NoDup (dims [(t, u); (t', v)])) by (cbn; constructor; [intros [E|[]]; auto | repeat constructor; easy]).
  split; apply vf_val; auto; unfold val_of; cbn; auto.
Qed.
Lemma get_one t u : vf [(t, u)] t = u.
Proof. apply vf_val; [cbn; repeat constructor; easy | unfold val_of; cbn; auto]. Qed.
Lemma box_two u v : x0 <= u < x1 -> y0 <= v < y1 -> in_box d [(qx, u); (qy, v)].
Proof.
  intros Hu Hv. split; [split; cbn; [constructor; [intros [E|[]]; auto | repeat constructor; easy] | reflexivity]|].
  intros t b f [E|[E|[]]]; injection E as <- <- <-; [exists u | exists v]; unfold val_of; cbn; auto.
Qed.
Lemma box_one t b f u : b <= u < f -> in_box [(t, (b, f))] [(t, u)].
Proof.
  intros Hu. split; [split; cbn; [repeat constructor; easy | reflexivity]|].
  intros t' b' f' [E|[]]; injection E as <- <- <-. exists u. unfold val_of; cbn; auto.
Qed.
(** A column of a matrix. *)
Lemma column_not_packed j s : x0 + 2 <= x1 -> y0 <= j < y1 -> y0 + 2 <= y1 -> span_of_ptr LRight ptr d = Ok s ->
  exists s', run_slices s [SElem [(qy, j)]] = Ok s' /\ span_wf s' /\ s_dom s' = [(qx, (x0, x1))] /\ ~ packed s'.
Proof.
  intros Hx Hj Hy E. destruct (chunk_packed ptr d s Hd Hc E) as (Hw & Es & Hp).
  assert (Hs : slices_ok (s_dom s) [SElem [(qy, j)]]).
  { rewrite Es. cbn. split; auto. split; [repeat constructor; easy|]. intros t v [Ev|[]]. injection Ev as <- <-. exists y0, y1. cbn. auto. }
  destruct (sliced_positions s _ Hw Hp Hs) as (s' & Er & Hw' & Ed & [_ Hpack]). exists s'.
  assert (El : left_domain d [SElem [(qy, j)]] = [(qx, (x0, x1))]).
  { unfold d. cbn. unfold left_dims, has_dim. cbn [filter fst].
    destruct (in_dec Nat.eq_dec qx [qy]) as [[H1|[]]|_]; [congruence|]. destruct (in_dec Nat.eq_dec qy [qy]) as [_|H2]; [reflexivity | cbn in H2; tauto]. }
  rewrite Es, El in Ed. split; [exact Er|]. split; [exact Hw'|]. split; [exact Ed|]. intros P.
  assert (Q := Hpack P [(qx, x0 + 1)]). rewrite Es, Ed in Q. specialize (Q (box_one qx x0 x1 (x0 + 1) ltac:(lia))).
  cbn [fixed_elems app concat front_of map fst snd row_major] in Q. unfold d in Q. cbn [row_major box_count fold_right snd fst] in Q.
  destruct (get_two qx qy (x0 + 1) j Hq) as [G1 G2], (get_two qx qy x0 j Hq) as [G3 G4]. rewrite G1, G2, G3, G4, get_one in Q. nia.
Qed.
(** Some columns of a matrix. *)
Lemma columns_not_packed j0 j1 s : x0 + 2 <= x1 -> y0 <= j0 -> j0 < j1 -> j1 <= y1 -> j1 - j0 < y1 - y0 -> span_of_ptr LRight ptr d = Ok s ->
  exists s', run_slices s [SDom [(qy, (j0, j1))]] = Ok s' /\ span_wf s' /\ s_dom s' = [(qx, (x0, x1)); (qy, (j0, j1))] /\ ~ packed s'.
Proof.
  intros Hx H0 H01 H1 Hlt E. destruct (chunk_packed ptr d s Hd Hc E) as (Hw & Es & Hp).
  assert (Hq2 : 0 <= y0 /\ y0 <= y1 < 2 ^ 64 /\ y1 - y0 < 2 ^ 63).
  { destruct Hd as [_ Hd']. rewrite Forall_forall in Hd'. apply (Hd' (qy, (y0, y1))). unfold d. cbn. auto. }
  assert (Hs : slices_ok (s_dom s) [SDom [(qy, (j0, j1))]]).
  { rewrite Es. cbn [slices_ok]. split; auto. split; [split; [repeat constructor; easy | repeat constructor; cbn; lia]|]. split.
    - intros t [<-|[]]. cbn. auto.
    - intros t b f b' f' Hi [Ev|[]]. injection Ev as <- <- <-. destruct Hi as [Hi|[Hi|[]]]; [congruence|]. injection Hi as <- <-. lia. }
  destruct (sliced_positions s _ Hw Hp Hs) as (s' & Er & Hw' & Ed & [_ Hpack]). exists s'.
  assert (El : left_domain d [SDom [(qy, (j0, j1))]] = [(qx, (x0, x1)); (qy, (j0, j1))]).
  { unfold d. cbn. rewrite Nat.eqb_refl. destruct (Nat.eqb_spec qy qx); [congruence | reflexivity]. }
  rewrite Es, El in Ed. split; [exact Er|]. split; [exact Hw'|]. split; [exact Ed|]. intros P.
  assert (Q := Hpack P [(qx, x0 + 1); (qy, j0)]). rewrite Es, Ed in Q.
  assert (B : in_box [(qx, (x0, x1)); (qy, (j0, j1))] [(qx, x0 + 1); (qy, j0)]).
  { split; [split; cbn; [constructor; [intros [E'|[]]; auto | repeat constructor; easy] | reflexivity]|].
    intros t b f [E'|[E'|[]]]; injection E' as <- <- <-; [exists (x0 + 1) | exists j0]; unfold val_of; cbn; split; auto; lia. }
  specialize (Q B). cbn [fixed_elems app concat front_of map fst snd row_major] in Q. unfold d in Q. cbn [row_major box_count fold_right snd fst] in Q.
  destruct (get_two qx qy (x0 + 1) j0 Hq) as [G1 G2], (get_two qx qy x0 j0 Hq) as [G3 G4]. rewrite !G1, !G2, !G3, !G4 in Q. nia.
Qed.
(** A matrix stored by columns. *)
Lemma left_not_packed s : x0 + 2 <= x1 -> y0 + 2 <= y1 -> span_of_ptr LLeft ptr d = Ok s -> ~ packed s.
Proof.
  intros Hx Hy E P. destruct (address_exact ptr d Hd Hc) as (sr & sl & _ & El & H). assert (sl = s) by congruence. subst sl.
  assert (s = mk_span (mk_mdspan ptr LLeft (map ext1 d)) d) by (rewrite span_of_ptr_ok in E by auto; congruence). subst s.
  assert (B := box_two x0 (y0 + 1) ltac:(lia) ltac:(lia)).
  specialize (P _ (vf [(qx, x0); (qy, y0 + 1)]) B (fun q => vf_val_of _ _ q B)).
  destruct (H [[(qx, x0); (qy, y0 + 1)]] (vf [(qx, x0); (qy, y0 + 1)]) B (fun q => vf_val_of _ _ q B)) as [_ A].
  cbn [s_md s_dom m_ptr] in P. assert (R : row_major d (vf [(qx, x0); (qy, y0 + 1)]) = col_major d (vf [(qx, x0); (qy, y0 + 1)])).
  { assert (A' := eq_trans (eq_sym P) A). assert (ptr + row_major d (vf [(qx, x0); (qy, y0 + 1)]) = ptr + col_major d (vf [(qx, x0); (qy, y0 + 1)])) by congruence. lia. }
  unfold d in R. cbn [row_major col_major box_count fold_right snd fst] in R.
  destruct (get_two qx qy x0 (y0 + 1) Hq) as [G1 G2]. rewrite G1, G2 in R. nia.
Qed.
End plane.

(** ** The program *)
Lemma mk_domain_2 x0 y0 nx ny : 0 <= x0 + nx < 2 ^ 64 -> 0 <= y0 + ny < 2 ^ 64 ->
  mk_domain [(0%nat, x0); (1%nat, y0)] [(0%nat, nx); (1%nat, ny)] = Ok [(0%nat, (x0, x0 + nx)); (1%nat, (y0, y0 + ny))].
Proof.
  intros Hx Hy. transitivity (Ok [(0%nat, (x0, u64_add x0 nx)); (1%nat, (y0, u64_add y0 ny))]); [reflexivity|].
  unfold u64_add, u64, two64. rewrite !Z.mod_small by lia. reflexivity.
Qed.
Lemma array_const {V} (m : memory V) s v vals : span_wf s -> (forall e, in_box (s_dom s) e -> span_read m s [e] = Ok v) -> values_of m s vals ->
  vals = repeat v (Z.to_nat (elements (sizes (s_dom s)))).
Proof.
  intros Hw H Hv. apply values_of_iff in Hv; auto. subst vals. assert (Hd := proj1 Hw).
  assert (L : length (DomainProofs2.trace (s_dom s)) = Z.to_nat (elements (sizes (s_dom s)))).
  { rewrite <- (map_length (fun e => row_major (s_dom s) (vf e))), row_order by auto. unfold zrange. now rewrite map_length, seq_length. }
  rewrite <- L. assert (G : forall l, (forall e, In e l -> in_box (s_dom s) e) -> map (fun e => m (loc s (vf e))) l = repeat v (length l)).
  { induction l as [|e l IH]; intros Hl; cbn; auto. rewrite IH by (intros; apply Hl; cbn; auto). f_equal.
    specialize (H e (Hl e ltac:(cbn; auto))). rewrite read_loc in H by (auto; apply Hl; cbn; auto). congruence. }
  apply G. intros e He. now destruct (trace_box _ _ Hd He) as (_ & _ & _ & ? & _).
Qed.
Lemma program_sees {V} p x0 y0 nx ny (v : V) g m w0 : 0 <= x0 -> 0 <= y0 -> 0 <= nx < 2 ^ 63 -> 0 <= ny < 2 ^ 63 -> x0 + nx < 2 ^ 64 -> y0 + ny < 2 ^ 64 ->
  nx * ny < 2 ^ 64 -> length g = 4%nat -> (forall k, owned w0 k = None) -> (forall n k b, ~ In (Own k, b) (shared w0 n)) ->
  (exists sched r, pdi_event_main p x0 y0 nx ny v g sched m = Ok r) /\
  forall sched m' calls, pdi_event_main p x0 y0 nx ny v g sched m = Ok (m', calls) ->
  exists before after w1 w2, calls = before ++ [PDI_event "some_event"] ++ after /\ (forall n, ~ In (PDI_event n) (before ++ after)) /\
    steps w0 before w1 /\ steps w1 after w2 /\ same_world w2 w0 /\
    pdi_sees w1 m' "pdi_chunk_label" [nx; ny] (repeat v (Z.to_nat (nx * ny))) read_only /\
    (forall a, ~ (p <= a < p + nx * ny) -> m' a = m a).
Proof.
  intros Hx0 Hy0 Hnx Hny Hx Hy Hc Hg Hf Hs. set (d := [(0%nat, (x0, x0 + nx)); (1%nat, (y0, y0 + ny))] : domain).
  assert (Hd : dom_wf d) by (split; [cbn; constructor; [intros [E|[]]; easy | repeat constructor; easy] | repeat constructor; cbn; lia]).
  assert (Hb : box_count d = nx * ny) by (unfold box_count; cbn; lia).
  assert (Ep := span_of_ptr_ok LRight p d Hd). set (s := mk_span (mk_mdspan p LRight (map ext1 d)) d) in *.
  destruct (chunk_packed p d s Hd ltac:(lia) Ep) as (Hw & Es & Hp).
  assert (Hna : no_aliasing s) by (apply alloc_no_alias; auto; [lia | now left]).
  destruct (fill_ok s v g m Hw Hna) as [Hex Hall]; [split; [rewrite Hg; reflexivity | cbn; lia]|].
  assert (Esz : sizes (s_dom s) = [nx; ny]) by (cbn; repeat f_equal; lia).
  assert (Ex : exposed s false = Ok (Chunk [nx; ny] p false)) by (rewrite exposed_ok by auto; now rewrite Esz).
  assert (Em : forall sched, pdi_event_main p x0 y0 nx ny v g sched m =
     rbind (parallel_fill s v g sched m) (fun m => rbind (event_life "some_event" [("pdi_chunk_label"%string, None, Chunk [nx; ny] p false)]) (fun calls => Ok (m, calls)))).
  { intros sched. unfold pdi_event_main. rewrite mk_domain_2 by lia. cbn [rbind]. fold d. rewrite Ep. cbn [rbind]. rewrite Ex. reflexivity. }
  split.
  - destruct Hex as (sched & m' & E). exists sched. eexists. rewrite Em, E. cbn [rbind]. reflexivity.
  - intros sched m' calls E. rewrite Em in E. destruct (parallel_fill s v g sched m) as [mf| |] eqn:F; cbn [rbind] in E; try discriminate.
    destruct (Hall sched mf F) as [H1 H2].
    destruct (expose_reads "some_event" [] [] "pdi_chunk_label" None s false w0 mf Hw Hp Hf Hs) as (dd & before & after & w1 & w2 & vals & Ed & El & N & S1 & S2 & SW & P & Q);
      [constructor | constructor | intros ? ? [] | exact I|].
    assert (dd = Chunk [nx; ny] p false) by congruence. subst dd. cbn [app] in El.
    rewrite El in E. cbn [rbind] in E. assert (m' = mf) by congruence. assert (calls = before ++ [PDI_event "some_event"] ++ after) by (cbn [app]; congruence). subst m' calls.
    exists before, after, w1, w2. split; [reflexivity|]. split; [exact N|]. split; [exact S1|]. split; [exact S2|]. split; [exact SW|].
    assert (Ev := array_const mf s v vals Hw H1 Q). rewrite Esz in Ev, P. split.
    + replace (repeat v (Z.to_nat (nx * ny))) with vals; [exact P|]. rewrite Ev. unfold elements. cbn. do 2 f_equal. lia.
    + intros a Ha. apply H2. intros (e & He & A). apply Ha. destruct (alloc_bijection LRight p d Hd ltac:(lia) (or_introl eq_refl)) as (s2 & E2 & B & _).
      assert (s2 = s) by congruence. subst s2. destruct (B [e]) as (a' & A' & Ha'); [cbn; rewrite app_nil_r; exact He|].
      assert (a' = a) by congruence. subst a'. rewrite dom_size_exact in Ha' by (auto; lia). lia.
Qed.
Lemma column_seen_wrong qx qy x0 x1 y0 y1 ptr : qx <> qy -> let d := [(qx, (x0, x1)); (qy, (y0, y1))] in
  dom_wf d -> box_count d < 2 ^ 64 -> forall j s, x0 + 2 <= x1 -> y0 <= j < y1 -> y0 + 2 <= y1 -> span_of_ptr LRight ptr d = Ok s ->
  exists s', run_slices s [SElem [(qy, j)]] = Ok s' /\ span_wf s' /\ s_dom s' = [(qx, (x0, x1))] /\
    forall wr ev name, ~ reads_well s' wr ev name.
Proof.
  intros Hq d Hd Hc j s H1 H2 H3 E. destruct (column_not_packed qx qy x0 x1 y0 y1 ptr Hq Hd Hc j s) as (s' & A & B & C & D); auto.
  exists s'. split; [exact A|]. split; [exact B|]. split; [exact C|]. intros wr ev name R. now apply D, (expose_iff s' wr ev name).
Qed.
Lemma columns_seen_wrong qx qy x0 x1 y0 y1 ptr : qx <> qy -> let d := [(qx, (x0, x1)); (qy, (y0, y1))] in
  dom_wf d -> box_count d < 2 ^ 64 -> forall j0 j1 s, x0 + 2 <= x1 -> y0 <= j0 -> j0 < j1 -> j1 <= y1 -> j1 - j0 < y1 - y0 ->
  span_of_ptr LRight ptr d = Ok s ->
  exists s', run_slices s [SDom [(qy, (j0, j1))]] = Ok s' /\ span_wf s' /\ s_dom s' = [(qx, (x0, x1)); (qy, (j0, j1))] /\
    forall wr ev name, ~ reads_well s' wr ev name.
Proof.
  intros Hq d Hd Hc j0 j1 s H1 H2 H3 H4 H5 E. destruct (columns_not_packed qx qy x0 x1 y0 y1 ptr Hq Hd Hc j0 j1 s) as (s' & A & B & C & D); auto.
  exists s'. split; [exact A|]. split; [exact B|]. split; [exact C|]. intros wr ev name R. now apply D, (expose_iff s' wr ev name).
Qed.
Lemma left_seen_wrong qx qy x0 x1 y0 y1 ptr : qx <> qy -> let d := [(qx, (x0, x1)); (qy, (y0, y1))] in
  dom_wf d -> box_count d < 2 ^ 64 -> forall s, x0 + 2 <= x1 -> y0 + 2 <= y1 -> span_of_ptr LLeft ptr d = Ok s ->
  forall wr ev name, ~ reads_well s wr ev name.
Proof.
  intros Hq d Hd Hc s H1 H2 E wr ev name R. apply (left_not_packed qx qy x0 x1 y0 y1 ptr Hq Hd Hc s); auto. apply (expose_iff s wr ev name); auto.
  rewrite span_of_ptr_ok in E by exact Hd. assert (s = mk_span (mk_mdspan ptr LLeft (map ext1 d)) d) by congruence. subst s. apply alloc_wf; auto. now right.
Qed.
Lemma write_outside : let d22 : domain := [(1%nat, (5, 7)); (2%nat, (10, 12))] in exists s s' d, dom_wf d22 /\ span_of_ptr LRight 100 d22 = Ok s /\
  run_slices s [SElem [(2%nat, 10)]] = Ok s' /\ exposed s' true = Ok d /\ Forall acceptable [("column"%string, Some PDI_INOUT, d)] /\
  let m' := overwrite (fun _ => 0) (m_ptr (s_md s')) [7; 8] in
  span_read m' s [[(1%nat, 5); (2%nat, 11)]] = Ok 8 /\ span_read m' s' [[(1%nat, 6)]] = Ok 0.
Proof.
  eexists. eexists. eexists. split; [split; [repeat constructor; cbn; intuition discriminate | repeat constructor; cbn; lia]|].
  split; [vm_compute; reflexivity|]. split; [vm_compute; reflexivity|]. split; [vm_compute; reflexivity|].
  split; [repeat constructor|]. split; vm_compute; reflexivity.
Qed.
