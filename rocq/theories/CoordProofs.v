(** Proofs about coordinates (C58). *)
From Coq Require Import Permutation Lra Lia Floats.SpecFloat.
From Verif Require Import CoordModel CoordSpec TypeSeqProofs TaggedProofs TaggedSpec.
Set Implicit Arguments.
Unset Strict Implicit.

Lemma per_tag_ok (B : Type) (f : tag -> res B) ts r : per_tag f ts = Ok r ->
  map fst r = ts /\ forall q x, In (q, x) r -> f q = Ok x.
Proof.
  revert r. induction ts as [|t ts IH]; intros r; cbn [per_tag].
  - intros E. assert (r = []) by congruence. subst r. split; [reflexivity | intros q x []].
  - destruct (f t) as [y | |] eqn:Ef; cbn [rbind]; try discriminate.
    destruct (per_tag f ts) as [r' | |]; cbn [rbind]; try discriminate.
    intros E. assert (r = (t, y) :: r') by congruence. subst r.
    destruct (IH r' eq_refl) as [H1 H2]. split; [cbn; now rewrite H1|].
    intros q x [E' | H]; [assert (q = t /\ x = y) as [-> ->] by (split; congruence); exact Ef | now apply H2].
Qed.
Lemma per_tag_exists (B : Type) (f : tag -> res B) ts : (forall q, In q ts -> exists x, f q = Ok x) ->
  exists r, per_tag f ts = Ok r.
Proof.
  induction ts as [|t ts IH]; intros H; cbn [per_tag]; [eauto|].
  destruct (H t (or_introl eq_refl)) as [x Ex]. rewrite Ex. cbn [rbind].
  destruct IH as [r Er]; [intros q Hq; apply H; now right|]. rewrite Er. cbn. eauto.
Qed.
Lemma in_fst (B : Type) (r : list (tag * B)) q : In q (map fst r) -> exists x, In (q, x) r.
Proof. intros H. apply in_map_iff in H. destruct H as [[t x] [E H]]. cbn in E. subst t. eauto. Qed.

Section P.
Context {A : arith}.
Implicit Types (c d l r : coord A).
Lemma along_dims c q x : along c q x -> In q (cdims c).
Proof. intros H. apply in_map_iff. exists (q, x). now split. Qed.
Lemma dims_along c q : In q (cdims c) -> exists x, along c q x.
Proof. apply in_fst. Qed.
Lemma along_fun c q x y : coord_wf c -> along c q x -> along c q y -> x = y.
Proof.
  unfold coord_wf, along, cdims. induction c as [|[t a] c IH]; cbn; [intros _ []|].
  intros N H1 H2. inversion N as [|? ? N1 N2]; subst.
  destruct H1 as [E1 | H1], H2 as [E2 | H2].
  - congruence.
  - assert (t = q) by congruence. subst t. elim N1. apply in_map_iff. exists (q, y). now split.
  - assert (t = q) by congruence. subst t. elim N1. apply in_map_iff. exists (q, x). now split.
  - now apply IH.
Qed.
Lemma c_get_spec q c x : coord_wf c -> c_get q c = Ok x <-> along c q x.
Proof.
  intros N. unfold c_get. destruct (ts_rank q (cdims c)) as [k|] eqn:E.
  - apply ts_rank_some in E. destruct E as [E _]. unfold cdims, cvalues in *.
    rewrite nth_error_map in E. rewrite nth_error_map.
    destruct (nth_error c k) as [[t a]|] eqn:En; cbn in E |- *; [|discriminate].
    assert (t = q) by congruence. subst t. apply nth_error_In in En.
    split; [intros H; assert (a = x) by congruence; now subst | intros H; f_equal; exact (along_fun N En H)].
  - apply ts_rank_none in E. split; [discriminate|]. intros H. elim E. exact (along_dims H).
Qed.
Lemma c_get_absent q c : ~ In q (cdims c) -> c_get q c = Rejected.
Proof. intros H. unfold c_get. apply ts_rank_none in H. now rewrite H. Qed.
Lemma wf_dims c d : cdims d = cdims c -> coord_wf c -> coord_wf d.
Proof. unfold coord_wf. now intros ->. Qed.

(** A result that has the dimensions of [l] is determined by its values. *)
Lemma same_of_dims c d : coord_wf c -> coord_wf d -> same_dims c d ->
  (forall q x y, along c q x -> along d q y -> x = y) -> same_coord c d.
Proof.
  intros Nc Nd S E q x. split; intros H.
  - destruct (dims_along (proj1 (S q) (along_dims H))) as [y Hy]. now rewrite (E q x y H Hy).
  - destruct (dims_along (proj2 (S q) (along_dims H))) as [y Hy]. now rewrite <- (E q y x Hy H).
Qed.

(** * Pack expansions *)
Lemma expand2 (op : num A -> num A -> num A) l r : coord_wf l -> coord_wf r -> same_dims l r ->
  exists s, per_tag (fun q => rbind (c_get q l) (fun x => rbind (c_get q r) (fun y => Ok (op x y)))) (cdims l) = Ok s /\
    pointwise op l r s.
Proof.
  intros Nl Nr S.
  destruct (@per_tag_exists (num A) (fun q => rbind (c_get q l) (fun x => rbind (c_get q r) (fun y => Ok (op x y)))) (cdims l)) as [s Es].
  { intros q Hq. destruct (dims_along Hq) as [x Hx]. destruct (dims_along (proj1 (S q) Hq)) as [y Hy].
    exists (op x y). rewrite (proj2 (@c_get_spec q l x Nl) Hx). cbn [rbind]. now rewrite (proj2 (@c_get_spec q r y Nr) Hy). }
  exists s. split; [exact Es|]. apply per_tag_ok in Es. destruct Es as [Ed Ev]. split; [exact Ed|].
  intros q x y Hx Hy. assert (Hq : In q (cdims s)) by (unfold cdims at 1; rewrite Ed; exact (along_dims Hx)).
  destruct (dims_along Hq) as [z Hz]. specialize (Ev q z Hz). cbv beta in Ev.
  rewrite (proj2 (@c_get_spec q l x Nl) Hx) in Ev. cbn [rbind] in Ev. rewrite (proj2 (@c_get_spec q r y Nr) Hy) in Ev.
  cbn [rbind] in Ev. assert (z = op x y) by congruence. now subst z.
Qed.
Lemma expand1 (op : num A -> num A) l : coord_wf l ->
  exists s, per_tag (fun q => rbind (c_get q l) (fun x => Ok (op x))) (cdims l) = Ok s /\
    cdims s = cdims l /\ forall q x, along l q x -> along s q (op x).
Proof.
  intros Nl.
  destruct (@per_tag_exists (num A) (fun q => rbind (c_get q l) (fun x => Ok (op x))) (cdims l)) as [s Es].
  { intros q Hq. destruct (dims_along Hq) as [x Hx].
    exists (op x). now rewrite (proj2 (@c_get_spec q l x Nl) Hx). }
  exists s. split; [exact Es|]. apply per_tag_ok in Es. destruct Es as [Ed Ev]. split; [exact Ed|].
  intros q x Hx. assert (Hq : In q (cdims s)) by (unfold cdims at 1; rewrite Ed; exact (along_dims Hx)).
  destruct (dims_along Hq) as [z Hz]. specialize (Ev q z Hz). cbv beta in Ev.
  rewrite (proj2 (@c_get_spec q l x Nl) Hx) in Ev. cbn [rbind] in Ev. assert (z = op x) by congruence. now subst z.
Qed.
Lemma same_dims_v l r : type_seq_same_v (cdims l) (cdims r) = true <-> same_dims l r.
Proof. apply same_exact. Qed.

(** * Sums, differences, opposites, multiples *)
Lemma sum_difference (sg : bool) l r : coord_wf l -> coord_wf r ->
  (same_dims l r -> exists s, (if sg then c_add l r else c_sub l r) = Ok s /\ coord_wf s /\
     pointwise (if sg then nadd A else nsub A) l r s) /\
  (~ same_dims l r -> (if sg then c_add l r else c_sub l r) = Rejected).
Proof.
  intros Nl Nr. split.
  - intros S. assert (V := proj2 (same_dims_v l r) S).
    destruct sg; [unfold c_add | unfold c_sub]; rewrite V.
    + destruct (expand2 (nadd A) Nl Nr S) as [s [Es Hs]]. exists s. split; [exact Es|]. split; [|exact Hs].
      exact (wf_dims (proj1 Hs) Nl).
    + destruct (expand2 (nsub A) Nl Nr S) as [s [Es Hs]]. exists s. split; [exact Es|]. split; [|exact Hs].
      exact (wf_dims (proj1 Hs) Nl).
  - intros S. assert (V : type_seq_same_v (cdims l) (cdims r) = false).
    { destruct (type_seq_same_v (cdims l) (cdims r)) eqn:E; [|reflexivity]. elim S. now apply same_dims_v. }
    destruct sg; [unfold c_add | unfold c_sub]; now rewrite V.
Qed.
Lemma opposite_multiple (k : num A) c : coord_wf c ->
  (exists s, c_opp c = Ok s /\ coord_wf s /\ cdims s = cdims c /\ forall q x, along c q x -> along s q (- x)%N_) /\
  (exists s, c_scale k c = Ok s /\ coord_wf s /\ cdims s = cdims c /\ forall q x, along c q x -> along s q (k * x)%N_).
Proof.
  intros N. split.
  - destruct (expand1 (nopp A) N) as [s [Es [Ed Hs]]]. exists s. split; [exact Es|]. split; [|now split].
    exact (wf_dims Ed N).
  - destruct (expand1 (nmul A k) N) as [s [Es [Ed Hs]]]. exists s. split; [exact Es|]. split; [|now split].
    exact (wf_dims Ed N).
Qed.
(** A scalar and a coordinate of one dimension *)
Lemma scalar_one (op : num A -> num A -> num A) (left : bool) (k x : num A) t c :
  (c = [(t, x)] -> c_scalar op left k c = Ok [(t, if left then op k x else op x k)]) /\
  (length c <> 1%nat -> c_scalar op left k c = Rejected).
Proof.
  split; [now intros ->|]. intros H. destruct c as [|[? ?] [|? ?]]; try reflexivity. now elim H.
Qed.

(** * Compound assignments *)
Lemma c_upd_spec (op : num A -> num A -> num A) k q a x c : coord_wf c -> nth_error (cdims c) k = Some q -> along c q a ->
  exists c', c_upd op k x c = Ok c' /\ cdims c' = cdims c /\ along c' q (op a x) /\
    (forall t y, t <> q -> (along c' t y <-> along c t y)).
Proof.
  revert k. unfold coord_wf, along, cdims. induction c as [|[t b] c IH]; intros k N E H; [destruct k; discriminate|].
  cbn [map fst] in N. inversion N as [|? ? N1 N2]; subst.
  destruct k as [|k]; cbn [map fst nth_error] in E.
  - assert (t = q) by congruence. subst t.
    assert (b = a).
    { destruct H as [H | H]; [congruence|]. elim N1. apply in_map_iff. exists (q, a). now split. }
    subst b. exists ((q, op a x) :: c). cbn [c_upd map fst]. repeat split; [now left | |].
    + intros [H' | H']; [congruence | now right].
    + intros [H' | H']; [congruence | now right].
  - assert (Hn : t <> q). { intros ->. apply N1. eapply nth_error_In. exact E. }
    destruct H as [H | H]; [congruence|].
    destruct (IH k N2 E H) as [c' [Ec [Ed [Hq Ho]]]].
    exists ((t, b) :: c'). cbn [c_upd]. rewrite Ec. cbn [rbind map fst]. rewrite Ed. repeat split.
    + now right.
    + intros [H' | H']; [now left | right; now apply Ho].
    + intros [H' | H']; [now left | right; now apply Ho].
Qed.

(** One pass over the dimensions in [ts]; [val] is what is read for each. *)
Lemma assign_fold (op : num A -> num A -> num A) (rd : tag -> coord A -> res (num A)) (val : tag -> num A -> Prop)
  (F : type_seq -> coord A -> res (coord A)) :
  (forall c, F [] c = Ok c) ->
  (forall q ts c, F (q :: ts) c = match ts_rank q (cdims c) with
      | None => Rejected
      | Some k => rbind (rd q c) (fun x => rbind (c_upd op k x c) (fun c' => F ts c')) end) ->
  forall c0, coord_wf c0 ->
  forall ts, NoDup ts -> incl ts (cdims c0) ->
  (forall c, cdims c = cdims c0 -> forall q, In q ts -> (forall y, along c0 q y -> along c q y) -> exists x, rd q c = Ok x /\ val q x) ->
  forall c, cdims c = cdims c0 -> (forall q y, In q ts -> along c0 q y -> along c q y) ->
  exists s, F ts c = Ok s /\ cdims s = cdims c0 /\
    (forall q y, In q ts -> along c0 q y -> exists x, val q x /\ along s q (op y x)) /\
    (forall q y, ~ In q ts -> (along s q y <-> along c q y)).
Proof.
  intros F0 FS c0 N0 ts. induction ts as [|t ts IH]; intros Nt I R c Ec Hc.
  - exists c. rewrite F0. split; [reflexivity|]. split; [exact Ec|]. split; [intros q y [] | tauto].
  - inversion Nt as [|? ? N1 N2]; subst.
    assert (Nc : coord_wf c) by exact (wf_dims Ec N0).
    assert (Ht : In t (cdims c)) by (rewrite Ec; apply I; now left).
    rewrite FS. destruct (ts_rank t (cdims c)) as [k|] eqn:Ek; [|now apply ts_rank_none in Ek].
    apply ts_rank_some in Ek. destruct Ek as [Ek _].
    destruct (R c Ec t (or_introl eq_refl) (fun y => Hc t y (or_introl eq_refl))) as [x [Ex Vx]].
    rewrite Ex. cbn [rbind].
    destruct (dims_along (I t (or_introl eq_refl))) as [a Ha].
    destruct (@c_upd_spec op k t a x c Nc Ek (Hc t a (or_introl eq_refl) Ha)) as [c' [Ec' [Ed [Hq Ho]]]].
    rewrite Ec'. cbn [rbind].
    destruct (IH N2 (fun q H => I q (or_intror H)) ) with (c := c') as [s [Es [Eds [H1 H2]]]].
    + intros d Ed' q Hq'. apply R; [exact Ed' | now right].
    + now rewrite Ed.
    + intros q y Hin Hy. apply Ho; [intros ->; contradiction|]. apply Hc; [now right | exact Hy].
    + exists s. split; [exact Es|]. split; [exact Eds|]. split.
      * intros q y [-> | Hin] Hy.
        -- exists x. split; [exact Vx|]. apply H2; [exact N1|]. now rewrite (along_fun N0 Hy Ha).
        -- now apply H1.
      * intros q y Hn. rewrite H2 by (intros H; apply Hn; now right). apply Ho. intros ->. apply Hn. now left.
Qed.

Lemma assign_exact (op : num A -> num A -> num A) c rhs : coord_wf c -> coord_wf (designated rhs c) ->
  (same_dims c (designated rhs c) ->
     exists s, c_assign op c rhs = Ok s /\ coord_wf s /\ pointwise op c (designated rhs c) s) /\
  (~ same_dims c (designated rhs c) -> c_assign op c rhs = Rejected).
Proof.
  intros Nc Nd. split.
  - intros S. unfold c_assign. rewrite (proj2 (same_dims_v c _) S).
    destruct (@assign_fold op (fun q c' => c_get q (designated rhs c')) (fun q x => along (designated rhs c) q x)
      (fun ts c' => c_assign_fold op ts rhs c')) with (c0 := c) (ts := cdims c) (c := c) as [s [Es [Ed [H1 H2]]]].
    + reflexivity.
    + reflexivity.
    + exact Nc.
    + exact Nc.
    + apply incl_refl.
    + intros d Ed q Hq Hy. destruct rhs as [v|]; cbn [designated] in *.
      * destruct (dims_along (proj1 (S q) Hq)) as [x Hx]. exists x. split; [|exact Hx]. now apply c_get_spec.
      * destruct (dims_along Hq) as [x Hx]. exists x. split; [|exact Hx]. apply c_get_spec; [exact (wf_dims Ed Nc)|]. now apply Hy.
    + reflexivity.
    + now intros.
    + exists s. split; [exact Es|]. split; [exact (wf_dims Ed Nc)|]. split; [exact Ed|].
      intros q x y Hx Hy. destruct (H1 q x (along_dims Hx) Hx) as [z [Hz H]]. now rewrite (along_fun Nd Hy Hz).
  - intros S. unfold c_assign. destruct (type_seq_same_v _ _) eqn:E; [|reflexivity]. elim S. now apply same_dims_v.
Qed.

(** * A scalar added to every entry *)
Lemma c_upd_at (op : num A -> num A -> num A) x pre t a suf :
  c_upd op (length pre) x (pre ++ (t, a) :: suf) = Ok (pre ++ (t, op a x) :: suf).
Proof. induction pre as [|[u b] pre IH]; cbn [length app c_upd]; [reflexivity|]. rewrite IH. reflexivity. Qed.
Lemma rank_at pre t (a : num A) suf : coord_wf (pre ++ (t, a) :: suf) ->
  ts_rank t (cdims (pre ++ (t, a) :: suf)) = Some (length pre).
Proof.
  unfold coord_wf, cdims. induction pre as [|[u b] pre IH]; cbn [app map fst ts_rank length]; intros N.
  - now rewrite Nat.eqb_refl.
  - inversion N as [|? ? N1 N2]; subst. destruct (Nat.eqb t u) eqn:E.
    + apply Nat.eqb_eq in E. subst u. elim N1. rewrite map_app. apply in_or_app. right. now left.
    + now rewrite IH.
Qed.
(** Add [x] to every entry. *)
Definition shift (op : num A -> num A -> num A) (x : num A) c : coord A := map (fun p => (fst p, op (snd p) x)) c.
Lemma wf_replace pre t (a b : num A) suf : coord_wf (pre ++ (t, a) :: suf) -> coord_wf (pre ++ (t, b) :: suf).
Proof. unfold coord_wf, cdims. now rewrite !map_app. Qed.
Lemma scalar_suffix (op : num A -> num A -> num A) s x suf : forall pre, coord_wf (pre ++ suf) ->
  (forall ext, read s (pre ++ ext) = Ok x) ->
  c_assign_scalar_fold op (cdims suf) s (pre ++ suf) = Ok (pre ++ shift op x suf).
Proof.
  induction suf as [|[t a] suf IH]; intros pre N R; [reflexivity|].
  change (cdims ((t, a) :: suf)) with (t :: cdims suf). cbn [c_assign_scalar_fold].
  rewrite (rank_at N), R. cbn [rbind]. rewrite c_upd_at. cbn [rbind].
  change (pre ++ (t, op a x) :: suf) with (pre ++ [(t, op a x)] ++ suf). rewrite app_assoc, IH.
  - now rewrite <- app_assoc.
  - rewrite <- app_assoc. exact (wf_replace _ N).
  - intros ext. rewrite <- app_assoc. apply R.
Qed.
Lemma scalar_number (op : num A -> num A -> num A) x c : coord_wf c ->
  c_assign_scalar op c (Number x) = Ok (shift op x c).
Proof. intros N. apply (@scalar_suffix op (Number x) x c [] N). reflexivity. Qed.
Lemma index_mid pre t (v : num A) suf : c_index (length pre) (pre ++ (t, v) :: suf) = Ok v.
Proof.
  unfold c_index, cvalues. rewrite map_app, nth_error_app2; rewrite map_length; [|lia]. now rewrite Nat.sub_diag.
Qed.
Lemma scalar_entry_go (op : num A -> num A -> num A) t v suf2 suf1 : forall pre,
  coord_wf (pre ++ suf1 ++ (t, v) :: suf2) ->
  c_assign_scalar_fold op (cdims (suf1 ++ (t, v) :: suf2)) (Entry (length pre + length suf1)) (pre ++ suf1 ++ (t, v) :: suf2) =
  Ok (pre ++ shift op v suf1 ++ (t, op v v) :: shift op (op v v) suf2).
Proof.
  induction suf1 as [|[u a] suf1 IH]; intros pre N.
  - cbn [length app] in *. rewrite Nat.add_0_r. change (cdims ((t, v) :: suf2)) with (t :: cdims suf2).
    cbn [c_assign_scalar_fold]. rewrite (rank_at N). cbn [read]. rewrite index_mid. cbn [rbind]. rewrite c_upd_at. cbn [rbind].
    change (pre ++ (t, op v v) :: suf2) with (pre ++ [(t, op v v)] ++ suf2). rewrite app_assoc.
    rewrite (@scalar_suffix op (Entry (length pre)) (op v v)).
    + now rewrite <- app_assoc.
    + rewrite <- app_assoc. exact (wf_replace _ N).
    + intros ext. rewrite <- app_assoc. apply index_mid.
  - change (cdims (((u, a) :: suf1) ++ (t, v) :: suf2)) with (u :: cdims (suf1 ++ (t, v) :: suf2)).
    change (((u, a) :: suf1) ++ (t, v) :: suf2) with ((u, a) :: suf1 ++ (t, v) :: suf2) in *.
    cbn [c_assign_scalar_fold]. rewrite (@rank_at pre u a (suf1 ++ (t, v) :: suf2) N). cbn [read].
    assert (E : c_index (length pre + length ((u, a) :: suf1)) (pre ++ (u, a) :: suf1 ++ (t, v) :: suf2) = Ok v).
    { change ((u, a) :: suf1 ++ (t, v) :: suf2) with (((u, a) :: suf1) ++ (t, v) :: suf2). rewrite app_assoc, <- app_length. apply index_mid. }
    rewrite E. cbn [rbind]. rewrite c_upd_at. cbn [rbind].
    change (pre ++ (u, op a v) :: suf1 ++ (t, v) :: suf2) with (pre ++ [(u, op a v)] ++ suf1 ++ (t, v) :: suf2).
    rewrite app_assoc. replace (length pre + length ((u, a) :: suf1))%nat with (length (pre ++ [(u, op a v)]) + length suf1)%nat
      by (rewrite app_length; cbn [length]; lia).
    rewrite IH; [now rewrite <- app_assoc|]. rewrite <- app_assoc. exact (wf_replace _ N).
Qed.
Lemma scalar_entry (op : num A -> num A -> num A) l t v r : coord_wf (l ++ (t, v) :: r) ->
  c_assign_scalar op (l ++ (t, v) :: r) (Entry (length l)) = Ok (shift op v l ++ (t, op v v) :: shift op (op v v) r).
Proof. intros N. exact (@scalar_entry_go op t v r l [] N). Qed.

(** * Equality *)
Lemma c_eq_fold_spec l r ts : coord_wf l -> coord_wf r -> incl ts (cdims l) -> incl ts (cdims r) ->
  exists b, c_eq_fold l r ts = Ok b /\
    (b = true <-> forall q x y, In q ts -> along l q x -> along r q y -> num_eqb x y = true).
Proof.
  intros Nl Nr. induction ts as [|t ts IH]; intros Il Ir; cbn [c_eq_fold].
  - exists true. split; [reflexivity|]. split; [intros _ q x y [] | reflexivity].
  - destruct (dims_along (Il t (or_introl eq_refl))) as [x Hx]. destruct (dims_along (Ir t (or_introl eq_refl))) as [y Hy].
    rewrite (proj2 (@c_get_spec t l x Nl) Hx). cbn [rbind]. rewrite (proj2 (@c_get_spec t r y Nr) Hy). cbn [rbind].
    destruct IH as [b [Eb Hb]]; [intros q H; apply Il; now right | intros q H; apply Ir; now right|].
    rewrite Eb. cbn [rbind]. eexists. split; [reflexivity|]. rewrite andb_true_iff, Hb. split.
    + intros [H1 H2] q x' y' [-> | Hin] H3 H4; [|now apply (H2 q)].
      now rewrite (along_fun Nl H3 Hx), (along_fun Nr H4 Hy).
    + intros H. split; [apply (H t); [now left | exact Hx | exact Hy]|]. intros q x' y' Hin. apply H. now right.
Qed.
Lemma equality l r : coord_wf l -> coord_wf r ->
  (incl (cdims l) (cdims r) -> exists b, c_eq l r = Ok b /\
     (b = true <-> forall q x y, along l q x -> along r q y -> num_eqb x y = true)) /\
  (~ incl (cdims l) (cdims r) -> c_eq l r = Rejected).
Proof.
  intros Nl Nr. split.
  - intros I. destruct (c_eq_fold_spec Nl Nr (incl_refl _) I) as [b [Eb Hb]]. exists b. split; [exact Eb|].
    rewrite Hb. split; [|now intros H q x y _; apply H].
    intros H q x y H1 H2. exact (H q x y (along_dims H1) H1 H2).
  - intros H. unfold c_eq. assert (G : forall ts, incl ts (cdims l) -> ~ incl ts (cdims r) -> c_eq_fold l r ts = Rejected).
    { induction ts as [|t ts IH]; intros I1 I2; [elim I2; intros q []|]. cbn [c_eq_fold].
      destruct (dims_along (I1 t (or_introl eq_refl))) as [x Hx].
      rewrite (proj2 (@c_get_spec t l x Nl) Hx). cbn [rbind].
      destruct (in_dec Nat.eq_dec t (cdims r)) as [Ht | Ht]; [|now rewrite c_get_absent].
      destruct (dims_along Ht) as [y Hy]. rewrite (proj2 (@c_get_spec t r y Nr) Hy). cbn [rbind].
      rewrite IH; [reflexivity | intros q Hq; apply I1; now right |].
      intros I3. apply I2. intros q [-> | Hq]; [exact Ht | now apply I3]. }
    now apply G; [apply incl_refl|].
Qed.

(** * Access *)
Lemma access c q dflt : coord_wf c ->
  (forall x, c_get q c = Ok x <-> along c q x) /\
  (In q (cdims c) -> exists x, c_get q c = Ok x /\ c_get_or q c dflt = Ok x) /\
  (~ In q (cdims c) -> c_get q c = Rejected /\ c_get_or q c dflt = Ok dflt).
Proof.
  intros N. split; [intros x; now apply c_get_spec|]. unfold c_get_or. split.
  - intros H. destruct (dims_along H) as [x Hx]. exists x. rewrite (proj2 (in_tags_v_spec _ _) H).
    rewrite (proj2 (@c_get_spec q c x N) Hx). now split.
  - intros H. rewrite (proj2 (in_tags_v_false _ _) H). split; [now apply c_get_absent | reflexivity].
Qed.

(** Access by position, and to the only value. *)
Lemma access_position c :
  (forall k x, c_index k c = Ok x <-> exists t, nth_error c k = Some (t, x)) /\
  (forall x, c_value c = Ok x <-> exists t, c = [(t, x)]) /\
  (length c <> 1%nat -> c_value c = Rejected).
Proof.
  split; [|split].
  - intros k x. unfold c_index, cvalues. rewrite nth_error_map. destruct (nth_error c k) as [[t v]|]; cbn; split.
    + intros E. exists t. congruence.
    + intros [t' E]. congruence.
    + discriminate.
    + intros [t' E]. discriminate.
  - intros x. destruct c as [|[t v] [|p r]]; unfold c_value, c_index; cbn; split; try discriminate.
    + intros [t E]. discriminate.
    + intros E. exists t. congruence.
    + intros [t' E]. congruence.
    + intros [t' E]. discriminate.
  - intros H. unfold c_value. now rewrite (proj2 (Nat.eqb_neq _ _) H).
Qed.

(** * Construction *)
Lemma of_values ts (vs : list (num A)) : length vs = length ts ->
  exists s : coord A, c_of_values ts vs = Ok s /\ cdims s = ts /\ cvalues s = vs.
Proof.
  intros E. unfold c_of_values. rewrite (proj2 (Nat.eqb_eq _ _) E). eexists. split; [reflexivity|].
  unfold cdims, cvalues. clear -E. revert vs E. induction ts as [|t ts IH]; intros [|v vs] E; try discriminate; [now split|].
  cbn in E |- *. destruct (IH vs) as [H1 H2]; [lia|]. now rewrite H1, H2.
Qed.
(** How many of the operands have dimension [q]. *)
Definition holders (q : tag) (cs : list (coord A)) : nat := length (filter (fun c => in_tags_v q (cdims c)) cs).
Lemma holders_none q cs : holders q cs = 0%nat -> forall c, In c cs -> ~ In q (cdims c).
Proof.
  unfold holders. intros E c Hc Hq. assert (H : In c (filter (fun c => in_tags_v q (cdims c)) cs))
    by (apply filter_In; split; [exact Hc | now apply in_tags_v_spec]).
  destruct (filter _ cs); [destruct H | discriminate].
Qed.
Lemma contains_one q s : type_seq_contains_v [q] s = in_tags_v q s.
Proof. unfold type_seq_contains_v. cbn. apply andb_true_r. Qed.
Lemma forallb_none q cs : forallb (fun x => negb (type_seq_contains_v [q] (cdims x))) cs = Nat.eqb (holders q cs) 0.
Proof.
  unfold holders. induction cs as [|c cs IH]; [reflexivity|]. cbn [forallb filter]. rewrite contains_one, IH.
  destruct (in_tags_v q (cdims c)); reflexivity.
Qed.
Lemma take_spec q cs : (holders q cs = 1%nat -> exists c, c_take q cs = Ok c /\ In c cs /\ In q (cdims c)) /\
  (holders q cs <> 1%nat -> c_take q cs = Rejected).
Proof.
  induction cs as [|c cs [IH1 IH2]]; cbn [c_take].
  - split; [discriminate | reflexivity].
  - rewrite contains_one, forallb_none. unfold holders in *. cbn [filter].
    destruct (in_tags_v q (cdims c)) eqn:E; cbn [length].
    + split.
      * intros H. assert (H0 : length (filter (fun c => in_tags_v q (cdims c)) cs) = 0%nat) by lia.
        rewrite H0. exists c. split; [reflexivity|]. split; [now left | now apply in_tags_v_spec].
      * intros H. destruct (Nat.eqb_spec (length (filter (fun c => in_tags_v q (cdims c)) cs)) 0); [lia | reflexivity].
    + split; [|exact IH2]. intros H. destruct (IH1 H) as [d [H1 [H2 H3]]]. exists d. split; [exact H1|]. split; [now right | exact H3].
Qed.
Lemma holders_unique q cs c d x y : holders q cs = 1%nat -> In c cs -> In d cs ->
  along c q x -> along d q y -> coord_wf c -> x = y.
Proof.
  intros E Hc Hd Hx Hy N. unfold holders in E.
  assert (Fc : In c (filter (fun c => in_tags_v q (cdims c)) cs)) by (apply filter_In; split; [exact Hc|]; apply in_tags_v_spec; exact (along_dims Hx)).
  assert (Fd : In d (filter (fun c => in_tags_v q (cdims c)) cs)) by (apply filter_In; split; [exact Hd|]; apply in_tags_v_spec; exact (along_dims Hy)).
  destruct (filter _ cs) as [|e [|? ?]]; try discriminate.
  destruct Fc as [-> | []]. destruct Fd as [-> | []]. exact (along_fun N Hx Hy).
Qed.
Lemma construct_exact ts cs : Forall coord_wf cs ->
  ((forall q, In q ts -> holders q cs = 1%nat) ->
   exists s, c_construct ts cs = Ok s /\ cdims s = ts /\
     forall q x, along s q x <-> In q ts /\ exists c, In c cs /\ along c q x) /\
  ((exists q, In q ts /\ holders q cs <> 1%nat) -> c_construct ts cs = Rejected).
Proof.
  intros W. rewrite Forall_forall in W. unfold c_construct. split.
  - intros H. destruct (@per_tag_exists (num A) (fun q => rbind (c_take q cs) (c_get q)) ts) as [s Es].
    { intros q Hq. destruct (proj1 (take_spec q cs) (H q Hq)) as [c [E [Hc Hd]]]. rewrite E. cbn [rbind].
      destruct (dims_along Hd) as [x Hx]. exists x. apply c_get_spec; [now apply W | exact Hx]. }
    exists s. split; [exact Es|]. apply per_tag_ok in Es. destruct Es as [Ed Ev]. split; [exact Ed|].
    assert (G : forall q x, along s q x -> exists c, In c cs /\ along c q x).
    { intros q x Hx. assert (Hq : In q ts) by (rewrite <- Ed; exact (along_dims Hx)).
      specialize (Ev q x Hx). cbv beta in Ev. destruct (proj1 (take_spec q cs) (H q Hq)) as [c [E [Hc Hd]]].
      rewrite E in Ev. cbn [rbind] in Ev. exists c. split; [exact Hc|]. apply c_get_spec; [now apply W | exact Ev]. }
    intros q x. split.
    + intros Hx. split; [rewrite <- Ed; exact (along_dims Hx)|]. now apply G.
    + intros [Hq [c [Hc Hx]]]. assert (Hq' : In q (cdims s)) by (unfold cdims; now rewrite Ed).
      destruct (dims_along Hq') as [y Hy]. destruct (G q y Hy) as [d [Hd Hy']].
      now rewrite (holders_unique (H q Hq) Hc Hd Hx Hy' (W c Hc)).
  - intros [q [Hq H]]. induction ts as [|t ts IH]; [destruct Hq|]. cbn [per_tag].
    destruct (Nat.eq_dec (holders t cs) 1) as [E | E].
    + destruct (proj1 (take_spec t cs) E) as [c [Et [Hc Hd]]]. rewrite Et. cbn [rbind].
      destruct (dims_along Hd) as [x Hx]. rewrite (proj2 (@c_get_spec t c x (W c Hc)) Hx). cbn [rbind].
      destruct Hq as [-> | Hq]; [contradiction|]. now rewrite IH.
    + now rewrite (proj2 (take_spec t cs) E).
Qed.
Lemma select_exact ts c : coord_wf c ->
  (incl ts (cdims c) -> exists s, c_select ts c = Ok s /\ cdims s = ts /\ forall q x, along s q x <-> In q ts /\ along c q x) /\
  (~ incl ts (cdims c) -> c_select ts c = Rejected).
Proof.
  intros N. unfold c_select. destruct (@construct_exact ts [c]) as [H1 H2]; [now constructor|].
  assert (Hh : forall q, holders q [c] = if in_tags_v q (cdims c) then 1%nat else 0%nat).
  { intros q. unfold holders. cbn. now destruct (in_tags_v q (cdims c)). }
  split.
  - intros I. destruct H1 as [s [Es [Ed Hs]]].
    { intros q Hq. rewrite Hh. apply I in Hq. apply in_tags_v_spec in Hq. now rewrite Hq. }
    exists s. split; [exact Es|]. split; [exact Ed|]. intros q x. rewrite Hs. split.
    + intros [Hq [d [[<- | []] Hx]]]. now split.
    + intros [Hq Hx]. split; [exact Hq|]. exists c. split; [now left | exact Hx].
  - intros I. apply H2. clear -I Hh. induction ts as [|t ts IH]; [elim I; intros q []|].
    destruct (in_dec Nat.eq_dec t (cdims c)) as [Ht | Ht].
    + destruct IH as [q [Hq E]]; [intros I'; apply I; intros q [-> | Hq]; [exact Ht | now apply I']|].
      exists q. split; [now right | exact E].
    + exists t. split; [now left|]. rewrite Hh. apply in_tags_v_false in Ht. rewrite Ht. discriminate.
Qed.
End P.

(** * The coordinates of a discrete element *)
Lemma combine_in (cdim : tag -> tag) (A : arith) (cs : list (tag * num A)) :
  NoDup (map cdim (map fst cs)) -> forall q, In q (map cdim (map fst cs)) ->
  holders q (map (fun p => [(cdim (fst p), snd p)] : coord A) cs) = 1%nat.
Proof.
  intros N q Hq. unfold holders. induction cs as [|[t x] cs IH]; [destruct Hq|].
  cbn [map fst snd] in *. inversion N as [|? ? N1 N2]; subst. cbn [filter cdims map fst].
  assert (Z : ~ In q (map cdim (map fst cs)) ->
    length (filter (fun c : coord A => in_tags_v q (cdims c)) (map (fun p => [(cdim (fst p), snd p)] : coord A) cs)) = 0%nat).
  { clear. induction cs as [|[t x] cs IH]; intros H; [reflexivity|]. cbn [map fst snd filter cdims] in *.
    assert (E : in_tags_v q [cdim t] = false) by (apply in_tags_v_false; intros [E | []]; apply H; now left).
    rewrite E. apply IH. intros H'. apply H. now right. }
  destruct (Nat.eq_dec (cdim t) q) as [E | E].
  - assert (E' : in_tags_v q [cdim t] = true) by (apply in_tags_v_spec; now left). rewrite E'. cbn [length].
    rewrite Z; [reflexivity|]. now rewrite <- E.
  - assert (E' : in_tags_v q [cdim t] = false) by (apply in_tags_v_false; intros [H | []]; contradiction). rewrite E'.
    destruct Hq as [Hq | Hq]; [contradiction|]. now apply IH.
Qed.
Lemma combine_dup (cdim : tag -> tag) (A : arith) (cs : list (tag * num A)) :
  ~ NoDup (map cdim (map fst cs)) -> exists q, In q (map cdim (map fst cs)) /\
  holders q (map (fun p => [(cdim (fst p), snd p)] : coord A) cs) <> 1%nat.
Proof.
  assert (G : forall q, In q (map cdim (map fst cs)) ->
    (1 <= holders q (map (fun p => [(cdim (fst p), snd p)] : coord A) cs))%nat).
  { clear. unfold holders. induction cs as [|[t x] cs IH]; intros q Hq; [destruct Hq|]. cbn [map fst snd filter cdims] in *.
    destruct (in_tags_v q [cdim t]) eqn:E; [cbn; lia|]. apply IH. destruct Hq as [Hq | Hq]; [|exact Hq].
    apply in_tags_v_false in E. elim E. now left. }
  induction cs as [|[t x] cs IH]; intros H; [elim H; constructor|]. cbn [map fst snd] in *.
  assert (G' : forall q, In q (map cdim (map fst cs)) ->
    (1 <= holders q (map (fun p => [(cdim (fst p), snd p)] : coord A) cs))%nat).
  { clear. unfold holders. induction cs as [|[t x] cs IH]; intros q Hq; [destruct Hq|]. cbn [map fst snd filter cdims] in *.
    destruct (in_tags_v q [cdim t]) eqn:E; [cbn; lia|]. apply IH. destruct Hq as [Hq | Hq]; [|exact Hq].
    apply in_tags_v_false in E. elim E. now left. }
  destruct (in_dec Nat.eq_dec (cdim t) (map cdim (map fst cs))) as [Ht | Ht].
  - exists (cdim t). split; [now left|]. unfold holders in *. cbn [filter cdims map fst].
    assert (E : in_tags_v (cdim t) [cdim t] = true) by (apply in_tags_v_spec; now left). rewrite E. cbn [length].
    specialize (G' _ Ht). lia.
  - destruct IH as [q [Hq E]]; [exact G' | intros N; apply H; now constructor|]. exists q. split; [now right|].
    unfold holders in *. cbn [filter cdims map fst]. destruct (in_tags_v q [cdim t]); [|exact E]. cbn [length].
    specialize (G' _ Hq). lia.
Qed.
Lemma coordinate_exact (A : arith) (cdim : tag -> tag) (point : tag -> Z -> res (num A)) e :
  NoDup (dims e) -> (1 < length e)%nat -> (forall q u, val_of e q u -> exists x, point q u = Ok x) ->
  (NoDup (map cdim (dims e)) -> exists s, coordinate_nd cdim point e = Ok s /\ cdims s = map cdim (dims e) /\
     forall q u x, val_of e q u -> point q u = Ok x -> along s (cdim q) x) /\
  (~ NoDup (map cdim (dims e)) -> coordinate_nd cdim point e = Rejected).
Proof.
  intros N L P. unfold coordinate_nd. rewrite (proj2 (Nat.ltb_lt _ _) L).
  destruct (@per_tag_exists (num A) (fun q => rbind (get q e) (point q)) (dims e)) as [cs Ecs].
  { intros q Hq. destruct (dims_val e q Hq) as [u Hu]. destruct (P q u Hu) as [x Hx]. exists x.
    rewrite (proj2 (get_spec q e u N) Hu). exact Hx. }
  rewrite Ecs. cbn [rbind]. apply per_tag_ok in Ecs. destruct Ecs as [Ed Ev].
  assert (W : Forall coord_wf (map (fun p => [(cdim (fst p), snd p)] : coord A) cs)).
  { apply Forall_forall. intros c Hc. apply in_map_iff in Hc. destruct Hc as [p [<- _]].
    unfold coord_wf. cbn. constructor; [intros [] | constructor]. }
  destruct (@construct_exact A (map cdim (dims e)) _ W) as [H1 H2]. split.
  - intros Nd. destruct H1 as [s [Es [Eds Hs]]].
    { rewrite <- Ed. apply combine_in. now rewrite Ed. }
    exists s. split; [exact Es|]. split; [exact Eds|]. intros q u x Hu Hx. apply Hs.
    assert (Hq : In q (dims e)) by exact (val_of_dims e q u Hu).
    split; [now apply in_map|].
    assert (Hin : exists y, In (q, y) cs).
    { apply in_fst. now rewrite Ed. }
    destruct Hin as [y Hy]. specialize (Ev q y Hy). cbv beta in Ev.
    rewrite (proj2 (get_spec q e u N) Hu) in Ev. cbn [rbind] in Ev. assert (y = x) by congruence. subst y.
    exists [(cdim q, x)]. split; [apply in_map_iff; exists (q, x); now split | now left].
  - intros Nd. apply H2. rewrite <- Ed in Nd |- *. now apply combine_dup.
Qed.

(** * Printing *)
Lemma print_exact (B : Type) (show : B -> string) vs :
  print_values show vs = ("(" ++ String.concat ", " (map show vs) ++ ")")%string.
Proof.
  unfold print_values. f_equal. f_equal. destruct vs as [|x r]; [reflexivity|].
  cbn [map]. generalize (show x). induction r as [|y r IH]; intros a; [reflexivity|].
  cbn [fold_left map]. rewrite IH.
  change (String.concat ", " (a :: show y :: map show r)) with (a ++ ", " ++ String.concat ", " (show y :: map show r))%string.
  assert (G : forall (l : list string) a b, String.concat ", " ((a ++ b)%string :: l) = (a ++ String.concat ", " (b :: l))%string).
  { assert (Q : forall a b c, ((a ++ b) ++ c)%string = (a ++ (b ++ c))%string).
    { induction a0 as [|ch a0 IHa]; intros b c; [reflexivity|]. cbn. now rewrite IHa. }
    intros [|z l] a0 b; cbn [String.concat]; [reflexivity|]. now rewrite Q. }
  now rewrite G, G.
Qed.

(** * Reals *)
Section Reals.
Implicit Types (a b c s t u : coord RA).
Lemma num_eqb_R (x y : R) : num_eqb (A := RA) x y = true <-> x = y.
Proof.
  unfold num_eqb, RA. cbn. unfold R_leb. destruct (Rle_dec x y), (Rle_dec y x); cbn; split; try lra; try discriminate; try (intros; lra); reflexivity.
Qed.
Lemma equality_reals a b : coord_wf a -> coord_wf b -> same_dims a b ->
  exists r, c_eq a b = Ok r /\ (r = true <-> same_coord a b).
Proof.
  intros Na Nb S. destruct (proj1 (equality Na Nb) (fun q => proj1 (S q))) as [r [Er Hr]].
  exists r. split; [exact Er|]. rewrite Hr. split.
  - intros H. apply (same_of_dims Na Nb S). intros q x y Hx Hy. apply num_eqb_R. exact (H q x y Hx Hy).
  - intros H q x y Hx Hy. apply num_eqb_R. apply H in Hx. exact (along_fun Nb Hx Hy).
Qed.
End Reals.
Lemma coord_ext (A : arith) (c d : coord A) : coord_wf c -> cdims c = cdims d ->
  (forall q x y, along c q x -> along d q y -> x = y) -> c = d.
Proof.
  unfold coord_wf, along, cdims. revert d. induction c as [|[t x] c IH]; intros [|[u y] d] N E H; try discriminate; [reflexivity|].
  cbn [map fst] in *. inversion N as [|? ? N1 N2]; subst. assert (t = u) by congruence. subst u.
  assert (x = y) by (apply (H t); now left). subst y. f_equal. apply IH; [exact N2 | congruence|].
  intros q x' y' Hx Hy. apply (H q); now right.
Qed.
(** The result of a sum or difference, as a function of its values *)
Lemma sum_ok (A : arith) (sg : bool) (a b : coord A) : coord_wf a -> coord_wf b -> same_dims a b ->
  exists s, (if sg then c_add a b else c_sub a b) = Ok s /\ coord_wf s /\ cdims s = cdims a /\
    forall q z, along s q z -> exists x y, along a q x /\ along b q y /\ z = (if sg then nadd A else nsub A) x y.
Proof.
  intros Na Nb S. destruct (proj1 (sum_difference sg Na Nb) S) as [s [Es [Ns [Ed Hs]]]].
  exists s. split; [exact Es|]. split; [exact Ns|]. split; [exact Ed|]. intros q z Hz.
  assert (Hq : In q (cdims a)) by (rewrite <- Ed; exact (along_dims Hz)).
  destruct (dims_along Hq) as [x Hx]. destruct (dims_along (proj1 (S q) Hq)) as [y Hy].
  exists x, y. split; [exact Hx|]. split; [exact Hy|]. exact (along_fun Ns Hz (Hs q x y Hx Hy)).
Qed.
Lemma map_ok (A : arith) (op : num A -> num A) (f : coord A -> res (coord A)) (a : coord A) : coord_wf a ->
  (exists s, f a = Ok s /\ coord_wf s /\ cdims s = cdims a /\ forall q x, along a q x -> along s q (op x)) ->
  exists s, f a = Ok s /\ coord_wf s /\ cdims s = cdims a /\
    forall q z, along s q z -> exists x, along a q x /\ z = op x.
Proof.
  intros Na [s [Es [Ns [Ed Hs]]]].
  exists s. split; [exact Es|]. split; [exact Ns|]. split; [exact Ed|]. intros q z Hz.
  assert (Hq : In q (cdims a)) by (rewrite <- Ed; exact (along_dims Hz)).
  destruct (dims_along Hq) as [x Hx]. exists x. split; [exact Hx|]. exact (along_fun Ns Hz (Hs q x Hx)).
Qed.
Lemma dims_eq_same (A : arith) (a b c : coord A) : cdims c = cdims a -> same_dims a b -> same_dims c b.
Proof. intros E S q. rewrite E. apply S. Qed.
Lemma same_dims_sym (A : arith) (a b : coord A) : same_dims a b -> same_dims b a.
Proof. intros S q. symmetry. apply S. Qed.
Lemma same_dims_trans (A : arith) (a b c : coord A) : same_dims a b -> same_dims b c -> same_dims a c.
Proof. intros S T q. rewrite (S q). apply T. Qed.

(** Sums in either order have the same values when the addition of numbers commutes. *)
Lemma sum_commutes (A : arith) (a b : coord A) : (forall x y : num A, (x + y)%N_ = (y + x)%N_) ->
  coord_wf a -> coord_wf b -> same_dims a b ->
  exists s t, c_add a b = Ok s /\ c_add b a = Ok t /\ same_coord s t.
Proof.
  intros C Na Nb S. destruct (sum_ok true Na Nb S) as [s [Es [Ns [Ds Vs]]]].
  destruct (sum_ok true Nb Na (same_dims_sym S)) as [t [Et [Nt [Dt Vt]]]].
  exists s, t. split; [exact Es|]. split; [exact Et|]. apply (same_of_dims Ns Nt).
  - intros q. rewrite Ds, Dt. apply S.
  - intros q x y Hx Hy. destruct (Vs q x Hx) as [x1 [y1 [A1 [B1 E1]]]]. destruct (Vt q y Hy) as [y2 [x2 [B2 [A2 E2]]]].
    rewrite E1, E2, (along_fun Na A2 A1), (along_fun Nb B2 B1). apply C.
Qed.

Ltac same_val := match goal with
  | N : coord_wf ?c, H1 : along ?c ?q ?x, H2 : along ?c ?q ?y |- _ => 
     first [constr_eq x y; fail 1 | let E := fresh in assert (E : x = y) by exact (along_fun N H1 H2); clear H2; try subst y; try subst x ]
  end.
Ltac unpack := repeat match goal with
  | V : (forall q z, along ?s q z -> exists x y, _), H : along ?s ?q ?z |- _ =>
      let x := fresh "x" in let y := fresh "y" in let H1 := fresh "Ha" in let H2 := fresh "Hb" in let E := fresh "E" in
      destruct (V q z H) as [x [y [H1 [H2 E]]]]; clear H
  | V : (forall q z, along ?s q z -> exists x, _), H : along ?s ?q ?z |- _ =>
      let x := fresh "x" in let H1 := fresh "Ha" in let E := fresh "E" in
      destruct (V q z H) as [x [H1 E]]; clear H
  end.
(** Coordinates over the reals are a vector space: the results are equal, in the order of the left operand. *)
Lemma vector_space (k : R) (a b c : coord RA) : coord_wf a -> coord_wf b -> coord_wf c -> same_dims a b -> same_dims b c ->
  rbind (c_add a b) (fun s => c_add s c) = rbind (c_add b c) (fun s => c_add a s) /\
  rbind (c_sub a b) (fun s => c_add s b) = Ok a /\
  rbind (c_add a b) (fun s => c_sub s b) = Ok a /\
  c_sub a b = rbind (c_opp b) (fun n => c_add a n) /\
  rbind (c_add a b) (c_scale (k : num RA)) = rbind (c_scale (k : num RA) a) (fun p => rbind (c_scale (k : num RA) b) (fun q => c_add p q)) /\
  exists s t, c_add a b = Ok s /\ c_add b a = Ok t /\ same_coord s t.
Proof.
  intros Na Nb Nc S T.
  destruct (sum_ok true Na Nb S) as [ab [Eab [Nab [Dab Vab]]]].
  destruct (sum_ok false Na Nb S) as [am [Eam [Nam [Dam Vam]]]].
  destruct (sum_ok true Nb Nc T) as [bc [Ebc [Nbc [Dbc Vbc]]]].
  destruct (sum_ok true Nab Nc (dims_eq_same Dab (same_dims_trans S T))) as [l1 [El1 [Nl1 [Dl1 Vl1]]]].
  destruct (sum_ok true Na Nbc (same_dims_sym (dims_eq_same Dbc (same_dims_sym S)))) as [r1 [Er1 [Nr1 [Dr1 Vr1]]]].
  destruct (sum_ok true Nam Nb (dims_eq_same Dam S)) as [l2 [El2 [Nl2 [Dl2 Vl2]]]].
  destruct (sum_ok false Nab Nb (dims_eq_same Dab S)) as [l3 [El3 [Nl3 [Dl3 Vl3]]]].
  destruct (map_ok Nb (proj1 (opposite_multiple (k : num RA) Nb))) as [nb [Enb [Nnb [Dnb Vnb]]]].
  destruct (sum_ok true Na Nnb (same_dims_sym (dims_eq_same Dnb (same_dims_sym S)))) as [r4 [Er4 [Nr4 [Dr4 Vr4]]]].
  destruct (map_ok Na (proj2 (opposite_multiple (k : num RA) Na))) as [ka [Eka [Nka [Dka Vka]]]].
  destruct (map_ok Nb (proj2 (opposite_multiple (k : num RA) Nb))) as [kb [Ekb [Nkb [Dkb Vkb]]]].
  destruct (map_ok Nab (proj2 (opposite_multiple (k : num RA) Nab))) as [l5 [El5 [Nl5 [Dl5 Vl5]]]].
  assert (Skk : same_dims ka kb). { intros q. rewrite Dka, Dkb. apply S. }
  destruct (sum_ok true Nka Nkb Skk) as [r5 [Er5 [Nr5 [Dr5 Vr5]]]].
  cbv beta iota in *. rewrite Eab, Eam, Ebc, Enb, Eka, Ekb. cbn [rbind]. rewrite El1, Er1, El2, El3, Er4, El5, Er5.
  assert (OK : forall u v : coord RA, u = v -> Ok u = Ok v) by now intros ? ? ->.
  change (num RA) with R in *. cbn [nadd nsub nopp nmul RA] in *.
  split; [|split; [|split; [|split; [|split]]]].
  - apply OK, (coord_ext Nl1); [congruence|]. intros q x y Hx Hy. unpack. repeat same_val. subst. lra.
  - apply OK, (coord_ext Nl2); [congruence|]. intros q x y Hx Hy. unpack. repeat same_val. subst. lra.
  - apply OK, (coord_ext Nl3); [congruence|]. intros q x y Hx Hy. unpack. repeat same_val. subst. lra.
  - apply OK, (coord_ext Nam); [congruence|]. intros q x y Hx Hy. unpack. repeat same_val. subst. lra.
  - apply OK, (coord_ext Nl5); [congruence|]. intros q x y Hx Hy. unpack. repeat same_val. subst. lra.
  - destruct (@sum_commutes RA a b (fun x y => Rplus_comm x y) Na Nb S) as [s [t [E1 [E2 H]]]].
    exists s, t. split; [congruence|]. now split.
Qed.

(** * Binary64 *)
Lemma SFadd_comm (x y : spec_float) : SFadd 53 1024 x y = SFadd 53 1024 y x.
Proof.
  destruct x as [sx | sx | | sx mx ex], y as [sy | sy | | sy my ey]; cbn [SFadd]; try reflexivity.
  - destruct sx, sy; reflexivity.
  - destruct sx, sy; reflexivity.
  - rewrite (Z.min_comm ey ex), Z.add_comm. reflexivity.
Qed.
