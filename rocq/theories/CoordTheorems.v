(** The statements of C58, in the form of the properties file. *)
From Coq Require Import Floats.SpecFloat Lra.
From Verif Require Import CoordModel CoordSpec CoordProofs TaggedSpec.

Lemma scalar_assign (A : arith) (op : num A -> num A -> num A) (x : num A) (c : coord A) : coord_wf c ->
  exists s, c_assign_scalar op c (Number x) = Ok s /\ cdims s = cdims c /\
    forall q a, along c q a -> along s q (op a x).
Proof.
  intros N. exists (shift op x c). split; [now apply scalar_number|]. split.
  - unfold cdims, shift. now rewrite map_map.
  - intros q a H. unfold along, shift in *. apply in_map_iff. exists (q, a). now split.
Qed.
Lemma scalar_assign_own (A : arith) (op : num A -> num A -> num A) (l r : coord A) (t : tag) (v : num A) :
  coord_wf (l ++ (t, v) :: r) ->
  c_assign_scalar op (l ++ (t, v) :: r) (Entry (length l)) =
  Ok (map (fun p => (fst p, op (snd p) v)) l ++ (t, op v v) :: map (fun p => (fst p, op (snd p) (op v v))) r).
Proof. intros N. exact (scalar_entry op N). Qed.
Lemma scalar_assign_own_refuted : ~ forall (c : coord RA) k x, coord_wf c -> c_index k c = Ok x ->
  exists s, c_assign_scalar (nadd RA) c (Entry k) = Ok s /\ forall q a, along c q a -> along s q (a + x)%N_.
Proof.
  intros H. specialize (H [(1%nat, 1%R); (2%nat, 2%R)] 0%nat 1%R).
  destruct H as [s [Es Hs]]; [repeat constructor; cbn; intuition discriminate | reflexivity|].
  assert (E : s = [(1%nat, (1 + 1)%R); (2%nat, (2 + (1 + 1))%R)]).
  { assert (I : forall u v : coord RA, Ok u = Ok v -> u = v) by congruence. apply I. rewrite <- Es. reflexivity. }
  specialize (Hs 2%nat 2%R (or_intror (or_introl eq_refl))). subst s.
  destruct Hs as [E | [E | []]]; [discriminate|]. assert (F : (2 + (1 + 1) = 2 + 1)%R) by exact (f_equal snd E). lra.
Qed.
Lemma equality_symmetric_refuted : ~ forall (l r : coord RA), coord_wf l -> coord_wf r -> c_eq l r = Ok true -> c_eq r l = Ok true.
Proof.
  intros H. specialize (H [(1%nat, 0%R)] [(1%nat, 0%R); (2%nat, 5%R)]). 
  assert (W1 : coord_wf (A := RA) [(1%nat, 0%R)]) by (repeat constructor; cbn; tauto).
  assert (W2 : coord_wf (A := RA) [(1%nat, 0%R); (2%nat, 5%R)]) by (repeat constructor; cbn; intuition discriminate).
  specialize (H W1 W2). assert (E : c_eq (A := RA) [(1%nat, 0%R)] [(1%nat, 0%R); (2%nat, 5%R)] = Ok true).
  { destruct (proj1 (equality W1 W2)) as [b [Eb Hb]]; [intros q [<- | []]; now left|]. rewrite Eb. f_equal. apply Hb.
    intros q x y [Ex | []] Hy. assert (q = 1%nat /\ x = 0%R) as [-> ->] by (split; congruence).
    destruct Hy as [Ey | [Ey | []]]; [|discriminate]. assert (y = 0%R) by congruence. subst y. now apply num_eqb_R. }
  apply H in E. assert (F : c_eq (A := RA) [(1%nat, 0%R); (2%nat, 5%R)] [(1%nat, 0%R)] = Rejected).
  { apply (proj2 (equality W2 W1)). intros I. destruct (I 2%nat (or_intror (or_introl eq_refl))) as [I' | []]. discriminate. }
  rewrite F in E. discriminate.
Qed.
Lemma binary64_sum_commutes (a b : coord FA) : coord_wf a -> coord_wf b -> same_dims a b ->
  exists s t, c_add a b = Ok s /\ c_add b a = Ok t /\ same_coord s t.
Proof. apply sum_commutes. exact SFadd_comm. Qed.
Lemma binary64_difference_refuted : ~ forall (a b : coord FA), coord_wf a -> coord_wf b -> same_dims a b ->
  rbind (c_sub a b) (fun s => c_add s b) = Ok a.
Proof.
  intros H. specialize (H [(1%nat, nofz FA 1)] [(1%nat, nofz FA (2 ^ 60))]).
  assert (E : rbind (c_sub (A := FA) [(1%nat, nofz FA 1)] [(1%nat, nofz FA (2 ^ 60))]) (fun s => c_add s [(1%nat, nofz FA (2 ^ 60))]) <>
    Ok [(1%nat, nofz FA 1)]) by (vm_compute; discriminate).
  apply E, H; [repeat constructor; cbn; tauto | repeat constructor; cbn; tauto | intros q; reflexivity].
Qed.
Lemma prints (A : arith) (show : num A -> string) (showz : Z -> string) (c : coord A) (e : tagged) :
  print_coord show c = ("(" ++ String.concat ", " (map show (cvalues c)) ++ ")")%string /\
  print_tagged showz e = ("(" ++ String.concat ", " (map showz (values e)) ++ ")")%string.
Proof. split; apply print_exact. Qed.
