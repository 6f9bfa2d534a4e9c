From Coq Require Import Permutation.
From Verif Require Import Machine MachineProofs TypeSeqModel TaggedModel TaggedSpec TaggedProofs
  DomainModel DomainSpec DomainProofs ListAux DomainProofs2 SpanModel SpanSpec SpanProofs StorageProofs ReduceModel ReduceSpec ReduceProofs.

Definition rng (x : Z) : Prop := 0 <= x < 2 ^ 64.
Lemma fr_app {A} (op : A -> A -> A) (e : A) a b : (forall x y z, op x (op y z) = op (op x y) z) -> (forall x, op e x = x) ->
  fold_right op e (a ++ b) = op (fold_right op e a) (fold_right op e b).
Proof. intros Ha Hn. induction a as [|x a IH]; cbn; [now rewrite Hn|]. now rewrite IH, Ha. Qed.
Lemma fr_perm {A} (op : A -> A -> A) (e : A) a b : (forall x y z, op x (op y z) = op (op x y) z) -> (forall x y, op x y = op y x) ->
  Permutation a b -> fold_right op e a = fold_right op e b.
Proof.
  intros Ha Hc Hp. induction Hp; cbn; auto; [congruence| |congruence]. rewrite !Ha. now rewrite (Hc y).
Qed.
Lemma land_max x : rng x -> Z.land (2 ^ 64 - 1) x = x.
Proof. intros H. rewrite Z.land_comm. change (2 ^ 64 - 1) with (Z.ones 64). rewrite Z.land_ones by lia. apply Z.mod_small. exact H. Qed.
Lemma land_rng a b : rng a -> rng b -> rng (Z.land a b).
Proof.
  intros Ha Hb. rewrite <- (land_max a Ha). rewrite <- Z.land_assoc. rewrite Z.land_comm. change (2 ^ 64 - 1) with (Z.ones 64).
  rewrite Z.land_ones by lia. unfold rng. apply Z.mod_pos_bound. reflexivity.
Qed.
Lemma fold_land_rng l : Forall rng l -> rng (fold_right Z.land (2 ^ 64 - 1) l).
Proof. induction 1; cbn [fold_right]; [unfold rng; lia|]. now apply land_rng. Qed.
Lemma fold_min_le l : fold_right Z.min (2 ^ 64 - 1) l <= 2 ^ 64 - 1.
Proof. induction l; cbn [fold_right]; lia. Qed.
Lemma fold_max_ge l : 0 <= fold_right Z.max 0 l.
Proof. induction l; cbn [fold_right]; lia. Qed.
Lemma forallb_app_ {A} (p : A -> bool) a b : forallb p (a ++ b) = forallb p a && forallb p b.
Proof. apply forallb_app. Qed.
Lemma b2z_nz b : negb (b2z b =? 0) = b. Proof. now destruct b. Qed.
Lemma if_b2z (b : bool) : (if b then 1 else 0) = b2z b. Proof. reflexivity. Qed.

Lemma reduction_init r i : kokkos_init r = Some i -> i = reduction r [].
Proof. destruct r; intros H; try discriminate H; injection H as <-; reflexivity. Qed.
Lemma reduction_join r a b : r <> RBxor -> Forall rng a -> Forall rng b -> reduction r (a ++ b) = kokkos_join r (reduction r a) (reduction r b).
Proof.
  intros Hx Ha Hb. destruct r; try congruence; unfold reduction, kokkos_join.
  - unfold u64_add, u64. change two64 with (2 ^ 64). rewrite fr_app by (intros; lia). now rewrite <- Z.add_mod by lia.
  - unfold u64_mul, u64. change two64 with (2 ^ 64). rewrite fr_app by (intros; lia). now rewrite <- Z.mul_mod by lia.
  - rewrite !if_b2z, !b2z_nz, forallb_app. reflexivity.
  - rewrite !if_b2z, !b2z_nz, existsb_app. reflexivity.
  - clear Hx. induction Ha as [|x a Hx Ha IH]; cbn [app fold_right].
    + rewrite land_max; auto. now apply fold_land_rng.
    + rewrite IH. now rewrite Z.land_assoc.
  - rewrite fr_app; auto. intros. apply Z.lor_assoc.
  - assert (E : fold_right Z.min (2 ^ 64 - 1) (a ++ b) = Z.min (fold_right Z.min (2 ^ 64 - 1) a) (fold_right Z.min (2 ^ 64 - 1) b)).
    { pose proof (fold_min_le b). clear Ha. induction a as [|x a IH]; cbn [app fold_right]; lia. }
    rewrite E. destruct (_ <? _) eqn:L; lia.
  - assert (E : fold_right Z.max 0 (a ++ b) = Z.max (fold_right Z.max 0 a) (fold_right Z.max 0 b)).
    { pose proof (fold_max_ge b). clear Ha. induction a as [|x a IH]; cbn [app fold_right]; lia. }
    rewrite E. destruct (_ <? _) eqn:L; lia.
Qed.
Lemma reduction_snoc r l x : r <> RBxor -> Forall rng l -> rng x -> reduction r (l ++ [x]) = ddc_op r (reduction r l) x.
Proof.
  intros Hx Hl Hr. rewrite reduction_join by auto. unfold rng in Hr. destruct r; try congruence; unfold kokkos_join, ddc_op; auto.
  - f_equal. cbn [reduction fold_right]. rewrite Z.add_0_r. now apply Z.mod_small.
  - f_equal. cbn [reduction fold_right]. rewrite Z.mul_1_r. now apply Z.mod_small.
  - cbn [reduction forallb]. rewrite andb_true_r, !if_b2z, !b2z_nz. reflexivity.
  - cbn [reduction existsb]. rewrite orb_false_r, !if_b2z, !b2z_nz. reflexivity.
  - f_equal. cbn [reduction fold_right]. rewrite Z.land_comm. now apply land_max.
  - f_equal. cbn [reduction fold_right]. apply Z.lor_0_r.
  - cbn [reduction fold_right]. destruct (_ <? _) eqn:L1; destruct (_ <? _) eqn:L2 in |- *; lia.
  - cbn [reduction fold_right]. destruct (_ <? _) eqn:L1; destruct (_ <? _) eqn:L2 in |- *; lia.
Qed.
Lemma reduction_perm r a b : Permutation a b -> reduction r a = reduction r b.
Proof.
  intros Hp. destruct r; unfold reduction.
  - f_equal. apply fr_perm; auto; intros; lia.
  - f_equal. apply fr_perm; auto; intros; lia.
  - replace (forallb (fun x => negb (x =? 0)) b) with (forallb (fun x => negb (x =? 0)) a); auto.
    induction Hp; cbn [forallb]; auto; try congruence. destruct (negb (x =? 0)), (negb (y =? 0)); reflexivity.
  - replace (existsb (fun x => negb (x =? 0)) b) with (existsb (fun x => negb (x =? 0)) a); auto.
    induction Hp; cbn [existsb]; auto; try congruence. destruct (negb (x =? 0)), (negb (y =? 0)); reflexivity.
  - apply fr_perm; auto; intros; [apply Z.land_assoc | apply Z.land_comm].
  - apply fr_perm; auto; intros; [apply Z.lor_assoc | apply Z.lor_comm].
  - apply fr_perm; auto; intros; [symmetry; apply Z.lxor_assoc | apply Z.lxor_comm].
  - apply fr_perm; auto; intros; lia.
  - apply fr_perm; auto; intros; lia.
Qed.

Definition rel (r : reducer) (v : Z) (l : list Z) : Prop := v = reduction r l /\ Forall rng l.
Lemma concat_singles {A B} (f : A -> B) l : fold_right (@app B) [] (map (fun x => [f x]) l) = map f l.
Proof. induction l; cbn; congruence. Qed.
Lemma parallel_reduce_exact r d neutral f s l : dom_wf d -> covers s (sizes_of d) -> enumerates d l -> r <> RBxor ->
  (forall e, 0 <= f e < 2 ^ 64) -> parallel_transform_reduce r d neutral f s = Ok (reduction r (map f l)).
Proof.
  intros Hw Hc He Hr Hf. unfold parallel_transform_reduce. destruct (kokkos_init r) as [i|] eqn:Ei; [|destruct r; discriminate || congruence].
  destruct (run_fold (ddc_op r) (kokkos_join r) i (@app Z) [] (rel r)) with (d := d) (f := f) (g := fun e => [f e]) (s := s) as (v & E & HR & _); auto.
  - apply app_assoc.
  - apply app_nil_r.
  - split; [now apply reduction_init|constructor].
  - intros a b m n [-> Hm] [-> Hn]. split; [|apply Forall_app; auto]. symmetry. now apply reduction_join.
  - intros x Hx. eapply Permutation_in; [exact Hc|exact Hx].
  - intros el a m [-> Hm]. split; [|apply Forall_app; split; [auto|constructor; [apply Hf|constructor]]]. symmetry. apply reduction_snoc; auto. apply Hf.
  - rewrite E, HR. f_equal. unfold mfold. rewrite concat_singles. apply reduction_perm. apply Permutation_map.
    eapply Permutation_trans; [apply Permutation_map; exact Hc|]. rewrite policy_elems. apply Permutation_sym. now apply enum_perm.
Qed.
Lemma bxor_rejected d neutral f s : parallel_transform_reduce RBxor d neutral f s = Rejected.
Proof. reflexivity. Qed.

(** * Signed sums *)
Definition abs_sum (l : list Z) : Z := fold_right (fun x acc => Z.abs x + acc) 0 l.
Lemma abs_sum_app a b : abs_sum (a ++ b) = abs_sum a + abs_sum b.
Proof. induction a as [|x a IH]; cbn [app abs_sum fold_right]; [reflexivity|]. fold (abs_sum (a ++ b)). fold (abs_sum a). lia. Qed.
Lemma abs_sum_nonneg l : 0 <= abs_sum l. Proof. induction l as [|x l IH]; cbn [abs_sum fold_right]; [lia|fold (abs_sum l); lia]. Qed.
Lemma sum_abs l : Z.abs (fold_right Z.add 0 l) <= abs_sum l.
Proof. induction l as [|x l IH]; cbn [abs_sum fold_right]; [lia|fold (abs_sum l); lia]. Qed.
Lemma i64_add_ok x y : Z.abs x + Z.abs y < 2 ^ 63 -> i64_add x y = Some (x + y).
Proof.
  intros H. unfold i64_add, i64_ret, is_i64b. change two63 with (2 ^ 63). destruct (- 2 ^ 63 <=? x + y) eqn:A; destruct (x + y <? 2 ^ 63) eqn:B; cbn; auto; lia.
Qed.
Definition srel (v : res Z) (l : list Z) : Prop := abs_sum l < 2 ^ 63 -> v = Ok (fold_right Z.add 0 l).
Lemma abs_sum_perm a b : Permutation a b -> abs_sum a = abs_sum b.
Proof. induction 1; cbn [abs_sum fold_right]; try fold (abs_sum l); try fold (abs_sum l'); lia. Qed.
Lemma signed_sum_exact d f s l : dom_wf d -> covers s (sizes_of d) -> enumerates d l ->
  abs_sum (map f l) < 2 ^ 63 -> parallel_sum_signed d f s = Ok (fold_right Z.add 0 (map f l)).
Proof.
  intros Hw Hc He Hb. unfold parallel_sum_signed.
  destruct (run_fold signed_add signed_add (Ok 0) (@app Z) [] srel) with (d := d) (f := fun e => @Ok Z (f e)) (g := fun e => [f e]) (s := s) as (v & E & HR); auto.
  - apply app_assoc.
  - apply app_nil_r.
  - intros _. reflexivity.
  - intros a b m n Ha Hbn H. rewrite abs_sum_app in H. pose proof (abs_sum_nonneg m). pose proof (abs_sum_nonneg n).
    rewrite (Ha), (Hbn) by lia. cbn. pose proof (sum_abs m). pose proof (sum_abs n). rewrite i64_add_ok by lia. cbn. f_equal.
    rewrite fr_app by (intros; lia). reflexivity.
  - intros x Hx. eapply Permutation_in; [exact Hc|exact Hx].
  - intros el a m Ha H. rewrite abs_sum_app in H. cbn [abs_sum fold_right] in H. pose proof (abs_sum_nonneg m).
    rewrite Ha by lia. cbn. pose proof (sum_abs m). rewrite i64_add_ok by lia. cbn. f_equal. rewrite fr_app by (intros; lia). cbn. lia.
  - rewrite E. cbn [rbind]. unfold mfold in HR. rewrite concat_singles in HR.
    assert (Hp : Permutation (map f (map (elem_of d) (leaves s))) (map f l)).
    { apply Permutation_map. eapply Permutation_trans; [apply Permutation_map; exact Hc|]. rewrite policy_elems. apply Permutation_sym. now apply enum_perm. }
    rewrite HR by (rewrite (abs_sum_perm _ _ Hp); auto). f_equal. apply fr_perm; auto; intros; lia.
Qed.
