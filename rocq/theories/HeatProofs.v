(** The heat equation programs, over any arithmetic. *)
From Verif Require Import Machine MachineProofs TypeSeqModel TaggedModel TaggedSpec TaggedProofs
  DomainModel DomainSpec DomainProofs ListAux DomainProofs2 SpanModel SpanSpec SpanProofs StorageProofs KokkosModel KokkosSpec KokkosProofs
  ReduceModel ReduceSpec ReduceProofs ParModel ParSpec ParProofs ParProofs2 ProgramModel ProgramProofs GridProofs LineProofs SamplingModel SamplingProofs
  HeatModel HeatSpec HeatGrid.

(** *** mirrors *)
Definition gdom (q : tag) (n : Z) : ghosted := mk_ghosted [(q, (1, 1 + n))] [(q, (0, 1 + n + 1))] [(q, (0, 1))] [(q, (1 + n, 1 + n + 1))].
Lemma elem_sub_1 q a x : 0 <= a - x < 2 ^ 64 -> elem_sub_vect [(q, a)] [(q, x)] = Ok [(q, a - x)].
Proof.
  intros H. unfold elem_sub_vect. rewrite op_assign_1. unfold usub. cbn [rbind]. unfold u64_sub. now rewrite u64_small.
Qed.
Lemma mirrors_ok q n : 1 <= n < 2 ^ 62 -> mirrors (gdom q n) = Ok ([(q, (n, n + 1))], [(q, (1, 2))]).
Proof.
  intros Hn. unfold mirrors, gdom. cbn [g_main g_post g_pre front dom_begin map fst snd].
  rewrite !extents_1' by lia. cbn [rbind]. rewrite elem_sub_1 by lia. cbn [rbind].
  rewrite mk_domain_1' by lia. cbn [rbind]. rewrite elem_add_1 by lia. cbn [rbind]. rewrite mk_domain_1' by lia. cbn [rbind].
  replace (1 + n - (1 + n - 1)) with 1 by lia. replace (0 + (1 + n - 1)) with n by lia. replace (1 + n + 1 - (1 + n)) with 1 by lia. reflexivity.
Qed.

Lemma o_unit {S} (c : list (list nat) -> res S) (Q : (list (list nat) -> S) -> Prop) : outcome c Q -> outcome (fun ss => rbind (c ss) Ok) Q.
Proof. intros H. eapply o_ext; [|exact H]. intros ss. cbn beta. destruct (c ss); reflexivity. Qed.

Lemma merge_xy a b c d : 0 <= a <= b -> b < 2 ^ 63 -> 0 <= c <= d -> d < 2 ^ 63 -> dom_merge [hx; hy] [[(hx, (a, b))]; [(hy, (c, d))]] = Ok (dom2 a b c d).
Proof.
  intros H1 H2 H3 H4. change (dom_merge [hx; hy] [[(hx, (a, b))]; [(hy, (c, d))]]) with
    (Ok (A := domain) [(hx, (a, u64_add a (i64 (u64_sub b a)))); (hy, (c, u64_add c (i64 (u64_sub d c))))]).
  unfold u64_sub. rewrite !u64_small by lia. rewrite !i64_small by lia. unfold u64_add. rewrite !u64_small by lia.
  replace (a + (b - a)) with b by lia. replace (c + (d - c)) with d by lia. reflexivity.
Qed.

Section Heat.
Context (A : arith).
Notation num := (num A).
Variables (nx ny : Z).
Hypothesis Hnx : 2 <= nx < 2 ^ 62.
Hypothesis Hny : 2 <= ny < 2 ^ 62.
Hypothesis Hn : (nx + 2) * (ny + 2) < 2 ^ 64.
Variable gb : nat -> list Z.
Hypothesis Hgb : forall n, length (gb n) = n.
Notation NX := (1 + nx + 1).
Notation NY := (1 + ny + 1).
Notation G p := (grid p NX NY).
Notation xmain := [(hx, (1, 1 + nx))].
Notation ymain := [(hy, (1, 1 + ny))].
Lemma heat_sized : sized NX NY.
Proof. repeat split; lia. Qed.
Lemma adr_range p i j : 0 <= i < NX -> 0 <= j < NY -> p <= p + i * NY + j < p + NX * NY.
Proof. intros Hi Hj. assert (A0 := index_range NX NY i j Hi Hj). lia. Qed.
Lemma adr_inj p i j i' j' : 0 <= j < NY -> 0 <= j' < NY -> p + i * NY + j = p + i' * NY + j' -> i = i' /\ j = j'.
Proof. intros Hj Hj' E. apply (index_inj NY); auto. lia. Qed.

(** *** the ghosts *)
Lemma copy_x p a b (m : memory num) : 0 <= a < NX -> 0 <= b < NX -> a <> b ->
  outcome (fun ss => copy_ghosts_x A (G p) [(hx, (a, a + 1))] [(hx, (b, b + 1))] ymain gb (mk_machine m ss))
    (fun f => exists m', ((forall j, 1 <= j < 1 + ny -> val m' p NY a j = val m p NY b j) /\
       (forall x, (forall j, 1 <= j < 1 + ny -> x <> p + a * NY + j) -> m' x = m x)) /\ f = mk_machine m').
Proof.
  intros Ha Hb Hab. unfold copy_ghosts_x. rewrite extents_1' by lia. cbn [rbind]. rewrite get_hd. cbn [rbind].
  replace (a + 1 - a) with 1 by lia. unfold for_range. change (Z.to_nat (1 - 0)) with 1%nat. cbn [for_n]. apply o_unit.
  unfold dom_at. cbn [dom_begin map fst snd]. rewrite !elem_add_1 by lia. cbn [rbind]. rewrite !Z.add_0_r.
  destruct (slices_x p NX NY a 1 (1 + ny)) as (s & -> & L1); [apply heat_sized|lia..|].
  destruct (slices_x p NX NY b 1 (1 + ny)) as (s' & -> & L2); [apply heat_sized|lia..|]. cbn [rbind].
  destruct (line_copy m s s' hy 1 (1 + ny) _ _ (gb 2%nat) (gb 2%nat) L1 L2) as (K1 & K2 & K3); auto; try lia.
  { intros k k' Hk Hk' E. apply adr_inj in E; lia. }
  apply o_launch with (Q := fun m' => (forall j, 1 <= j < 1 + ny -> val m' p NY a j = val m p NY b j) /\
       (forall x, (forall j, 1 <= j < 1 + ny -> x <> p + a * NY + j) -> m' x = m x)); auto.
Qed.
Lemma copy_y p a b (m : memory num) : 0 <= a < NY -> 0 <= b < NY -> a <> b ->
  outcome (fun ss => copy_ghosts_y A (G p) [(hy, (a, a + 1))] [(hy, (b, b + 1))] xmain gb (mk_machine m ss))
    (fun f => exists m', ((forall i, 1 <= i < 1 + nx -> val m' p NY i a = val m p NY i b) /\
       (forall x, (forall i, 1 <= i < 1 + nx -> x <> p + i * NY + a) -> m' x = m x)) /\ f = mk_machine m').
Proof.
  intros Ha Hb Hab. unfold copy_ghosts_y. rewrite extents_1' by lia. cbn [rbind]. rewrite get_hd. cbn [rbind].
  replace (a + 1 - a) with 1 by lia. unfold for_range. change (Z.to_nat (1 - 0)) with 1%nat. cbn [for_n]. apply o_unit.
  unfold dom_at. cbn [dom_begin map fst snd]. rewrite !elem_add_1 by lia. cbn [rbind]. rewrite !Z.add_0_r.
  destruct (slices_y p NX NY a 1 (1 + nx)) as (s & -> & L1); [apply heat_sized|lia..|].
  destruct (slices_y p NX NY b 1 (1 + nx)) as (s' & -> & L2); [apply heat_sized|lia..|]. cbn [rbind].
  destruct (line_copy m s s' hx 1 (1 + nx) _ _ (gb 2%nat) (gb 2%nat) L1 L2) as (K1 & K2 & K3); auto; try lia.
  { intros k k' Hk Hk' E. apply adr_inj in E; lia. }
  { intros k k' Hk Hk' E. apply adr_inj in E; lia. }
  apply o_launch with (Q := fun m' => (forall i, 1 <= i < 1 + nx -> val m' p NY i a = val m p NY i b) /\
       (forall x, (forall i, 1 <= i < 1 + nx -> x <> p + i * NY + a) -> m' x = m x)); auto.
Qed.
(** The values of a grid are those of a temperature, ghosts included (corners excluded). *)
Definition inner_is (m : memory num) (p : Z) (T : temperature A) : Prop := forall i j, 0 <= i < nx -> 0 <= j < ny -> val m p NY (1 + i) (1 + j) = T i j.
Definition wrapped_is (m : memory num) (p : Z) (T : temperature A) : Prop := forall i j,
  (-1 <= i <= nx /\ 0 <= j < ny) \/ (0 <= i < nx /\ -1 <= j <= ny) -> val m p NY (1 + i) (1 + j) = T (i mod nx) (j mod ny).
Definition same_out (p : Z) (m m' : memory num) : Prop := forall x, ~ (p <= x < p + NX * NY) -> m' x = m x.
Lemma mod_m1 n : 2 <= n -> -1 mod n = n - 1. Proof. intros H. symmetry. apply (Z.mod_unique _ _ (-1)); lia. Qed.
Lemma mod_n n : 2 <= n -> n mod n = 0. Proof. intros H. apply Z.mod_same. lia. Qed.
Lemma boundary_ok p m T : inner_is m p T ->
  outcome (fun ss => boundary_conditions A (G p) (gdom hx nx) (gdom hy ny) ([(hx, (nx, nx + 1))], [(hx, (1, 2))]) ([(hy, (ny, ny + 1))], [(hy, (1, 2))]) gb (mk_machine m ss))
    (fun f => exists m', (wrapped_is m' p T /\ same_out p m m') /\ f = mk_machine m').
Proof.
  intros HT. unfold boundary_conditions, gdom. cbn [g_pre g_post g_main fst snd].
  eapply o_bind; [apply (copy_x p 0 nx m); lia|]. intros f (m1 & (V1 & F1) & ->).
  eapply o_bind; [apply (copy_x p (1 + nx) 1 m1); lia|]. intros f (m2 & (V2 & F2) & ->).
  eapply o_bind; [apply (copy_y p 0 ny m2); lia|]. intros f (m3 & (V3 & F3) & ->).
  eapply o_weaken; [|apply (copy_y p (1 + ny) 1 m3); lia]. cbn beta. intros f (m4 & (V4 & F4) & ->). exists m4. split; [|reflexivity].
  assert (N : forall i j i' j', 0 <= i < NX -> 0 <= j < NY -> 0 <= i' < NX -> 0 <= j' < NY -> (i <> i' \/ j <> j') -> p + i * NY + j <> p + i' * NY + j').
  { intros i j i' j' H1 H2 H3 H4 H5 E. apply adr_inj in E; lia. }
  assert (E1 : forall i j, 0 <= i < NX -> 0 <= j < NY -> (i <> 0 \/ j < 1 \/ 1 + ny <= j) -> val m1 p NY i j = val m p NY i j).
  { intros i j Hi Hj Ho. apply F1. intros k Hk. apply N; lia. }
  assert (E2 : forall i j, 0 <= i < NX -> 0 <= j < NY -> (i <> 1 + nx \/ j < 1 \/ 1 + ny <= j) -> val m2 p NY i j = val m1 p NY i j).
  { intros i j Hi Hj Ho. apply F2. intros k Hk. apply N; lia. }
  assert (E3 : forall i j, 0 <= i < NX -> 0 <= j < NY -> (j <> 0 \/ i < 1 \/ 1 + nx <= i) -> val m3 p NY i j = val m2 p NY i j).
  { intros i j Hi Hj Ho. apply F3. intros k Hk. apply N; lia. }
  assert (E4 : forall i j, 0 <= i < NX -> 0 <= j < NY -> (j <> 1 + ny \/ i < 1 \/ 1 + nx <= i) -> val m4 p NY i j = val m3 p NY i j).
  { intros i j Hi Hj Ho. apply F4. intros k Hk. apply N; lia. }
  assert (X : forall i j, 0 <= i <= 1 + nx -> 1 <= j <= ny -> val m2 p NY i j = T ((i - 1) mod nx) (j - 1)).
  { intros i j Hi Hj. assert (C : i = 0 \/ i = 1 + nx \/ 1 <= i <= nx) by lia. destruct C as [->|[->|C]].
    - rewrite E2, V1 by lia. change (0 - 1) with (-1). rewrite mod_m1 by lia. rewrite <- HT by lia. f_equal; lia.
    - rewrite V2, E1 by lia. replace (1 + nx - 1) with nx by lia. rewrite mod_n by lia. rewrite <- HT by lia. f_equal; lia.
    - rewrite E2, E1 by lia. rewrite Z.mod_small by lia. rewrite <- HT by lia. f_equal; lia. }
  assert (Y : forall i j, 0 <= i <= 1 + nx -> 0 <= j <= 1 + ny -> (1 <= j <= ny \/ 1 <= i <= nx) -> val m4 p NY i j = T ((i - 1) mod nx) ((j - 1) mod ny)).
  { intros i j Hi Hj Ho. assert (C : 1 <= i <= nx /\ j = 0 \/ 1 <= i <= nx /\ j = 1 + ny \/ 1 <= j <= ny) by lia. destruct C as [[C ->]|[[C ->]|C]].
    - rewrite E4, V3, X by lia. change (0 - 1) with (-1). now rewrite mod_m1 by lia.
    - rewrite V4, E3, X by lia. replace (1 + ny - 1) with ny by lia. now rewrite mod_n by lia.
    - rewrite E4, E3, X by lia. now rewrite (Z.mod_small (j - 1)) by lia. }
  split.
  - intros i j Ho. rewrite Y by lia. f_equal; f_equal; lia.
  - assert (O : forall i j x, 0 <= i < NX -> 0 <= j < NY -> ~ (p <= x < p + NX * NY) -> x <> p + i * NY + j).
    { intros i j x Hi Hj Hx E. apply Hx. rewrite E. now apply adr_range. }
    intros x Hx. rewrite F4, F3, F2, F1; auto; intros k Hk; apply O; auto; lia.
Qed.

(** *** the scheme *)
Lemma sel_x i j : select [hx] (el i j) = Ok [(hx, i)]. Proof. reflexivity. Qed.
Lemma sel_y i j : select [hy] (el i j) = Ok [(hy, j)]. Proof. reflexivity. Qed.
Definition adr (p i j : Z) : Z := p + (1 + i) * NY + (1 + j).
Lemma part_at s p i j es : part s p NY 1 (1 + nx) 1 (1 + ny) -> concat es = el (1 + i) (1 + j) -> 0 <= i < nx -> 0 <= j < ny -> span_access s es = Ok (adr p i j).
Proof. intros (_ & _ & H) E Hi Hj. apply H; auto; lia. Qed.
Lemma whole_at p i j es : concat es = el (1 + i) (1 + j) -> -1 <= i <= nx -> -1 <= j <= ny -> span_access (G p) es = Ok (adr p i j).
Proof. intros E Hi Hj. apply (grid_at hx hy hxy p NX NY (1 + i) (1 + j)); auto using heat_sized; lia. Qed.
Lemma adr_in p i j : -1 <= i <= nx -> -1 <= j <= ny -> p <= adr p i j < p + NX * NY.
Proof. intros Hi Hj. apply adr_range; lia. Qed.
Section Scheme.
Variables (pl pn : Z).
Hypothesis Hpp : pl + NX * NY <= pn \/ pn + NX * NY <= pl.
Variables (inc_x inc_y : Z -> res (num -> num -> num -> num)) (FX FY : Z -> num -> num -> num -> num).
Hypothesis HFX : forall i, 0 <= i < nx -> inc_x (1 + i) = Ok (FX i).
Hypothesis HFY : forall j, 0 <= j < ny -> inc_y (1 + j) = Ok (FY j).
Variable s : span.
Hypothesis Hs : part s pn NY 1 (1 + nx) 1 (1 + ny).
Definition stencil_prog (i j : Z) : prog num :=
  let n := adr pn i j in let c := adr pl i j in
  PRead c (fun v => PWrite n v
     (PRead (adr pl (i + 1) j) (fun p => PRead c (fun v => PRead (adr pl (i - 1) j) (fun m => PRead n (fun w => PWrite n (nadd A w (FX i p v m))
     (PRead (adr pl i (j + 1)) (fun p => PRead c (fun v => PRead (adr pl i (j - 1)) (fun m => PRead n (fun w => PWrite n (nadd A w (FY j p v m)) PRet))))))))))).
Lemma stencil_ok i j : 0 <= i < nx -> 0 <= j < ny -> stencil_call A (G pl) s inc_x inc_y (el (1 + i) (1 + j)) = Ok (stencil_prog i j).
Proof.
  intros Hi Hj. unfold stencil_call. rewrite sel_x, sel_y. cbn [rbind one_elem]. rewrite HFX, HFY by auto. cbn [rbind].
  rewrite (part_at s pn i j) by auto. rewrite (whole_at pl i j) by (auto; lia). cbn [rbind].
  rewrite !elem_add_1, !elem_sub_1 by lia. cbn [rbind].
  replace (1 + i + 1) with (1 + (i + 1)) by lia. replace (1 + i - 1) with (1 + (i - 1)) by lia.
  replace (1 + j + 1) with (1 + (j + 1)) by lia. replace (1 + j - 1) with (1 + (j - 1)) by lia.
  rewrite (whole_at pl (i + 1) j), (whole_at pl (i - 1) j), (whole_at pl i (j + 1)), (whole_at pl i (j - 1)) by (reflexivity || lia).
  cbn [rbind]. reflexivity.
Qed.
Lemma adr_ne i j i' j' : -1 <= i <= nx -> -1 <= j <= ny -> -1 <= i' <= nx -> -1 <= j' <= ny -> adr pl i j <> adr pn i' j'.
Proof. intros H1 H2 H3 H4 E. assert (B := adr_in pl i j H1 H2). assert (C := adr_in pn i' j' H3 H4). lia. Qed.
Lemma scheme_kernel m T : wrapped_is m pl T ->
  (exists c m', parallel_for_each (dom2 1 (1 + nx) 1 (1 + ny)) (stencil_call A (G pl) s inc_x inc_y) c m = Ok m') /\
  (forall c m', parallel_for_each (dom2 1 (1 + nx) 1 (1 + ny)) (stencil_call A (G pl) s inc_x inc_y) c m = Ok m' ->
    inner_is m' pn (step A nx ny FX FY T) /\ same_out pn m m') /\
  (forall c, parallel_for_each (dom2 1 (1 + nx) 1 (1 + ny)) (stencil_call A (G pl) s inc_x inc_y) c m <> Undef).
Proof.
  intros HT. assert (In2 : forall e, In e (trace (dom2 1 (1 + nx) 1 (1 + ny))) -> exists i j, e = el (1 + i) (1 + j) /\ 0 <= i < nx /\ 0 <= j < ny).
  { intros e He. apply (in_trace2 hx hy hxy) in He as (i & j & -> & Hi & Hj). exists (i - 1), (j - 1). split; [f_equal; lia|lia]. }
  destruct (for_each_run (dom2 1 (1 + nx) 1 (1 + ny)) (stencil_call A (G pl) s inc_x inc_y) (fun e => stencil_prog (vf e hx - 1) (vf e hy - 1))
    (fun _ a => pl <= a < pl + NX * NY) (fun e a => a = adr pn (vf e hx - 1) (vf e hy - 1)) m) as (K1 & K2 & K3).
  - apply dom2_wf; [exact hxy|lia..].
  - intros e He. apply In2 in He as (i & j & -> & Hi & Hj). rewrite (vf_x hx hy), (vf_y hx hy hxy). replace (1 + i - 1) with i by lia. replace (1 + j - 1) with j by lia. now apply stencil_ok.
  - intros e He. apply In2 in He as (i & j & -> & Hi & Hj). rewrite (vf_x hx hy), (vf_y hx hy hxy). replace (1 + i - 1) with i by lia. replace (1 + j - 1) with j by lia.
    unfold stencil_prog. cbv zeta.
    repeat first [constructor; [left; apply adr_in; lia|intros ?] | constructor; [right; reflexivity|intros ?] | constructor; [reflexivity|] | constructor].
  - intros e e' a He He' Hne ->. apply In2 in He as (i & j & -> & Hi & Hj). apply In2 in He' as (i' & j' & -> & Hi' & Hj').
    rewrite !(vf_x hx hy), !(vf_y hx hy hxy). split.
    + assert (B := adr_in pn (1 + i - 1) (1 + j - 1) ltac:(lia) ltac:(lia)). lia.
    + intros E. apply Hne. apply adr_inj in E; try lia. destruct E. f_equal; lia.
  - split; [exact K1|]. split; [|exact K3]. intros c m' E. destruct (K2 c m' E) as [W1 W2]. split.
    + intros i j Hi Hj. change (val m' pn NY (1 + i) (1 + j)) with (m' (adr pn i j)). rewrite (W1 (el (1 + i) (1 + j))).
      2:{ apply (in_trace2 hx hy hxy). exists (1 + i), (1 + j). split; auto. lia. }
      2:{ rewrite (vf_x hx hy), (vf_y hx hy hxy). f_equal; lia. }
      rewrite (vf_x hx hy), (vf_y hx hy hxy). replace (1 + i - 1) with i by lia. replace (1 + j - 1) with j by lia.
      unfold stencil_prog. cbv zeta. cbn [run_alone].
      assert (R : forall u v a b (M : memory num), -1 <= u <= nx -> -1 <= v <= ny -> mem_write M (adr pn i j) a (adr pl u v) = b <-> M (adr pl u v) = b).
      { intros u v a b M Hu Hv. unfold mem_write. assert (Q := adr_ne u v i j Hu Hv ltac:(lia) ltac:(lia)). apply Z.eqb_neq in Q. rewrite Q. tauto. }
      assert (R1 : forall u v a (M : memory num), -1 <= u <= nx -> -1 <= v <= ny -> mem_write M (adr pn i j) a (adr pl u v) = M (adr pl u v)).
      { intros u v a M Hu Hv. now apply R. }
      assert (R2 : forall a (M : memory num), mem_write M (adr pn i j) a (adr pn i j) = a) by (intros; unfold mem_write; now rewrite Z.eqb_refl).
      rewrite !R2, !R1 by lia. unfold step.
      assert (V : forall u v, (-1 <= u <= nx /\ 0 <= v < ny) \/ (0 <= u < nx /\ -1 <= v <= ny) -> m (adr pl u v) = T (u mod nx) (v mod ny)) by (intros u v; apply HT).
      rewrite !V by lia. rewrite !(Z.mod_small i), !(Z.mod_small j) by lia. reflexivity.
    + intros x Hx. apply W2. intros e He ->. apply Hx. apply In2 in He as (i & j & -> & Hi & Hj).
      rewrite !(vf_x hx hy), !(vf_y hx hy hxy). apply adr_in; lia.
Qed.
End Scheme.

(** *** the initial condition *)
Section Initial.
Variables (p : Z) (cx cy : Z -> res num) (X Y : Z -> num).
Hypothesis HX : forall i, 0 <= i < nx -> cx (1 + i) = Ok (X i).
Hypothesis HY : forall j, 0 <= j < ny -> cy (1 + j) = Ok (Y j).
Lemma initial_kernel (m : memory num) :
  (exists c m', parallel_for_each (dom2 1 (1 + nx) 1 (1 + ny)) (initial_call A (G p) cx cy) c m = Ok m') /\
  (forall c m', parallel_for_each (dom2 1 (1 + nx) 1 (1 + ny)) (initial_call A (G p) cx cy) c m = Ok m' ->
    inner_is m' p (disc A X Y) /\ same_out p m m') /\
  (forall c, parallel_for_each (dom2 1 (1 + nx) 1 (1 + ny)) (initial_call A (G p) cx cy) c m <> Undef).
Proof.
  assert (In2 : forall e, In e (trace (dom2 1 (1 + nx) 1 (1 + ny))) -> exists i j, e = el (1 + i) (1 + j) /\ 0 <= i < nx /\ 0 <= j < ny).
  { intros e He. apply (in_trace2 hx hy hxy) in He as (i & j & -> & Hi & Hj). exists (i - 1), (j - 1). split; [f_equal; lia|lia]. }
  destruct (for_each_run (dom2 1 (1 + nx) 1 (1 + ny)) (initial_call A (G p) cx cy) (fun e => PWrite (adr p (vf e hx - 1) (vf e hy - 1)) (disc A X Y (vf e hx - 1) (vf e hy - 1)) PRet)
    (fun _ a => False) (fun e a => a = adr p (vf e hx - 1) (vf e hy - 1)) m) as (K1 & K2 & K3).
  - apply dom2_wf; [exact hxy|lia..].
  - intros e He. apply In2 in He as (i & j & -> & Hi & Hj). rewrite (vf_x hx hy), (vf_y hx hy hxy). replace (1 + i - 1) with i by lia. replace (1 + j - 1) with j by lia.
    unfold initial_call. rewrite sel_x, sel_y. cbn [rbind one_elem]. rewrite HX, HY by auto. cbn [rbind]. rewrite (whole_at p i j) by (reflexivity || lia). reflexivity.
  - intros e He. repeat constructor.
  - intros e e' a He He' Hne ->. apply In2 in He as (i & j & -> & Hi & Hj). apply In2 in He' as (i' & j' & -> & Hi' & Hj').
    rewrite !(vf_x hx hy), !(vf_y hx hy hxy). split; [tauto|]. intros E. apply Hne. apply adr_inj in E; try lia. destruct E. f_equal; lia.
  - split; [exact K1|]. split; [|exact K3]. intros c m' E. destruct (K2 c m' E) as [W1 W2]. split.
    + intros i j Hi Hj. change (val m' p NY (1 + i) (1 + j)) with (m' (adr p i j)). rewrite (W1 (el (1 + i) (1 + j))).
      2:{ apply (in_trace2 hx hy hxy). exists (1 + i), (1 + j). split; auto. lia. }
      2:{ rewrite (vf_x hx hy), (vf_y hx hy hxy). f_equal; lia. }
      rewrite (vf_x hx hy), (vf_y hx hy hxy). replace (1 + i - 1) with i by lia. replace (1 + j - 1) with j by lia.
      cbn [run_alone]. unfold mem_write. now rewrite Z.eqb_refl.
    + intros x Hx. apply W2. intros e He ->. apply Hx. apply In2 in He as (i & j & -> & Hi & Hj).
      rewrite !(vf_x hx hy), !(vf_y hx hy hxy). apply adr_in; lia.
Qed.
End Initial.

(** *** what is displayed *)
Lemma fold_left_ext {S B} (f g : S -> B -> S) l : (forall a b, f a b = g a b) -> forall a, fold_left f l a = fold_left g l a.
Proof. intros H. induction l as [|b l IH]; intros a; cbn [fold_left]; auto. now rewrite H. Qed.
Lemma reduce2 (f : tagged -> res num) (op : num -> num -> num) (z : num) (v : Z -> Z -> num) x0 x1 y0 y1 :
  0 <= x0 <= x1 -> x1 < 2 ^ 63 -> 0 <= y0 <= y1 -> y1 < 2 ^ 63 ->
  (forall i j, x0 <= i < x1 -> y0 <= j < y1 -> f (el i j) = Ok (v i j)) ->
  host_transform_reduce (dom2 x0 x1 y0 y1) (Ok z) (fun a b => x <- a ;; y <- b ;; Ok (op x y)) f =
  Ok (Ok (fold_left (fun acc i => op (fold_left (fun acc j => op (v (x0 + i) (y0 + j)) acc) (zrange (y1 - y0)) z) acc) (zrange (x1 - x0)) z)).
Proof.
  intros Hx Hx' Hy Hy' Hf. unfold host_transform_reduce. destruct (extents_values (dom2 x0 x1 y0 y1)) as (ex & E & Ev); [apply dom2_wf; [exact hxy|lia..]|].
  rewrite E. cbn [rbind]. rewrite Ev. clear E Ev. unfold GridProofs.dom2 at 2. cbn [map fst snd]. 
  assert (At : forall i j, 0 <= i < x1 - x0 -> 0 <= j < y1 - y0 -> dom_at (dom2 x0 x1 y0 y1) (combine (ddims (dom2 x0 x1 y0 y1)) [i; j]) = Ok (el (x0 + i) (y0 + j))).
  { intros i j Hi Hj. change (Ok (A := tagged) [(hx, u64_add x0 i); (hy, u64_add y0 j)] = Ok (el (x0 + i) (y0 + j))).
    unfold u64_add. rewrite !u64_small by lia. reflexivity. }
  cbn [reduce_serial app].
  assert (Row : forall l i acc, (forall j, In j l -> 0 <= j < y1 - y0) -> 0 <= i < x1 - x0 ->
    fold_left (fun result ii => rbind result (fun result' => rbind (rbind (dom_at (dom2 x0 x1 y0 y1) (combine (ddims (dom2 x0 x1 y0 y1)) [i; ii])) (fun e => Ok (f e)))
      (fun x => Ok (rbind x (fun x0 => rbind result' (fun y => Ok (op x0 y))))))) l (Ok (Ok acc)) = Ok (Ok (fold_left (fun acc j => op (v (x0 + i) (y0 + j)) acc) l acc))).
  { induction l as [|j l IH]; intros i acc Hl Hi; cbn [fold_left]; auto. rewrite At by (auto; apply Hl; now left). cbn [rbind].
    assert (Hj : 0 <= j < y1 - y0) by (apply Hl; now left). rewrite Hf by lia. cbn [rbind]. apply IH; auto. intros k Hk. apply Hl. now right. }
  assert (All : forall l acc, (forall i, In i l -> 0 <= i < x1 - x0) ->
    fold_left (fun result ii => rbind result (fun result' => rbind (fold_left (fun result ii0 => rbind result (fun result'' => rbind (rbind (dom_at (dom2 x0 x1 y0 y1) (combine (ddims (dom2 x0 x1 y0 y1)) [ii; ii0])) (fun e => Ok (f e)))
      (fun x => Ok (rbind x (fun x0 => rbind result'' (fun y => Ok (op x0 y))))))) (zrange (y1 - y0)) (Ok (Ok z)))
      (fun x => Ok (rbind x (fun x0 => rbind result' (fun y => Ok (op x0 y))))))) l (Ok (Ok acc)) =
    Ok (Ok (fold_left (fun acc i => op (fold_left (fun acc j => op (v (x0 + i) (y0 + j)) acc) (zrange (y1 - y0)) z) acc) l acc))).
  { induction l as [|i l IH]; intros acc Hl; cbn [fold_left]; auto. cbn [rbind]. rewrite Row by (try (intros j Hj; now apply in_zrange in Hj); apply Hl; now left). cbn [rbind].
    apply IH. intros k Hk. apply Hl. now right. }
  apply All. intros i Hi. now apply in_zrange in Hi.
Qed.
Lemma sel_dom x0 x1 y0 y1 : 0 <= y0 -> y0 <= y1 -> y1 < 2 ^ 63 -> dom_select [hy] (dom2 x0 x1 y0 y1) = Ok [(hy, (y0, y1))].
Proof.
  intros H1 H2 H3. change (dom_select [hy] (dom2 x0 x1 y0 y1)) with (Ok (A := domain) [(hy, (y0, u64_add y0 (i64 (u64_sub y1 y0))))]).
  unfold u64_sub. rewrite u64_small, i64_small by lia. unfold u64_add. rewrite u64_small by lia. f_equal. f_equal. f_equal. f_equal. lia.
Qed.
Lemma part_row s p x0 x1 y0 y1 NYY j : 0 <= x0 < x1 -> x1 < 2 ^ 63 -> 0 <= y0 -> y1 < 2 ^ 63 -> y0 <= j < y1 -> part s p NYY x0 x1 y0 y1 ->
  exists r, span_slice_vec s [(hy, j - y0)] = Ok r /\ line r hx x0 x1 (fun i => p + i * NYY + j).
Proof.
  intros Hx Hx' Hy Hy' Hj (W & Hd & Ha).
  destruct (slices_compose [SElem [(hy, j)]] s) as (r & E & Wr & Hdr & Har); auto.
  - rewrite Hd. cbn [slices_ok]. split; [|exact I]. apply (elem_ok1 _ hy j y0 y1); [right; now left|lia].
  - exists r. assert (Ex : span_slice_elem s [(hy, j)] = span_slice_vec s [(hy, j - y0)]).
    { unfold span_slice_elem. change (dims [(hy, j)]) with [hy]. rewrite Hd.
      rewrite sel_dom by lia. cbn [rbind].
      change (contains [(hy, (y0, y1))] [[(hy, j)]]) with (Ok (A := bool) (contains_loop [(hy, (y0, y1))] [(hy, j)])).
      assert (C : contains_loop [(hy, (y0, y1))] [(hy, j)] = true) by (cbn [contains_loop]; destruct ((j <? y0) || (y1 <=? j)) eqn:Q; [lia|reflexivity]). rewrite C. cbn [rbind].
      change (distance_from_front [(hy, (y0, y1))] [[(hy, j)]]) with (Ok (A := tagged) [(hy, i64 (u64_sub j y0))]).
      unfold u64_sub. rewrite u64_small, i64_small by lia. reflexivity. }
    cbn [run_slices apply_slice] in E. rewrite Ex in E. split; [destruct (span_slice_vec s [(hy, j - y0)]); exact E|].
    rewrite Hd in Hdr. change (s_dom r = [(hx, (x0, x1))]) in Hdr. split; auto. split; auto. intros k Hk.
    destruct (Har [[(hx, k)]]) as (B & a & E1 & E2); [rewrite Hdr; apply box1; cbn [concat app]; eauto|].
    rewrite (Ha k j) in E2 by (reflexivity || lia). congruence.
Qed.
Definition line_at (time : num) (T : temperature A) : display_line A :=
  mk_line A time (ndiv A (grid_sum A nx ny T) (nofz A (nx * ny))) (ny / 2) (map (fun i => T i (ny / 2)) (indices nx)).
Lemma display_ok s p m time T : part s p NY 1 (1 + nx) 1 (1 + ny) -> inner_is m p T -> display A m time s = Ok (line_at time T).
Proof.
  intros Hp HT. assert (Hq := Hp). destruct Hq as (W & Hd & Ha). unfold display. rewrite Hd.
  rewrite (reduce2 _ (nadd A) (nofz A 0) (fun i j => T (i - 1) (j - 1))); try lia.
  2:{ intros i j Hi Hj. unfold span_read. rewrite (Ha i j) by (auto; lia). cbn [rbind]. f_equal. rewrite <- HT by lia. unfold val. f_equal. lia. }
  cbn [rbind]. 
  assert (Sel : dom_select [hy] (dom2 1 (1 + nx) 1 (1 + ny)) = Ok [(hy, (1, 1 + ny))]) by (apply sel_dom; lia). rewrite Sel. cbn [rbind].
  assert (S1 : dom_size (dom2 1 (1 + nx) 1 (1 + ny)) = nx * ny).
  { assert (B : box_count (dom2 1 (1 + nx) 1 (1 + ny)) = nx * ny) by (rewrite (count2 hx hy hxy); ring). rewrite dom_size_exact; [exact B | apply dom2_wf; [exact hxy|lia..] |]. rewrite B. clear -Hn Hnx Hny. nia. }
  assert (S2 : dom_size [(hy, (1, 1 + ny))] = ny).
  { rewrite dom_size_exact; [| apply dom1_wf; lia |]; unfold box_count; cbn [fold_right fst snd]; lia. }
  rewrite S1, S2. destruct (part_row s p 1 (1 + nx) 1 (1 + ny) NY (1 + ny / 2)) as (r & Er & Lr); auto; try lia.
  replace (1 + ny / 2 - 1) with (ny / 2) in Er by lia. rewrite Er. cbn [rbind]. rewrite (line_contents m r _ _ _ _ Lr). cbn [rbind].
  unfold line_at, grid_sum, sum_over, indices. f_equal. f_equal.
  - f_equal. replace (1 + nx - 1) with nx by lia. replace (1 + ny - 1) with ny by lia. apply fold_left_ext. intros acc i. f_equal.
    apply fold_left_ext. intros acc' j. f_equal. f_equal; lia.
  - replace (1 + nx - 1) with nx by lia. apply map_ext_in. intros i Hi. change (val m p NY (1 + i) (1 + ny / 2) = T i (ny / 2)). apply HT.
    + now apply in_zrange in Hi.
    + assert (B := Z.div_lt_upper_bound ny 2 ny ltac:(lia) ltac:(lia)). assert (C := Z.div_pos ny 2 ltac:(lia) ltac:(lia)). lia.
Qed.

(** *** the loop in time *)
Definition apart (p q : Z) : Prop := p + NX * NY <= q \/ q + NX * NY <= p.
Lemma host_copy pt p m T : apart pt p -> inner_is m p T ->
  outcome (fun ss => launch (parallel_deepcopy (G pt) (G p) (gb 4%nat) (gb 4%nat)) (mk_machine m ss))
    (fun f => exists m', (inner_is m' pt T /\ same_out pt m m') /\ f = mk_machine m').
Proof.
  intros Ha HT. destruct (grid_copy hx hy hxy m pt p NX NY (gb 4%nat) (gb 4%nat) heat_sized) as (K1 & K2 & K3); auto.
  { unfold apart in Ha. lia. }
  apply o_launch; [exact K1| |exact K3]. intros c m' E. destruct (K2 c m' E) as [W1 W2]. split.
  - intros i j Hi Hj. rewrite W1 by lia. now apply HT.
  - exact W2.
Qed.
Lemma inner_out p q m m' T : apart p q -> inner_is m p T -> same_out q m m' -> inner_is m' p T.
Proof.
  intros Ha HT Hs i j Hi Hj. unfold val. rewrite Hs; [now apply HT|]. assert (B := adr_range p (1 + i) (1 + j) ltac:(lia) ltac:(lia)). unfold apart in Ha. lia.
Qed.
Section Loop.
Variables (pt : Z) (inc_x inc_y : Z -> res (num -> num -> num -> num)) (FX FY : Z -> num -> num -> num -> num).
Hypothesis HFX : forall i, 0 <= i < nx -> inc_x (1 + i) = Ok (FX i).
Hypothesis HFY : forall j, 0 <= j < ny -> inc_y (1 + j) = Ok (FY j).
Variable v : list slice.
Hypothesis Hv : forall p, exists s, run_slices (G p) v = Ok s /\ part s p NY 1 (1 + nx) 1 (1 + ny).
Variables (time : Z -> num) (period : Z).
Notation iteration := (heat_iteration A (gdom hx nx) (gdom hy ny) ([(hx, (nx, nx + 1))], [(hx, (1, 2))]) ([(hy, (ny, ny + 1))], [(hy, (1, 2))]) v inc_x inc_y time period (G pt) gb).
Lemma iteration_ok k m out lines pl pn T : apart pl pn -> apart pt pl -> apart pt pn -> 0 <= out <= k -> k < 2 ^ 63 -> inner_is m pl T ->
  outcome (fun ss => iteration k (mk_heat A (mk_machine m ss) (G pl) (G pn) out lines))
    (fun f => exists m', inner_is m' pn (step A nx ny FX FY T) /\
       f = fun rest => mk_heat A (mk_machine m' rest) (G pn) (G pl) (if period <=? k - out then k else out)
             (if period <=? k - out then lines ++ [line_at (time k) (step A nx ny FX FY T)] else lines)).
Proof.
  intros Hln Htl Htn Ho Hk HT. unfold heat_iteration. cbn [h_last h_next h_machine h_output h_lines].
  eapply o_bind; [apply (boundary_ok pl m T HT)|]. intros f (m1 & (B1 & B2) & ->).
  destruct (Hv pn) as (s & Es & Ps). rewrite Es. cbn [rbind]. assert (Ds : s_dom s = dom2 1 (1 + nx) 1 (1 + ny)) by apply Ps. rewrite Ds.
  destruct (scheme_kernel pl pn Hln inc_x inc_y FX FY HFX HFY s Ps m1 T B1) as (K1 & K2 & K3).
  eapply o_bind; [apply (o_launch _ m1 (fun m' => inner_is m' pn (step A nx ny FX FY T) /\ same_out pn m1 m') K1 K2 K3)|].
  intros f (m2 & (C1 & C2) & ->).
  assert (Em : elem_minus k out = k - out). { unfold elem_minus, u64_sub. rewrite u64_small, i64_small by lia. reflexivity. }
  rewrite Em. destruct (period <=? k - out).
  - eapply o_bind; [apply (host_copy pt pn m2 _ Htn C1)|]. intros f (m3 & (D1 & D2) & ->).
    destruct (Hv pt) as (sh & Eh & Ph). rewrite Eh. cbn [rbind p_mem]. rewrite (display_ok sh pt m3 _ _ Ph D1). cbn [rbind].
    apply (o_ret (fun ss => mk_heat A (mk_machine m3 ss) (G pn) (G pl) k (lines ++ [line_at (time k) (step A nx ny FX FY T)]))).
    exists m3. split; [|reflexivity]. apply (inner_out pn pt m2); auto. unfold apart in *. lia.
  - apply (o_ret (fun ss => mk_heat A (mk_machine m2 ss) (G pn) (G pl) out lines)). exists m2. split; auto.
Qed.
(** The state before the iteration [k]. *)
Definition shown_before (X Y : Z -> num) (k : nat) : list (display_line A) :=
  map (fun n => line_at (time (Z.of_nat n)) (evolution A nx ny X Y FX FY n)) (filter (fun n => Z.of_nat n mod period =? 0) (seq 0 k)).
Definition loop_inv (pa pb : Z) (X Y : Z -> num) (k : Z) (f : list (list nat) -> heat_state A) : Prop := exists m,
  let n := Z.to_nat (k - 1) in let pl := if Nat.even n then pa else pb in let pn := if Nat.even n then pb else pa in
  inner_is m pl (evolution A nx ny X Y FX FY n) /\
  f = fun rest => mk_heat A (mk_machine m rest) (G pl) (G pn) (period * ((k - 1) / period)) (shown_before X Y (Z.to_nat k)).
Lemma loop_step pa pb X Y k f : apart pa pb -> apart pt pa -> apart pt pb -> 0 < period -> 1 <= k < 2 ^ 63 ->
  loop_inv pa pb X Y k f -> outcome (fun ss => iteration k (f ss)) (loop_inv pa pb X Y (k + 1)).
Proof.
  intros Hab Hta Htb Hper Hk (m & HT & ->). cbv zeta in HT. set (n := Z.to_nat (k - 1)) in *.
  assert (Q : 0 <= period * ((k - 1) / period) <= k - 1).
  { split; [apply Z.mul_nonneg_nonneg; [lia|apply Z.div_pos; lia]|apply Z.mul_div_le; lia]. }
  eapply o_weaken; [|apply iteration_ok with (T := evolution A nx ny X Y FX FY n)].
  - intros f (m' & H1 & ->). exists m'. cbv zeta. replace (Z.to_nat (k + 1 - 1)) with (S n) by lia. 
    replace (Nat.even (S n)) with (negb (Nat.even n)) by now rewrite Nat.even_succ, Nat.negb_even.
    split; [destruct (Nat.even n); exact H1|].
    replace (k + 1 - 1) with k by lia. replace (Z.to_nat (k + 1)) with (S (Z.to_nat k)) by lia.
    assert (D : (period <=? k - period * ((k - 1) / period)) = (k mod period =? 0)).
    { assert (E1 := Z.div_mod (k - 1) period ltac:(lia)). assert (E2 := Z.mod_pos_bound (k - 1) period Hper).
      destruct (Z.eq_dec ((k - 1) mod period) (period - 1)) as [e|ne].
      - assert (M : k mod period = 0). { symmetry. apply (Z.mod_unique _ _ ((k - 1) / period + 1)); lia. }
        rewrite M. apply Z.leb_le. lia.
      - assert (M : k mod period = (k - 1) mod period + 1). { symmetry. apply (Z.mod_unique _ _ ((k - 1) / period)); lia. }
        rewrite M. destruct (period <=? k - period * ((k - 1) / period)) eqn:C; lia. }
    assert (O : (if k mod period =? 0 then k else period * ((k - 1) / period)) = period * (k / period)).
    { assert (E1 := Z.div_mod (k - 1) period ltac:(lia)). assert (E2 := Z.mod_pos_bound (k - 1) period Hper).
      assert (E3 := Z.div_mod k period ltac:(lia)). destruct (k mod period =? 0) eqn:C; [lia|]. f_equal.
      assert (E4 := Z.mod_pos_bound k period Hper). symmetry. apply (Z.div_unique _ _ _ (k mod period - 1)); lia. }
    rewrite D, O. f_equal. 
    unfold shown_before. rewrite seq_S, filter_app, map_app. cbn [filter plus]. rewrite Z2Nat.id by lia.
    destruct (Nat.even n), (k mod period =? 0); cbn [negb map]; rewrite ?app_nil_r; try reflexivity.
    all: replace (Z.to_nat k) with (S n) by lia; replace (Z.of_nat (S n)) with k by lia; reflexivity.
  - destruct (Nat.even n); auto. unfold apart in *. lia.
  - destruct (Nat.even n); auto.
  - destruct (Nat.even n); auto.
  - lia.
  - lia.
  - exact HT.
Qed.
End Loop.

(** *** the whole simulation *)
Section Simulate.
Variables (ceil : num -> num) (start_time end_time dt : num) (period : Z) (cx cy : Z -> res num) (X Y : Z -> num)
  (inc_x inc_y : num -> Z -> res (num -> num -> num -> num)) (FX FY : num -> Z -> num -> num -> num -> num)
  (view : domain -> domain -> res (list slice)) (hm : heat_memory).
Hypothesis HX : forall i, 0 <= i < nx -> cx (1 + i) = Ok (X i).
Hypothesis HY : forall j, 0 <= j < ny -> cy (1 + j) = Ok (Y j).
Hypothesis HFX : forall dt i, 0 <= i < nx -> inc_x dt (1 + i) = Ok (FX dt i).
Hypothesis HFY : forall dt j, 0 <= j < ny -> inc_y dt (1 + j) = Ok (FY dt j).
Hypothesis Hview : exists v, view xmain ymain = Ok v /\ forall p, exists s, run_slices (G p) v = Ok s /\ part s p NY 1 (1 + nx) 1 (1 + ny).
Hypothesis Hper : 0 < period.
Hypothesis Hln : apart (p_last hm) (p_next hm).
Hypothesis Htl : apart (p_temp hm) (p_last hm).
Hypothesis Htn : apart (p_temp hm) (p_next hm).
Variables (times : uniform_sampling A) (N : Z).
Hypothesis HN : 1 <= N < 2 ^ 63 - 1.
Hypothesis Htimes : time_steps A ceil start_time end_time dt = Ok (times, [(ht, (0, N + 1))]).
Definition heat_line (k : nat) : display_line A :=
  line_at (us_coordinate A times (Z.of_nat k)) (evolution A nx ny X Y (FX (us_step A times)) (FY (us_step A times)) k).
Lemma shown_all (n : nat) : (Z.of_nat n mod period =? 0) = false ->
  shown_steps period n = filter (fun k => Z.of_nat k mod period =? 0) (seq 0 (S n)) ++ [n].
Proof.
  intros H. unfold shown_steps. rewrite seq_S, !filter_app. cbn [filter plus]. rewrite H, Nat.eqb_refl, app_nil_r. cbn [orb]. f_equal.
  apply filter_ext_in. intros k Hk. apply in_seq in Hk. replace (Nat.eqb k n) with false by (symmetry; apply Nat.eqb_neq; lia). now rewrite orb_false_r.
Qed.
Lemma shown_all' (n : nat) : (Z.of_nat n mod period =? 0) = true ->
  shown_steps period n = filter (fun k => Z.of_nat k mod period =? 0) (seq 0 (S n)).
Proof.
  intros H. unfold shown_steps. apply filter_ext. intros k. destruct (Nat.eqb k n) eqn:E; [|now rewrite orb_false_r].
  apply Nat.eqb_eq in E. subst k. now rewrite H.
Qed.
Lemma simulate_ok m :
  outcome (fun ss => heat_simulate A ceil start_time end_time dt period (gdom hx nx) (gdom hy ny) cx cy inc_x inc_y view hm gb (mk_machine m ss))
    (fun f => exists m', f = fun rest => (mk_machine m' rest, map heat_line (shown_steps period (Z.to_nat N)))).
Proof.
  unfold heat_simulate. rewrite !mirrors_ok by lia. cbn [rbind]. rewrite Htimes. cbn [rbind fst snd gdom g_all g_main g_pre g_post].
  rewrite !merge_xy by lia. cbn [rbind]. rewrite !(grid_alloc hx hy hxy) by apply heat_sized. cbn [rbind].
  destruct (initial_kernel (p_last hm) cx cy X Y HX HY m) as (K1 & K2 & K3).
  eapply o_bind; [apply (o_launch _ m (fun m' => inner_is m' (p_last hm) (disc A X Y) /\ same_out (p_last hm) m m') K1 K2 K3)|].
  intros f (m1 & (C1 & C2) & ->).
  change (create_mirror (G (p_last hm)) (p_temp hm)) with (span_of_ptr LRight (p_temp hm) (dom2 0 NX 0 NY)).
  rewrite (grid_alloc hx hy hxy) by apply heat_sized. cbn [rbind].
  eapply o_bind; [apply (host_copy (p_temp hm) (p_last hm) m1 _ Htl C1)|]. intros f (m2 & (D1 & D2) & ->).
  destruct (view_turn (p_temp hm) NX NY 1 (1 + nx) 1 (1 + ny)) as (s & Es & Ps); [apply heat_sized|lia..|].
  rewrite Es. cbn [rbind front dom_begin map fst snd one_elem p_mem]. rewrite (display_ok s (p_temp hm) m2 _ _ Ps D1). cbn [rbind].
  destruct Hview as (v & Ev & Hv). rewrite Ev. cbn [rbind].
  assert (Er : remove_first [(ht, (0, N + 1))] [(ht, 1)] = Ok [(ht, (1, N + 1))]).
  { unfold remove_first, front. cbn [dom_begin map fst snd]. rewrite elem_add_1 by lia. cbn [rbind]. rewrite extents_1' by lia. cbn [rbind].
    rewrite vect_sub_1 by lia. cbn [rbind]. rewrite mk_domain_1' by lia. f_equal. f_equal. f_equal. f_equal; lia. }
  rewrite Er. cbn [rbind dom_begin dom_end map fst snd one_elem].
  set (fx := inc_x (us_step A times)). set (fy := inc_y (us_step A times)). set (tm := us_coordinate A times).
  eapply o_bind.
  - apply (o_for (loop_inv (FX (us_step A times)) (FY (us_step A times)) tm period (p_last hm) (p_next hm) X Y) _ 1 (N + 1)
      (fun ss => mk_heat A (mk_machine m2 ss) (G (p_last hm)) (G (p_next hm)) 0 [line_at (tm 0) (disc A X Y)])); [|lia|].
    + exists m2. cbv zeta. change (Z.to_nat (1 - 1)) with O. cbn [Nat.even evolution]. split.
      * apply (inner_out _ (p_temp hm) m1); auto. unfold apart in *. lia.
      * change (1 - 1) with 0. rewrite Z.div_0_l, Z.mul_0_r by lia. unfold shown_before. change (Z.to_nat 1) with 1%nat. cbn [seq filter].
        change (Z.of_nat 0) with 0. rewrite Z.mod_0_l by lia. reflexivity.
    + intros k f Hk Hi. apply loop_step; auto; subst fx fy; cbn beta; auto; try lia.
  - intros f (m3 & HT & ->). cbv zeta in HT. cbn [h_output h_last h_machine h_lines]. replace (N + 1 - 1) with N in * by lia.
    set (n := Z.to_nat N) in *. set (pl := if Nat.even n then p_last hm else p_next hm) in *.
    assert (Eb : back [(ht, (0, N + 1))] = [(ht, N)]). { rewrite back_1 by lia. do 2 f_equal. lia. }
    rewrite Eb. cbn [rbind one_elem].
    assert (E1 := Z.div_mod N period ltac:(lia)). assert (E2 := Z.mod_pos_bound N period Hper).
    assert (Sh : shown_before (FX (us_step A times)) (FY (us_step A times)) tm period X Y (Z.to_nat (N + 1)) =
       map heat_line (filter (fun k => Z.of_nat k mod period =? 0) (seq 0 (S n)))).
    { unfold shown_before. replace (Z.to_nat (N + 1)) with (S n) by lia. reflexivity. }
    rewrite Sh. destruct (period * (N / period) <? N) eqn:C.
    + eapply o_bind; [apply (host_copy (p_temp hm) pl m3 _ ltac:(subst pl; destruct (Nat.even n); auto) HT)|]. intros f (m4 & (F1 & F2) & ->).
      destruct (Hv (p_temp hm)) as (sh & Eh & Ph). rewrite Eh. cbn [rbind p_mem]. rewrite (display_ok sh (p_temp hm) m4 _ _ Ph F1). cbn [rbind].
      eapply o_ext; [|apply (o_ret (fun ss => (mk_machine m4 ss, map heat_line (shown_steps period n)))); eauto].
      intros ss. cbn beta. rewrite shown_all by (subst n; rewrite Z2Nat.id by lia; lia). rewrite map_app. unfold heat_line at 3. cbn [map].
      replace (Z.of_nat n) with N by lia. reflexivity.
    + eapply o_ext; [|apply (o_ret (fun ss => (mk_machine m3 ss, map heat_line (shown_steps period n)))); eauto].
      intros ss. cbn beta. rewrite shown_all' by (subst n; rewrite Z2Nat.id by lia; lia). reflexivity.
Qed.
End Simulate.
End Heat.
