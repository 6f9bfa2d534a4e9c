(** Lines of a grid: slices of one dimension, and copies between them. *)
From Verif Require Import Machine MachineProofs TypeSeqModel TaggedModel TaggedSpec TaggedProofs
  DomainModel DomainSpec DomainProofs ListAux DomainProofs2 SpanModel SpanSpec SpanProofs StorageProofs KokkosModel KokkosSpec KokkosProofs
  ReduceModel ReduceSpec ReduceProofs ParModel ParSpec ParProofs ParProofs2 ProgramModel GridProofs.

Lemma box1 q a b e : in_box [(q, (a, b))] e <-> exists k, e = [(q, k)] /\ a <= k < b.
Proof.
  split.
  - intros [[Hn Hd] H]. destruct (H q a b) as (k & Hk & Hr); [now left|]. exists k. split; auto.
    unfold val_of in Hk. destruct e as [|[q1 k1] [|[q2 k2] e]].
    + destruct Hk.
    + destruct Hk as [Hk|[]]. congruence.
    + exfalso. cbn [dims map fst] in *. assert (D1 : In q1 [q]) by (apply Hd; now left). assert (D2 : In q2 [q]) by (apply Hd; right; now left).
      destruct D1 as [<-|[]]. destruct D2 as [<-|[]]. inversion Hn. apply H2. now left.
  - intros (k & -> & Hk). split; [split; [repeat constructor; intros []|reflexivity]|]. intros q' x y [E|[]]. injection E as <- <- <-.
    exists k. split; auto. now left.
Qed.
Lemma dom1_wf q a b : 0 <= a <= b -> b < 2 ^ 63 -> dom_wf [(q, (a, b))].
Proof. intros. split; [repeat constructor; intros []|]. repeat constructor; cbn [fst snd]; lia. Qed.

(** A span of one dimension whose elements k in [a, b) are at the addresses [D k]. *)
Definition line (s : span) (q : tag) (a b : Z) (D : Z -> Z) : Prop :=
  span_wf s /\ s_dom s = [(q, (a, b))] /\ forall k, a <= k < b -> span_access s [[(q, k)]] = Ok (D k).
Lemma line_copy {V} (m : memory V) dst src q a b D S g1 g2 : line dst q a b D -> line src q a b S -> 0 <= b - a < 2 ^ 63 ->
  (forall k k', a <= k < b -> a <= k' < b -> D k = D k' -> k = k') -> (forall k k', a <= k < b -> a <= k' < b -> D k <> S k') ->
  length g1 = 2%nat -> length g2 = 2%nat ->
  (exists c m', parallel_deepcopy dst src g1 g2 c m = Ok m') /\
  (forall c m', parallel_deepcopy dst src g1 g2 c m = Ok m' ->
    (forall k, a <= k < b -> m' (D k) = m (S k)) /\ (forall x, (forall k, a <= k < b -> x <> D k) -> m' x = m x)) /\
  (forall c, parallel_deepcopy dst src g1 g2 c m <> Undef).
Proof.
  intros (W1 & D1 & A1) (W2 & D2 & A2) Hn Hi Hd L1 L2.
  destruct (deepcopy_ok dst src g1 g2 m) as [He Hp]; auto.
  - intros e1 e2 x B1 B2 E1 E2. rewrite D1 in B1, B2. apply box1 in B1 as (k & -> & Hk). apply box1 in B2 as (k' & -> & Hk').
    rewrite A1 in E1, E2 by auto. replace k' with k; [intros p z; reflexivity|]. apply Hi; auto. congruence.
  - congruence.
  - rewrite D1. unfold box_count. cbn [fold_right fst snd]. lia.
  - split; [rewrite D1; exact L1|rewrite D1; cbn; lia].
  - split; [rewrite D2; exact L2|rewrite D2; cbn; lia].
  - left. intros x (e & B & E) (e' & B' & E'). rewrite D1 in B. rewrite D2 in B'. apply box1 in B as (k & -> & Hk). apply box1 in B' as (k' & -> & Hk').
    rewrite A1 in E by auto. rewrite A2 in E' by auto. apply (Hd k k'); auto. congruence.
  - split; [exact He|]. split; [|now apply deepcopy_defined]. intros c m' E. destruct (Hp c m' E) as [H1 H2]. split.
    + intros k Hk. assert (B : in_box (s_dom dst) [(q, k)]) by (rewrite D1; apply box1; eauto). apply H1 in B. unfold span_read in B.
      rewrite A1, A2 in B by auto. cbn [rbind] in B. congruence.
    + intros x Hx. apply H2. intros (e & B & E'). rewrite D1 in B. apply box1 in B as (k & -> & Hk). rewrite A1 in E' by auto. apply (Hx k Hk). congruence.
Qed.
Lemma line_contents {V} (m : memory V) s q a b D : line s q a b D -> contents m s = Ok (map (fun k => m (D (a + k))) (zrange (b - a))).
Proof.
  intros (W & Hd & Ha). rewrite (contents_trace m s (fun e => m (D (vf e q)))); [|apply W|].
  - f_equal. rewrite Hd. unfold trace. cbn [map box fst snd]. rewrite !map_map.
    induction (zrange (b - a)) as [|k l IH]; cbn [flat_map map app]; auto. f_equal; [|exact IH].
    cbn. unfold vf, get. cbn [dims map fst ts_rank]. rewrite Nat.eqb_refl. reflexivity.
  - intros e He. rewrite Hd in He. assert (B : in_box (s_dom s) e) by (apply (proj2 (trace_enum _ (proj1 W))); now rewrite Hd).
    rewrite Hd in B. apply box1 in B as (k & -> & Hk). unfold span_read. rewrite Ha by auto. cbn [rbind].
    f_equal. f_equal. unfold vf, get. cbn [dims map fst ts_rank]. rewrite Nat.eqb_refl. reflexivity.
Qed.

