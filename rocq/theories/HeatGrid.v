(** Slices of the grids of the heat equation programs. *)
From Verif Require Import Machine MachineProofs TypeSeqModel TaggedModel TaggedSpec TaggedProofs
  DomainModel DomainSpec DomainProofs ListAux DomainProofs2 SpanModel SpanSpec SpanProofs StorageProofs KokkosModel KokkosSpec KokkosProofs
  ReduceModel ReduceSpec ReduceProofs ParModel ParSpec ParProofs ParProofs2 ProgramModel GridProofs LineProofs SamplingModel SamplingProofs HeatModel.

Notation el := (GridProofs.el hx hy).
Notation dom2 := (GridProofs.dom2 hx hy).
Notation grid := (GridProofs.grid hx hy).
Lemma hxy : hx <> hy. Proof. discriminate. Qed.
Lemma grid_at_perm p nx ny i j : sized nx ny -> 0 <= i < nx -> 0 <= j < ny ->
  span_access (grid p nx ny) [[(hy, j)]; [(hx, i)]] = Ok (p + i * ny + j).
Proof.
  intros Hs Hi Hj. assert (N : NoDup (dims [(hy, j); (hx, i)])) by (constructor; [intros [H|[]]; discriminate|constructor; [intros []|constructor]]).
  rewrite access_loc; [|apply grid_wf; [exact hxy|exact Hs]|].
  - cbn [concat app]. rewrite grid_loc by (exact hxy || auto). rewrite (vf_val _ hx i), (vf_val _ hy j); auto; [now left|right; now left].
  - split; [split; [exact N|intros q; cbn; tauto]|]. intros q b f [E|[E|[]]]; injection E as <- <- <-.
    + exists i. split; auto. right. now left.
    + exists j. split; auto. now left.
Qed.
Lemma elem_ok1 d q x a b : In (q, (a, b)) d -> a <= x < b -> elem_ok d [(q, x)].
Proof.
  intros Hi Hx. split; [repeat constructor; intros []|]. intros q' x' [E|[]]. injection E as <- <-. eauto.
Qed.
Lemma slices_x p nx ny i y0 y1 : sized nx ny -> 0 <= i < nx -> 0 <= y0 < y1 -> y1 <= ny ->
  exists s, run_slices (grid p nx ny) [SElem [(hx, i)]; SDom [(hy, (y0, y1))]] = Ok s /\ line s hy y0 y1 (fun j => p + i * ny + j).
Proof.
  intros Hs Hi H0 H1. assert (Hz := Hs). destruct Hz as (Z1 & Z2 & Z3).
  destruct (slices_compose [SElem [(hx, i)]; SDom [(hy, (y0, y1))]] (grid p nx ny)) as (s & E & W & Hd & Ha).
  - apply grid_wf; [exact hxy|exact Hs].
  - cbn [slices_ok]. split; [apply (elem_ok1 _ hx i 0 nx); [now left|lia]|]. split; [|exact I]. split; [apply dom1_wf; lia|].
    split; [intros q [<-|[]]; now left|]. intros q b f b' f' H2 [H3|[]]. injection H3 as <- <- <-.
    change (In (hy, (b, f)) [(hy, (0, ny))]) in H2. destruct H2 as [H2|[]]. injection H2 as <- <-. lia.
  - exists s. split; auto. change (s_dom s = [(hy, (y0, y1))]) in Hd.
    split; auto. split; auto. intros k Hk. destruct (Ha [[(hy, k)]]) as (B & a & E1 & E2).
    + rewrite Hd. apply box1. cbn [concat app]. eauto.
    + cbn [fixed_elems app] in E2. rewrite grid_at_perm in E2 by (auto; lia). congruence.
Qed.
Lemma slices_y p nx ny j x0 x1 : sized nx ny -> 0 <= j < ny -> 0 <= x0 < x1 -> x1 <= nx ->
  exists s, run_slices (grid p nx ny) [SDom [(hx, (x0, x1))]; SElem [(hy, j)]] = Ok s /\ line s hx x0 x1 (fun i => p + i * ny + j).
Proof.
  intros Hs Hj H0 H1. assert (Hz := Hs). destruct Hz as (Z1 & Z2 & Z3).
  destruct (slices_compose [SDom [(hx, (x0, x1))]; SElem [(hy, j)]] (grid p nx ny)) as (s & E & W & Hd & Ha).
  - apply grid_wf; [exact hxy|exact Hs].
  - cbn [slices_ok]. split.
    + split; [apply dom1_wf; lia|]. split; [intros q [<-|[]]; now left|]. intros q b f b' f' H2 [H3|[]]. injection H3 as <- <- <-.
      destruct H2 as [H2|[H2|[]]]; [|discriminate]. injection H2 as <- <-. lia.
    + split; [|exact I]. apply (elem_ok1 _ hy j 0 ny); [right; now left|lia].
  - exists s. split; auto. change (s_dom s = [(hx, (x0, x1))]) in Hd.
    split; auto. split; auto. intros k Hk. destruct (Ha [[(hx, k)]]) as (B & a & E1 & E2).
    + rewrite Hd. apply box1. cbn [concat app]. eauto.
    + cbn [fixed_elems app] in E2. rewrite (grid_at hx hy hxy p nx ny k j) in E2 by (auto; lia). congruence.
Qed.
(** A part of a grid. *)
Definition part (s : span) (p ny x0 x1 y0 y1 : Z) : Prop :=
  span_wf s /\ s_dom s = dom2 x0 x1 y0 y1 /\ forall i j es, concat es = el i j -> x0 <= i < x1 -> y0 <= j < y1 -> span_access s es = Ok (p + i * ny + j).
Lemma part_of sls p nx ny x0 x1 y0 y1 : sized nx ny -> slices_ok (dom2 0 nx 0 ny) sls -> left_domain (dom2 0 nx 0 ny) sls = dom2 x0 x1 y0 y1 ->
  fixed_elems sls = [] -> 0 <= x0 -> x1 <= nx -> 0 <= y0 -> y1 <= ny ->
  exists s, run_slices (grid p nx ny) sls = Ok s /\ part s p ny x0 x1 y0 y1.
Proof.
  intros Hs Ho Hl Hf H0 H1 H2 H3. destruct (slices_compose sls (grid p nx ny)) as (s & E & W & Hd & Ha); auto.
  { apply grid_wf; [exact hxy|exact Hs]. }
  exists s. split; auto. rewrite grid_dom, Hl in Hd. split; auto. split; auto. intros i j es Ec Hi Hj. destruct (Ha es) as (B & a & E1 & E2).
  - rewrite Hd, Ec. apply box2; [exact hxy|lia].
  - rewrite Hf, app_nil_r in E2. rewrite (grid_at hx hy hxy p nx ny i j) in E2 by (auto; lia). congruence.
Qed.
Lemma view_turn p nx ny x0 x1 y0 y1 : sized nx ny -> 0 <= x0 < x1 -> x1 <= nx -> 0 <= y0 < y1 -> y1 <= ny ->
  exists s, run_slices (grid p nx ny) [SDom [(hx, (x0, x1))]; SDom [(hy, (y0, y1))]] = Ok s /\ part s p ny x0 x1 y0 y1.
Proof.
  intros Hs H0 H1 H2 H3. assert (Hz := Hs). destruct Hz as (Z1 & Z2 & Z3). apply part_of; auto; try lia.
  cbn [slices_ok]. split; [|split; [|exact I]].
  - split; [apply dom1_wf; lia|]. split; [intros q [<-|[]]; now left|]. intros q b f b' f' H5 [H6|[]]. injection H6 as <- <- <-.
    destruct H5 as [H5|[H5|[]]]; [|discriminate]. injection H5 as <- <-. lia.
  - split; [apply dom1_wf; lia|]. split; [intros q [<-|[]]; right; now left|]. intros q b f b' f' H5 [H6|[]]. injection H6 as <- <- <-.
    destruct H5 as [H5|[H5|[]]]; [discriminate|]. injection H5 as <- <-. lia.
Qed.
Lemma view_once p nx ny x0 x1 y0 y1 : sized nx ny -> 0 <= x0 < x1 -> x1 <= nx -> 0 <= y0 < y1 -> y1 <= ny ->
  exists s, run_slices (grid p nx ny) [SDom (dom2 x0 x1 y0 y1)] = Ok s /\ part s p ny x0 x1 y0 y1.
Proof.
  intros Hs H0 H1 H2 H3. assert (Hz := Hs). destruct Hz as (Z1 & Z2 & Z3). apply part_of; auto; try lia.
  cbn [slices_ok]. split; [|exact I].
  split; [apply dom2_wf; [exact hxy|lia..]|]. split; [intros q Hq; exact Hq|]. intros q b f b' f' [H5|[H5|[]]] [H6|[H6|[]]]; injection H5 as <- <- <-; try discriminate; injection H6 as <- <-; lia.
Qed.
