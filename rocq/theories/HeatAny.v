(** The heat equation programs over any arithmetic: what is printed depends neither on the memory nor on the interleaving. *)
From Coq Require Import ZArith List Bool Lia.
From Verif Require Import Machine MachineProofs TypeSeqModel TaggedModel DomainModel DomainSpec DomainProofs ListAux DomainProofs2 SpanModel
  ReduceModel ArithModel ProgramModel ProgramProofs GridProofs LineProofs SamplingModel SamplingSpec SamplingProofs
  HeatModel HeatSpec HeatGrid HeatProofs.
Import ListNotations.
Open Scope Z_scope.
Local Arguments Z.pow : simpl never.

Section Any.
Context (A : arith).
Notation num := (num A).
Lemma any_prints {S} (main : list (list nat) -> res (machine num * S)) l :
  outcome main (fun f => exists m', f = fun rest => (mk_machine m' rest, l)) -> prints main l.
Proof.
  intros (O1 & O2 & O3). split; [|split; [exact O3|]].
  - destruct O1 as (ss & f & (m' & ->) & E). exists ss. eexists. rewrite <- (app_nil_r ss). apply E.
  - intros ss m l' E. destruct (O2 ss (m, l') E) as (f & rest & (m' & ->) & E'). congruence.
Qed.
Lemma ghosted_any q a b n : 2 <= n < 2 ^ 62 -> us_init_ghosted_sym A q a b n 1 = Undef \/
  exists s, us_init_ghosted_sym A q a b n 1 = Ok (s, gdom q n) /\ us_front A s = 0.
Proof.
  intros Hn. unfold us_init_ghosted_sym, us_init_ghosted. destruct (nltb A a b); [|now left]. replace (1 <? n) with true by lia. rewrite ssub_small by lia. cbn [rbind].
  unfold us_construct. destruct (nltb A (nofz A 0) _); [|now left]. cbn [rbind us_front]. unfold reference_element. rewrite ghost_domains_ok by lia. cbn [rbind]. right. eexists. split; reflexivity.
Qed.
Lemma time_any ceil t0 t1 dt : time_steps A ceil t0 t1 dt = Undef \/
  exists times N, time_steps A ceil t0 t1 dt = Ok (times, [(ht, (0, N + 1))]) /\ 1 <= N < 2 ^ 63 - 1.
Proof.
  unfold time_steps, to_ptrdiff. set (N := ntrunc A _). destruct (is_i64b N) eqn:E; [|now left]. cbn [rbind]. apply is_i64b_spec in E. unfold is_i64 in E. change two63 with (2 ^ 63) in E.
  unfold sadd, of_i64, i64_add, i64_ret, is_i64b. change two63 with (2 ^ 63). destruct ((- 2 ^ 63 <=? N + 1) && (N + 1 <? 2 ^ 63)) eqn:E2; [|now left]. cbn [rbind].
  unfold us_init. destruct (nltb A t0 t1); [|now left]. destruct (1 <? N + 1) eqn:E3; [|now left]. rewrite ssub_small by lia. cbn [rbind].
  unfold us_construct. destruct (nltb A (nofz A 0) _); [|now left]. cbn [rbind us_front]. unfold reference_element. rewrite mk_domain_1' by lia. cbn [rbind].
  right. eexists. exists N. rewrite Z.add_0_l. split; [reflexivity|]. lia.
Qed.
Section Simulate.
Variables (nx ny : Z) (gb : nat -> list Z) (hm : heat_memory) (ceil : num -> num) (t0 t1 dt : num) (period : Z)
  (cx cy : Z -> res num) (X Y : Z -> num) (inc_x inc_y : num -> Z -> res (num -> num -> num -> num)) (FX FY : num -> Z -> num -> num -> num -> num)
  (view : domain -> domain -> res (list slice)).
Hypothesis Hsz : heat_sizes nx ny.
Hypothesis Hgb : forall n, length (gb n) = n.
Hypothesis Hhm : heat_allocations nx ny hm.
Hypothesis Hper : 0 < period.
Hypothesis HX : forall i, 0 <= i < nx -> cx (1 + i) = Ok (X i).
Hypothesis HY : forall j, 0 <= j < ny -> cy (1 + j) = Ok (Y j).
Hypothesis HFX : forall dt i, 0 <= i < nx -> inc_x dt (1 + i) = Ok (FX dt i).
Hypothesis HFY : forall dt j, 0 <= j < ny -> inc_y dt (1 + j) = Ok (FY dt j).
Hypothesis Hview : view = view_at_once \/ view = view_in_turn.
Lemma simulate_any : steady (heat_simulate A ceil t0 t1 dt period (gdom hx nx) (gdom hy ny) cx cy inc_x inc_y view hm gb).
Proof.
  destruct Hsz as (S1 & S2 & S3). destruct (time_any ceil t0 t1 dt) as [E|(times & N & E & HN)].
  - left. intros s. unfold heat_simulate. rewrite !mirrors_ok by lia. cbn [rbind]. rewrite E. reflexivity.
  - right. exists (map (heat_line A nx ny X Y FX FY times) (shown_steps period (Z.to_nat N))). intros m. apply any_prints.
    destruct Hhm as (A1 & A2 & A3).
    assert (E' : forall p q, (p + (nx + 2) * (ny + 2) <= q \/ q + (nx + 2) * (ny + 2) <= p) -> apart nx ny p q).
    { intros p q H. unfold apart. replace (1 + nx + 1) with (nx + 2) by lia. replace (1 + ny + 1) with (ny + 2) by lia. exact H. }
    apply (simulate_ok A nx ny S1 S2 S3 gb Hgb ceil t0 t1 dt period cx cy X Y inc_x inc_y FX FY view hm HX HY HFX HFY) with (times := times) (N := N); auto; try lia.
    assert (Hs := heat_sized nx ny S1 S2 S3). destruct Hview as [-> | ->].
    + eexists. split; [unfold view_at_once; rewrite merge_xy by lia; reflexivity|]. intros p. apply view_once; auto; lia.
    + eexists. split; [reflexivity|]. intros p. apply view_turn; auto; lia.
Qed.
End Simulate.
Lemma reduce1_any q (f : tagged -> res num) (op : num -> num -> num) (z : num) (v : Z -> num) x0 x1 :
  0 <= x0 <= x1 -> x1 < 2 ^ 63 -> (forall i, x0 <= i < x1 -> f [(q, i)] = Ok (v i)) ->
  host_transform_reduce [(q, (x0, x1))] (Ok z) (fun a b => rbind a (fun x => rbind b (fun y => Ok (op x y)))) f =
  Ok (Ok (fold_left (fun acc i => op (v (x0 + i)) acc) (zrange (x1 - x0)) z)).
Proof.
  intros Hx Hx' Hf. unfold host_transform_reduce. rewrite extents_1' by lia. cbn [rbind values map fst snd reduce_serial app].
  assert (At : forall i, 0 <= i < x1 - x0 -> dom_at [(q, (x0, x1))] (combine (ddims [(q, (x0, x1))]) [i]) = Ok [(q, x0 + i)]).
  { intros i Hi. unfold dom_at. cbn [dom_begin map ddims combine fst snd]. apply elem_add_1. lia. }
  assert (All : forall l acc, (forall i, In i l -> 0 <= i < x1 - x0) ->
    fold_left (fun result ii => rbind result (fun result' => rbind (rbind (dom_at [(q, (x0, x1))] (combine (ddims [(q, (x0, x1))]) [ii])) (fun e => Ok (f e)))
      (fun x => Ok (rbind x (fun x0 => rbind result' (fun y => Ok (op x0 y))))))) l (Ok (Ok acc)) = Ok (Ok (fold_left (fun acc i => op (v (x0 + i)) acc) l acc))).
  { induction l as [|i l IH]; intros acc Hl; cbn [fold_left]; auto. assert (Hi := Hl i (or_introl eq_refl)). cbn [rbind]. rewrite At by auto. cbn [rbind].
    rewrite Hf by lia. cbn [rbind]. apply IH. intros k Hk. apply Hl. now right. }
  apply All. intros i Hi. now apply in_zrange in Hi.
Qed.
Lemma inverse_max_any q n left right l r : 1 <= n < 2 ^ 62 -> (forall i, 0 <= i < n -> left (1 + i) = Ok (l i) /\ right (1 + i) = Ok (r i)) ->
  exists M, inverse_max A [(q, (1, 1 + n))] left right = Ok M.
Proof.
  intros Hn Hd. unfold inverse_max. rewrite (reduce1_any q _ (fun x y => if nltb A y x then x else y) (nofz A 0) (fun i => (nofz A 1 / (l (i - 1)%Z * r (i - 1)%Z))%N_)); try lia.
  - eexists. reflexivity.
  - intros i Hi. cbn [one_elem rbind]. destruct (Hd (i - 1) ltac:(lia)) as [E1 E2]. replace (1 + (i - 1)) with i in * by lia. rewrite E1, E2. reflexivity.
Qed.
Section Programs.
Variables (nx ny : Z) (gb : nat -> list Z) (hm : heat_memory) (ceil : num -> num) (x0 x1 kx y0 y1 ky t0 t1 : num) (period : Z).
Hypothesis Hsz : heat_sizes nx ny.
Hypothesis Hgb : forall n, length (gb n) = n.
Hypothesis Hhm : heat_allocations nx ny hm.
Hypothesis Hper : 0 < period.
Lemma uniform_any : steady (uniform_heat_main A ceil x0 x1 nx kx y0 y1 ny ky t0 t1 period hm gb).
Proof.
  assert (Hsz' := Hsz). destruct Hsz' as (S1 & S2 & S3). unfold uniform_heat_main, steady. destruct (ghosted_any hx x0 x1 nx S1) as [->|(sx & -> & Fx)]; [now left|].
  destruct (ghosted_any hy y0 y1 ny S2) as [->|(sy & -> & Fy)]; [now left|]. cbn [rbind fst snd].
  eapply (simulate_any nx ny gb hm ceil t0 t1 _ period (us_coord A sx) (us_coord A sy) (fun i => us_coordinate A sx (1 + i)) (fun i => us_coordinate A sy (1 + i)) _ _
    (fun step _ => increment_uniform A kx step _) (fun step _ => increment_uniform A ky step _)); auto; intros; reflexivity.
Qed.
Lemma heat_any : steady (heat_main A ceil x0 x1 nx kx y0 y1 ny ky t0 t1 period hm gb).
Proof.
  assert (Hsz' := Hsz). destruct Hsz' as (S1 & S2 & S3). unfold heat_main, steady. destruct (ghosted_any hx x0 x1 nx S1) as [->|(sx & -> & Fx)]; [now left|].
  destruct (ghosted_any hy y0 y1 ny S2) as [->|(sy & -> & Fy)]; [now left|]. cbn [rbind fst snd].
  unfold heat_with_distances. cbn [gdom g_main].
  destruct (inverse_max_any hx nx (fun i => Ok (us_distance_at_left A sx i)) (fun i => Ok (us_distance_at_right A sx i)) (fun i => us_distance_at_left A sx (1 + i)) (fun i => us_distance_at_right A sx (1 + i))) as (mx & ->); [lia|auto|].
  destruct (inverse_max_any hy ny (fun i => Ok (us_distance_at_left A sy i)) (fun i => Ok (us_distance_at_right A sy i)) (fun i => us_distance_at_left A sy (1 + i)) (fun i => us_distance_at_right A sy (1 + i))) as (my & ->); [lia|auto|].
  cbn [rbind].
  eapply (simulate_any nx ny gb hm ceil t0 t1 _ period (us_coord A sx) (us_coord A sy) (fun i => us_coordinate A sx (1 + i)) (fun i => us_coordinate A sy (1 + i)) _ _
    (fun step i => increment_distances A kx step (us_step A sx) (us_step A sx)) (fun step i => increment_distances A ky step (us_step A sy) (us_step A sy))); auto; intros; reflexivity.
Qed.
End Programs.
End Any.
Lemma programs_any : forall A nx ny gb hm ceil x0 x1 kx y0 y1 ky t0 t1 period,
  heat_sizes nx ny -> (forall n, length (gb n) = n) -> heat_allocations nx ny hm -> 0 < period ->
  steady (uniform_heat_main A ceil x0 x1 nx kx y0 y1 ny ky t0 t1 period hm gb) /\
  steady (heat_main A ceil x0 x1 nx kx y0 y1 ny ky t0 t1 period hm gb).
Proof. intros. split; [now apply uniform_any|now apply heat_any]. Qed.
