(** What the heat equation programs print: consequences. *)
From Coq Require Import ZArith List Bool Reals Lra Lia Sorted.
From Verif Require Import Machine MachineProofs ArithModel ProgramModel SamplingModel HeatModel HeatSpec HeatReals HeatPoints.
Import ListNotations.
Open Scope Z_scope.
Local Arguments Z.pow : simpl never.

Lemma steps_bound t0 t1 kx mx ky my N : (0 < kx)%R -> (0 < mx)%R -> (0 < ky)%R -> (0 < my)%R -> (t0 < t1)%R -> fewest_steps t0 t1 (step_bound kx mx ky my) N ->
  (0 < (t1 - t0) / IZR N /\ (t1 - t0) / IZR N * (2 * (kx * mx + ky * my)) <= 1)%R.
Proof.
  intros H1 H2 H3 H4 Ht (N1 & _ & HN). assert (PN : (0 < IZR N)%R) by (apply IZR_lt; lia). split; [apply Rdiv_lt_0_compat; lra|].
  unfold step_bound in HN. set (s := (2 * (kx * mx + ky * my))%R) in *. assert (Ps : (0 < s)%R) by (apply Rmult_lt_0_compat; [lra|apply Rplus_lt_0_compat; now apply Rmult_lt_0_compat]).
  clearbody s. apply (Rmult_le_reg_r (IZR N * / s)); [apply Rmult_lt_0_compat; [lra|now apply Rinv_0_lt_compat]|].
  replace ((t1 - t0) / IZR N * s * (IZR N * / s))%R with (t1 - t0)%R by (field; lra). unfold Rdiv in HN. lra.
Qed.
Lemma history_range nx ny X Y lx rx ly ry kx mx ky my dt T : 1 <= nx -> 1 <= ny ->
  (forall i, 0 <= i < nx -> (0 < lx i /\ 0 < rx i)%R) -> (forall j, 0 <= j < ny -> (0 < ly j /\ 0 < ry j)%R) ->
  largest nx (fun i => 1 / (lx i * rx i))%R mx -> largest ny (fun j => 1 / (ly j * ry j))%R my ->
  (0 < kx)%R -> (0 < ky)%R -> (0 < dt /\ dt * (2 * (kx * mx + ky * my)) <= 1)%R -> heat_history nx ny X Y lx rx ly ry kx ky dt T ->
  forall k i j, 0 <= i < nx -> 0 <= j < ny -> (0 <= T k i j <= 9999 / 1000)%R.
Proof.
  intros Hx Hy Px Py Mx My Hkx Hky [Hd1 Hd2] (I0 & HS). induction k as [|k IH]; intros i j Hi Hj.
  - rewrite I0 by auto. destruct (Rlt_dec _ _); lra.
  - apply (step_range nx ny lx rx ly ry kx ky dt mx my (T k) (T (S k)) 0 (9999 / 1000)); auto; try lra.
    + intros i' Hi'. destruct (Px i' Hi'). repeat split; auto. destruct Mx as [_ Mx]. assert (A := Mx i' Hi'). cbn beta in A. unfold Rdiv in A. lra.
    + intros j' Hj'. destruct (Py j' Hj'). repeat split; auto. destruct My as [_ My]. assert (A := My j' Hj'). cbn beta in A. unfold Rdiv in A. lra.
Qed.
Lemma lines_within nx ny t0 t1 period N T a b : 1 <= nx -> 1 <= ny -> (forall k i j, 0 <= i < nx -> 0 <= j < ny -> (a <= T k i j <= b)%R) ->
  printed_within a b (heat_lines nx ny t0 t1 period N T).
Proof.
  intros Hx Hy HT l Hl. unfold heat_lines in Hl. apply in_map_iff in Hl as (k & <- & Hk). unfold line_of. cbn [l_mean l_values]. split.
  - assert (B : (IZR nx * (IZR ny * a) <= total nx ny (T k) <= IZR nx * (IZR ny * b))%R).
    { unfold total. apply total1_bound; [lia|]. intros i Hi. apply total1_bound; [lia|]. intros j Hj. now apply HT. }
    assert (P : (0 < IZR (nx * ny))%R) by (apply IZR_lt; nia). rewrite mult_IZR in *. 
    split; apply (Rmult_le_reg_r (IZR nx * IZR ny)); auto; unfold Rdiv; rewrite ?Rmult_assoc, ?Rinv_l by lra; lra.
  - intros v Hv. apply in_map_iff in Hv as (i & <- & Hi). apply in_indices in Hi. apply HT; auto. split; [apply Z.div_pos; lia|apply Z.div_lt_upper_bound; lia].
Qed.
Lemma lines_mean nx ny t0 t1 period N T : (forall k, total nx ny (T (S k)) = total nx ny (T k)) -> same_mean (heat_lines nx ny t0 t1 period N T).
Proof.
  intros H. assert (E : forall k, total nx ny (T k) = total nx ny (T O)) by (induction k as [|k IH]; [auto|]; now rewrite H).
  intros l l' Hl Hl'. unfold heat_lines in *. apply in_map_iff in Hl as (k & <- & _). apply in_map_iff in Hl' as (k' & <- & _). cbn [line_of l_mean]. now rewrite (E k), (E k').
Qed.
Lemma shown_ends period n : exists l, shown_steps period (S n) = O :: l ++ [S n].
Proof.
  unfold shown_steps. rewrite seq_S, filter_app. cbn [seq filter plus]. change (Z.of_nat 0) with 0. rewrite Nat.eqb_refl, orb_true_r.
  replace (0 mod period =? 0) with true by (symmetry; apply Z.eqb_eq; destruct period; reflexivity). cbn [orb app]. eexists. reflexivity.
Qed.
Lemma shown_sorted period n : StronglySorted lt (shown_steps period n).
Proof.
  unfold shown_steps. assert (S0 : forall m a, StronglySorted lt (seq a m)).
  { induction m as [|m IH]; intros a; cbn [seq]; constructor; auto. apply Forall_forall. intros x Hx. apply in_seq in Hx. lia. }
  assert (F : forall (f : nat -> bool) l, StronglySorted lt l -> StronglySorted lt (filter f l)).
  { intros f l Hl. induction Hl as [|x l Hl IH HF]; cbn [filter]; [constructor|]. destruct (f x); auto. constructor; auto.
    apply Forall_forall. intros y Hy. apply filter_In in Hy as [Hy _]. rewrite Forall_forall in HF. now apply HF. }
  apply F, S0.
Qed.
Lemma lines_times nx ny t0 t1 period N T : (t0 < t1)%R -> 1 <= N -> printed_times t0 t1 (heat_lines nx ny t0 t1 period N T).
Proof.
  intros Ht HN. unfold printed_times, heat_lines. rewrite map_map. cbn [line_of l_time].
  assert (PN : (0 < IZR N)%R) by (apply IZR_lt; lia).
  destruct (shown_ends period (Z.to_nat N - 1)) as (l & E). replace (S (Z.to_nat N - 1)) with (Z.to_nat N) in E by lia.
  split; [|split].
  - rewrite E. cbn [map hd_error]. f_equal. change (Z.of_nat 0) with 0. unfold Rdiv. ring.
  - rewrite E. rewrite map_cons, map_app. cbn [map]. rewrite app_comm_cons, last_last. rewrite Z2Nat.id by lia. change (t0 + IZR N * (t1 - t0) / IZR N = t1)%R. field. lra.
  - clear E. assert (Hs := shown_sorted period (Z.to_nat N)). induction Hs as [|k ks Hs IH HF]; cbn [map]; constructor; auto.
    apply Forall_forall. intros x Hx. apply in_map_iff in Hx as (k' & <- & Hk'). rewrite Forall_forall in HF. assert (L := HF k' Hk').
    assert (L' := IZR_lt (Z.of_nat k) (Z.of_nat k') ltac:(lia)). apply Rplus_lt_compat_l. unfold Rdiv. apply Rmult_lt_compat_r; [now apply Rinv_0_lt_compat|].
    apply Rmult_lt_compat_r; lra.
Qed.
Theorem even_output : forall ceil x0 x1 nx kx y0 y1 ny ky t0 t1 period hm gb m ss m' shown,
  heat_sizes nx ny -> (forall n, length (gb n) = n) -> heat_allocations nx ny hm -> rounds_up ceil ->
  (x0 < x1)%R -> (y0 < y1)%R -> (0 < kx)%R -> (0 < ky)%R -> (t0 < t1)%R -> 0 < period ->
  let dx := spacing x0 x1 nx in let dy := spacing y0 y1 ny in
  ((t1 - t0) / step_bound kx (1 / (dx * dx)) ky (1 / (dy * dy)) <= IZR (2 ^ 61))%R ->
  uniform_heat_main RA ceil x0 x1 nx kx y0 y1 ny ky t0 t1 period hm gb (mk_machine m ss) = Ok (m', shown) \/
  heat_main RA ceil x0 x1 nx kx y0 y1 ny ky t0 t1 period hm gb (mk_machine m ss) = Ok (m', shown) ->
  printed_times t0 t1 shown /\ printed_within 0 (9999 / 1000) shown /\ same_mean shown.
Proof.
  intros ceil x0 x1 nx kx y0 y1 ny ky t0 t1 period hm gb m ss m' shown Hsz Hgb Hhm Hc Hx Hy Hkx Hky Ht Hper dx dy Hst Hrun.
  destruct (even_run nx ny gb hm ceil x0 x1 kx y0 y1 ky t0 t1 period Hsz Hgb Hhm Hc Hx Hy Hkx Hky Ht Hst Hper m) as (N & T & HN & HT & (_ & _ & P1) & (_ & _ & P2)).
  assert (E : shown = heat_lines nx ny t0 t1 period N T) by (destruct Hrun as [E|E]; [exact (P1 ss m' shown E)|exact (P2 ss m' shown E)]).
  rewrite E. destruct Hsz as (S1 & S2 & S3). assert (Px := spacing_pos x0 x1 nx Hx ltac:(lia)). assert (Py := spacing_pos y0 y1 ny Hy ltac:(lia)).
  split; [apply lines_times; [auto|apply HN]|]. split.
  - apply lines_within; [lia|lia|]. eapply history_range; [| | | | | | | | |exact HT]; try lia; auto.
    + split; [exists 0; split; [lia|reflexivity]|intros; apply Rle_refl].
    + split; [exists 0; split; [lia|reflexivity]|intros; apply Rle_refl].
    + apply steps_bound; auto using inv2_pos.
  - apply lines_mean. intros k. eapply even_step; [| | | |apply HT]; auto; lia.
Qed.
Theorem non_uniform_output : forall ceil nx X kx mx ny Y ky my t0 t1 period hm gb m ss m' shown,
  heat_sizes nx ny -> (forall n, length (gb n) = n) -> heat_allocations nx ny hm -> rounds_up ceil ->
  rising nx X -> rising ny Y -> (0 < kx)%R -> (0 < ky)%R -> (t0 < t1)%R -> 0 < period ->
  largest nx (fun i => 1 / (before nx X i * after nx X i))%R mx -> largest ny (fun j => 1 / (before ny Y j * after ny Y j))%R my ->
  ((t1 - t0) / step_bound kx mx ky my <= IZR (2 ^ 61))%R ->
  non_uniform_heat_main RA ceil (map X (indices nx)) kx (map Y (indices ny)) ky t0 t1 period hm gb (mk_machine m ss) = Ok (m', shown) ->
  printed_times t0 t1 shown /\ printed_within 0 (9999 / 1000) shown.
Proof.
  intros ceil nx X kx mx ny Y ky my t0 t1 period hm gb m ss m' shown Hsz Hgb Hhm Hc HX HY Hkx Hky Ht Hper Hmx Hmy Hst E.
  destruct (non_uniform_run nx ny gb hm ceil X Y kx mx ky my t0 t1 period Hsz Hgb Hhm Hc HX HY Hkx Hky Ht Hmx Hmy Hst Hper m) as (N & T & HN & HT & (_ & _ & P)).
  rewrite (P ss m' shown E). destruct Hsz as (S1 & S2 & S3). split; [apply lines_times; [auto|apply HN]|].
  apply lines_within; [lia|lia|]. eapply history_range; [| | | |exact Hmx|exact Hmy| | | |exact HT]; auto; try lia.
  - intros; split; [now apply before_pos|now apply after_pos].
  - intros; split; [now apply before_pos|now apply after_pos].
  - apply steps_bound; auto; [apply (largest_pos nx X); auto|apply (largest_pos ny Y); auto].
Qed.
Lemma after_before n X i : 2 <= n -> (X 1%Z - X 0%Z = X (n - 1)%Z - X (n - 2)%Z)%R -> 0 <= i < n -> after n X i = before n X ((i + 1) mod n).
Proof.
  intros Hn He Hi. unfold after, before. destruct (Z.eqb_spec i (n - 1)) as [->|].
  - replace (n - 1 + 1) with n by lia. rewrite Z.mod_same by lia. rewrite Z.eqb_refl. exact He.
  - rewrite Z.mod_small by lia. destruct (Z.eqb_spec (i + 1) 0); [lia|]. replace (i + 1 - 1) with i by lia. reflexivity.
Qed.
Theorem points_conserved : forall nx ny X Y kx ky dt T, heat_sizes nx ny -> rising nx X -> rising ny Y ->
  (X 1%Z - X 0%Z = X (nx - 1)%Z - X (nx - 2)%Z)%R -> (Y 1%Z - Y 0%Z = Y (ny - 1)%Z - Y (ny - 2)%Z)%R ->
  let lx := before nx X in let rx := after nx X in let ly := before ny Y in let ry := after ny Y in
  heat_history nx ny X Y lx rx ly ry kx ky dt T -> forall k, heat nx ny lx rx ly ry (T k) = heat nx ny lx rx ly ry (T O).
Proof.
  intros nx ny X Y kx ky dt T (S1 & S2 & S3) HX HY Ex Ey lx rx ly ry (_ & HS). induction k as [|k IH]; [reflexivity|]. rewrite <- IH.
  apply (heat_conserved nx ny lx rx ly ry kx ky dt); try lia; auto.
  - intros i Hi. split; [now apply before_pos|now apply after_pos].
  - intros i Hi. split; [now apply before_pos|now apply after_pos].
  - intros i Hi. apply after_before; auto; lia.
  - intros i Hi. apply after_before; auto; lia.
Qed.
(** Three points at 0, 1, 3. *)
Definition three (i : Z) : R := if i =? 0 then 0%R else if i =? 1 then 1%R else 3%R.
Lemma total1_3 f : total1 3 f = (f 0%Z + (f 1%Z + (f 2%Z + 0)))%R. Proof. reflexivity. Qed.
Lemma three_rising : rising 3 three.
Proof. intros i H1 H2. assert (C : i = 0 \/ i = 1) by lia. destruct C as [-> | ->]; unfold three; cbn; lra. Qed.
Lemma even_rising n : rising n IZR. Proof. intros i H1 H2. apply IZR_lt. lia. Qed.
Theorem points_not_conserved : exists nx ny X Y, heat_sizes nx ny /\ rising nx X /\ rising ny Y /\
  let lx := before nx X in let rx := after nx X in let ly := before ny Y in let ry := after ny Y in
  forall kx ky dt T, (0 < kx)%R -> (0 < dt)%R -> heat_history nx ny X Y lx rx ly ry kx ky dt T ->
    (heat nx ny lx rx ly ry (T O) < heat nx ny lx rx ly ry (T 1%nat))%R.
Proof.
  exists 3, 3, three, IZR. split; [unfold heat_sizes; lia|]. split; [exact three_rising|]. split; [apply even_rising|]. cbv zeta.
  intros kx ky dt T Hk Hd (I0 & HS). specialize (HS O).
  assert (bx : forall i, 0 <= i < 3 -> before 3 three i = (if i =? 1 then 1 else 2)%R /\ after 3 three i = (if i =? 1 then 2 else 1)%R).
  { intros i Hi. assert (C : i = 0 \/ i = 1 \/ i = 2) by lia. destruct C as [-> | [-> | ->]]; unfold before, after, three; cbn -[IZR]; lra. }
  assert (by_ : forall i, 0 <= i < 3 -> before 3 IZR i = 1%R /\ after 3 IZR i = 1%R).
  { intros i Hi. assert (C : i = 0 \/ i = 1 \/ i = 2) by lia. destruct C as [-> | [-> | ->]]; unfold before, after; cbn -[IZR]; lra. }
  assert (T0 : forall i j, 0 <= i < 3 -> 0 <= j < 3 -> T O i j = if (i =? 0) && (j =? 0) then (9999 / 1000)%R else 0%R).
  { intros i j Hi Hj. rewrite I0 by auto. assert (C : i = 0 \/ i = 1 \/ i = 2) by lia. assert (D : j = 0 \/ j = 1 \/ j = 2) by lia.
    destruct C as [-> | [-> | ->]]; destruct D as [-> | [-> | ->]]; unfold three; cbn [Z.eqb Pos.eqb andb]; destruct (Rlt_dec _ _); lra. }
  unfold heat, total. rewrite !total1_3.
  destruct (bx 0 ltac:(lia)) as [-> ->]. destruct (bx 1 ltac:(lia)) as [-> ->]. destruct (bx 2 ltac:(lia)) as [-> ->].
  destruct (by_ 0 ltac:(lia)) as [-> ->]. destruct (by_ 1 ltac:(lia)) as [-> ->]. destruct (by_ 2 ltac:(lia)) as [-> ->].
  rewrite !(HS 0), !(HS 1), !(HS 2) by lia.
  destruct (bx 0 ltac:(lia)) as [-> ->]. destruct (bx 1 ltac:(lia)) as [-> ->]. destruct (bx 2 ltac:(lia)) as [-> ->].
  destruct (by_ 0 ltac:(lia)) as [-> ->]. destruct (by_ 1 ltac:(lia)) as [-> ->]. destruct (by_ 2 ltac:(lia)) as [-> ->].
  change ((0 + 1) mod 3) with 1. change ((0 - 1) mod 3) with 2. change ((1 + 1) mod 3) with 2. change ((1 - 1) mod 3) with 0. change ((2 + 1) mod 3) with 0. change ((2 - 1) mod 3) with 1.
  rewrite !T0 by lia. cbn [Z.eqb Pos.eqb andb]. unfold second_difference.
  assert (P : (0 < dt * kx)%R) by now apply Rmult_lt_0_compat. lra.
Qed.
(** The hypotheses can be met. *)
Definition up_ceil (x : R) : R := IZR (1 - up (- x)).
Lemma up_ceil_ok : rounds_up up_ceil.
Proof. intros x. exists (1 - up (- x)). split; [reflexivity|]. assert (A := archimed (- x)). rewrite minus_IZR. lra. Qed.
Lemma three_largest : largest 3 (fun i => 1 / (before 3 three i * after 3 three i))%R (1 / 2)%R /\ largest 3 (fun j => 1 / (before 3 IZR j * after 3 IZR j))%R 1%R.
Proof.
  split; split; try (exists 0; split; [lia|]); unfold before, after, three; cbn -[IZR]; try lra; intros i Hi; assert (C : i = 0 \/ i = 1 \/ i = 2) by lia;
    destruct C as [-> | [-> | ->]]; cbn -[IZR]; lra.
Qed.
