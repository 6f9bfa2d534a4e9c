(** The game of life program: statements for PropertiesPrograms.v. *)
From Verif Require Import Machine ProgramModel ProgramProofs GridProofs LifeModel LifeSpec LifeProofs.

Theorem life_generations : forall nt L H p_in p_out p_host g m, 0 <= nt -> 2 <= L < 2 ^ 63 - 8 -> 2 <= H < 2 ^ 63 - 8 -> L * H < 2 ^ 64 ->
  (forall n, length (g n) = n) -> life_allocations L H p_in p_out p_host ->
  exists gen : nat -> board,
    (forall x y, gen O x y = blinker x y) /\ (forall k, next_generation L H (gen k) (gen (S k))) /\
    (exists ss m', life_main nt L H p_in p_out p_host g (mk_machine m ss) = Ok (m', map (fun k => cells L H (gen k)) (seq 0 (S (Z.to_nat nt))))) /\
    (forall ss, life_main nt L H p_in p_out p_host g (mk_machine m ss) <> Undef) /\
    (forall ss m' shown, life_main nt L H p_in p_out p_host g (mk_machine m ss) = Ok (m', shown) ->
       shown = map (fun k => cells L H (gen k)) (seq 0 (S (Z.to_nat nt)))).
Proof.
  intros nt L H p_in p_out p_host g m Hnt HL HH HN Hg (A1 & A2 & A3). exists (gen L H).
  destruct (life_run L H p_in p_out p_host g (Hg 4%nat) HL HH HN A1 A2 A3 nt m Hnt) as (R1 & R2 & R3).
  split; [reflexivity|]. split; [intros k; apply life_next|]. split; [|split; [exact R3|]].
  - destruct R1 as (ss & f & (m' & ->) & E). exists ss, (mk_machine m' []). specialize (E []). rewrite app_nil_r in E. exact E.
  - intros ss m' shown E. destruct (R2 ss _ E) as (f & rest & (m2 & ->) & E2). now injection E2.
Qed.

Lemma none_alive b x y : (forall u v, -1 <= u <= 1 -> -1 <= v <= 1 -> b (x + u) (y + v) = false) -> rule b x y = false.
Proof.
  intros E. assert (N : neighbours b x y = O).
  { unfold neighbours, around. cbn [filter fst snd]. rewrite !E by lia. reflexivity. }
  unfold rule. rewrite N. destruct (b x y); reflexivity.
Qed.
Lemma ranges x : 0 <= x -> x = 0 \/ x = 1 \/ x = 2 \/ x = 3 \/ x = 4 \/ 5 <= x. Proof. lia. Qed.
Section Blink.
Variables (L H : Z).
Hypothesis HL : 5 <= L.
Hypothesis HH : 5 <= H.
Lemma blink_step b b' : (b = blinker /\ b' = turned \/ b = turned /\ b' = blinker) ->
  forall x y, 0 <= x < L -> 0 <= y < H -> life L H b x y = b' x y.
Proof.
  intros Hb x y Hx Hy. assert (Far : 5 <= x \/ 5 <= y -> life L H b x y = b' x y).
  { intros F. assert (Z0 : b x y = false /\ b' x y = false).
    { destruct Hb as [[-> ->]|[-> ->]]; unfold blinker, turned; lia. }
    destruct Z0 as [Z1 ->]. unfold life. destruct (inner_b L H x y); auto. apply none_alive. intros u v Hu Hv.
    destruct Hb as [[-> _]|[-> _]]; unfold blinker, turned; lia. }
  destruct (ranges x) as [E|[E|[E|[E|[E|E]]]]]; try lia; try (apply Far; lia);
  destruct (ranges y) as [E'|[E'|[E'|[E'|[E'|E']]]]]; try lia; try (apply Far; lia); subst x y;
  unfold life; match goal with |- context [inner_b L H ?i ?j] =>
    first [replace (inner_b L H i j) with true by (unfold inner_b; lia) | replace (inner_b L H i j) with false by (unfold inner_b; lia) | destruct (inner_b L H i j)] end;
  destruct Hb as [[-> ->]|[-> ->]]; vm_compute; reflexivity.
Qed.
Lemma blink k x y : 0 <= x < L -> 0 <= y < H -> gen L H k x y = if Nat.even k then blinker x y else turned x y.
Proof.
  revert x y. induction k as [|k IH]; intros x y Hx Hy; [reflexivity|]. cbn [gen]. rewrite Nat.even_succ, <- Nat.negb_even.
  destruct (Nat.even k) eqn:Ek; cbn [negb].
  - rewrite (life_ext L H _ blinker) by auto. apply blink_step; auto.
  - rewrite (life_ext L H _ turned) by auto. apply blink_step; auto.
Qed.
End Blink.
Lemma cells_ext L H b b' : (forall x y, 0 <= x < L -> 0 <= y < H -> b x y = b' x y) -> cells L H b = cells L H b'.
Proof. intros E. rewrite <- !cells_listed. apply (listed_ext gx gy gxy). exact E. Qed.

Theorem life_blinker : forall nt L H p_in p_out p_host g m ss m' shown, 0 <= nt -> 5 <= L < 2 ^ 63 - 8 -> 5 <= H < 2 ^ 63 - 8 -> L * H < 2 ^ 64 ->
  (forall n, length (g n) = n) -> life_allocations L H p_in p_out p_host ->
  life_main nt L H p_in p_out p_host g (mk_machine m ss) = Ok (m', shown) ->
  shown = map (fun k => cells L H (if Nat.even k then blinker else turned)) (seq 0 (S (Z.to_nat nt))).
Proof.
  intros nt L H p_in p_out p_host g m ss m' shown Hnt HL HH HN Hg (A1 & A2 & A3) E.
  destruct (life_run L H p_in p_out p_host g (Hg 4%nat) ltac:(lia) ltac:(lia) HN A1 A2 A3 nt m Hnt) as (_ & R2 & _).
  destruct (R2 ss _ E) as (f & rest & (m2 & ->) & E2). assert (E3 : shown = map (fun k => cells L H (gen L H k)) (seq 0 (S (Z.to_nat nt)))) by congruence. rewrite E3. apply map_ext. intros k. apply cells_ext. intros x y Hx Hy.
  rewrite (blink L H) by (auto; lia). destruct (Nat.even k); reflexivity.
Qed.
