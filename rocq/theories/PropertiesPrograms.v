(** Property C61: the program examples/game_of_life.cpp.
    [life_main nt length height p_in p_out p_host g s] is its [main] with [nt] iterations on a board of [length] by
    [height] cells; [s] is the memory together with the interleavings of the calls of the successive kernels.  Its
    result contains the boards printed, each as the list of its cells.  [next_generation], [blinker], [turned],
    [cells] and [life_allocations] (the three allocations do not overlap) are in LifeSpec. *)
From Coq Require Import ZArith List Lia Bool.
From Verif Require Import Machine ProgramModel LifeModel LifeSpec LifeProofs LifeTheorems.
Import ListNotations.
Local Open Scope Z_scope.

(** * C61 *)
(** The boards printed are the blinker and the [nt] generations after it, whatever the memory contained and however
    the calls of the kernels are interleaved; some interleavings finish, and none is undefined. *)
Theorem C61_generations : forall nt length height p_in p_out p_host g m,
  0 <= nt -> 2 <= length < 2 ^ 63 - 8 -> 2 <= height < 2 ^ 63 - 8 -> length * height < 2 ^ 64 ->
  (forall n, List.length (g n) = n) -> life_allocations length height p_in p_out p_host ->
  exists gen : nat -> board,
    (forall x y, gen O x y = blinker x y) /\ (forall k, next_generation length height (gen k) (gen (S k))) /\
    (exists ss m', life_main nt length height p_in p_out p_host g (mk_machine m ss) =
       Ok (m', map (fun k => cells length height (gen k)) (seq 0 (S (Z.to_nat nt))))) /\
    (forall ss, life_main nt length height p_in p_out p_host g (mk_machine m ss) <> Undef) /\
    (forall ss m' shown, life_main nt length height p_in p_out p_host g (mk_machine m ss) = Ok (m', shown) ->
       shown = map (fun k => cells length height (gen k)) (seq 0 (S (Z.to_nat nt)))).
Proof. exact life_generations. Qed.
Print Assumptions C61_generations.
(** With at least five rows and columns, as in the program, the blinker comes back every other generation. *)
Theorem C61_blinker : forall nt length height p_in p_out p_host g m ss m' shown,
  0 <= nt -> 5 <= length < 2 ^ 63 - 8 -> 5 <= height < 2 ^ 63 - 8 -> length * height < 2 ^ 64 ->
  (forall n, List.length (g n) = n) -> life_allocations length height p_in p_out p_host ->
  life_main nt length height p_in p_out p_host g (mk_machine m ss) = Ok (m', shown) ->
  shown = map (fun k => cells length height (if Nat.even k then blinker else turned)) (seq 0 (S (Z.to_nat nt))).
Proof. exact life_blinker. Qed.
Print Assumptions C61_blinker.
(** On four columns and five rows the line is cut by the border: the end (3, 2) never dies. *)
Example C61_ex : (forall n, List.length (repeat 7 n) = n) /\ life_allocations 5 5 100 200 300 /\ life_allocations 4 5 100 200 300 /\
  let ss := repeat (concat (repeat (seq 0 25) 12)) 20 in
  rbind (life_main 2 5 5 100 200 300 (repeat 7) (mk_machine (fun a => Z.odd a) ss)) (fun r => Ok (snd r)) =
    Ok [cells 5 5 blinker; cells 5 5 turned; cells 5 5 blinker] /\
  cells 5 5 turned = map (Z.eqb 1) [0; 0; 0; 0; 0;  0; 0; 0; 0; 0;  0; 1; 1; 1; 0;  0; 0; 0; 0; 0;  0; 0; 0; 0; 0] /\
  rbind (life_main 3 4 5 100 200 300 (repeat 7) (mk_machine (fun a => Z.odd a) ss)) (fun r => Ok (snd r)) =
    Ok [cells 4 5 blinker; map (Z.eqb 1) [0; 0; 0; 0; 0;  0; 0; 0; 0; 0;  0; 1; 1; 1; 0;  0; 0; 1; 0; 0];
        map (Z.eqb 1) [0; 0; 0; 0; 0;  0; 0; 1; 0; 0;  0; 1; 1; 1; 0;  0; 0; 1; 0; 0];
        map (Z.eqb 1) [0; 0; 0; 0; 0;  0; 1; 1; 1; 0;  0; 1; 0; 1; 0;  0; 0; 1; 0; 0]].
Proof.
  split; [apply repeat_length|]. split; [unfold life_allocations, apart_blocks; lia|]. split; [unfold life_allocations, apart_blocks; lia|].
  split; [vm_compute; reflexivity|]. split; [reflexivity|]. vm_compute. reflexivity.
Qed.
