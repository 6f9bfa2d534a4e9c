(** Specification of the game of life on a board whose border never changes. *)
From Coq Require Import ZArith List Bool.
Import ListNotations.
Open Scope Z_scope.

(** A board of [length] columns and [height] rows. *)
Definition board := Z -> Z -> bool.
Definition around : list (Z * Z) := [(-1, -1); (-1, 0); (-1, 1); (0, -1); (0, 1); (1, -1); (1, 0); (1, 1)].
(** The number of live cells among the eight cells around (x, y). *)
Definition neighbours (b : board) (x y : Z) : nat :=
  List.length (filter (fun d => b (x + fst d) (y + snd d)) around).
(** A cell lives on with two or three live neighbours; a cell is born with three. *)
Definition lives (b : board) (x y : Z) : Prop :=
  if b x y then neighbours b x y = 2%nat \/ neighbours b x y = 3%nat else neighbours b x y = 3%nat.
Definition on_border (length height x y : Z) : Prop := x = 0 \/ x = length - 1 \/ y = 0 \/ y = height - 1.
(** [b'] is the generation after [b]. *)
Definition next_generation (length height : Z) (b b' : board) : Prop :=
  forall x y, 0 <= x < length -> 0 <= y < height ->
    (on_border length height x y -> b' x y = b x y) /\
    (~ on_border length height x y -> (b' x y = true <-> lives b x y)).
(** The cells of a board, row by row of constant x. *)
Definition cells (length height : Z) (b : board) : list bool :=
  flat_map (fun x => map (fun y => b (Z.of_nat x) (Z.of_nat y)) (seq 0 (Z.to_nat height))) (seq 0 (Z.to_nat length)).
(** Three cells in a line: (1, 2), (2, 2), (3, 2). *)
Definition blinker : board := fun x y => (1 <=? x) && (x <=? 3) && (y =? 2).
(** The line turned by a quarter: (2, 1), (2, 2), (2, 3). *)
Definition turned : board := fun x y => (x =? 2) && (1 <=? y) && (y <=? 3).
(** Two blocks of n cells that do not overlap. *)
Definition apart_blocks (n p q : Z) : Prop := p + n <= q \/ q + n <= p.
(** The three allocations of the program, of one board each, do not overlap. *)
Definition life_allocations (length height p_in p_out p_host : Z) : Prop :=
  apart_blocks (length * height) p_in p_out /\ apart_blocks (length * height) p_in p_host /\ apart_blocks (length * height) p_out p_host.
