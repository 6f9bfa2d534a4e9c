(** Specification of the heat equation programs: a temperature on nx by ny points, periodic in both directions. *)
From Coq Require Import ZArith List Bool Reals Sorted.
From Verif Require Import Machine ArithModel HeatModel.
Import ListNotations.
Open Scope Z_scope.

(** The indices 0, 1, ..., n - 1. *)
Definition indices (n : Z) : list Z := map Z.of_nat (seq 0 (Z.to_nat n)).
Section Any.
Context (A : arith).
Notation num := (num A).
Definition temperature := Z -> Z -> num.
(** The disc of radius 1/2 is hot. *)
Definition disc (X Y : Z -> num) : temperature := fun i j =>
  nmul A (ndiv A (nofz A 9999) (nofz A 1000))
    (if nltb A (nadd A (nmul A (X i) (X i)) (nmul A (Y j) (Y j))) (ndiv A (nofz A 1) (nofz A 4)) then nofz A 1 else nofz A 0).
(** One step of an explicit scheme: [FX i p c m] and [FY j p c m] are what the first and the second dimension add at a
    point, given the temperatures after, at and before it; the neighbours of the last point are periodic. *)
Definition step (nx ny : Z) (FX FY : Z -> num -> num -> num -> num) (T : temperature) : temperature := fun i j =>
  nadd A (nadd A (T i j) (FX i (T ((i + 1) mod nx) j) (T i j) (T ((i - 1) mod nx) j)))
         (FY j (T i ((j + 1) mod ny)) (T i j) (T i ((j - 1) mod ny))).
Fixpoint evolution (nx ny : Z) (X Y : Z -> num) (FX FY : Z -> num -> num -> num -> num) (k : nat) : temperature :=
  match k with O => disc X Y | S k' => step nx ny FX FY (evolution nx ny X Y FX FY k') end.
(** The sum over all points, in the order of the library: the sum of each line, then the sum of the sums. *)
Definition sum_over (l : list Z) (f : Z -> num) : num := fold_left (fun acc i => nadd A (f i) acc) l (nofz A 0).
Definition grid_sum (nx ny : Z) (T : temperature) : num := sum_over (indices nx) (fun i => sum_over (indices ny) (T i)).
End Any.
(** The steps shown among 0, ..., N: the multiples of the period, and the last one. *)
Definition shown_steps (period : Z) (N : nat) : list nat :=
  filter (fun k => (Z.of_nat k mod period =? 0) || Nat.eqb k N) (seq 0 (S N)).

(** ** Over the reals *)
Local Open Scope R_scope.
(** [ceil x] is the smallest integer that is at least [x]. *)
Definition rounds_up (ceil : R -> R) : Prop := forall x, exists z, ceil x = IZR z /\ IZR z - 1 < x <= IZR z.
(** The second derivative from the values [p], [c], [m] after, at and before a point, and the distances [l] to the point
    before it and [r] to the point after it: the difference of the slopes on both sides over the distance of their middles. *)
Definition second_difference (l r p c m : R) : R := ((p - c) / r - (c - m) / l) / ((l + r) / 2).
(** [T'] comes after [T] by the explicit scheme for dT/dt = kx d2T/dx2 + ky d2T/dy2, periodic in both directions. *)
Definition heat_step (nx ny : Z) (lx rx ly ry : Z -> R) (kx ky dt : R) (T T' : Z -> Z -> R) : Prop :=
  forall i j, (0 <= i < nx)%Z -> (0 <= j < ny)%Z ->
    T' i j = T i j + dt * (kx * second_difference (lx i) (rx i) (T ((i + 1) mod nx)%Z j) (T i j) (T ((i - 1) mod nx)%Z j)
                         + ky * second_difference (ly j) (ry j) (T i ((j + 1) mod ny)%Z) (T i j) (T i ((j - 1) mod ny)%Z)).
(** The disc of radius 1/2 around the origin is hot. *)
Definition hot_disc (nx ny : Z) (X Y : Z -> R) (T : Z -> Z -> R) : Prop :=
  forall i j, (0 <= i < nx)%Z -> (0 <= j < ny)%Z -> T i j = if Rlt_dec (X i * X i + Y j * Y j) (1 / 4) then 9999 / 1000 else 0.
(** Sums. *)
Definition total1 (n : Z) (f : Z -> R) : R := fold_right Rplus 0 (map f (indices n)).
Definition total (nx ny : Z) (T : Z -> Z -> R) : R := total1 nx (fun i => total1 ny (fun j => T i j)).
(** The heat: each value weighs half of the distances around its point. *)
Definition heat (nx ny : Z) (lx rx ly ry : Z -> R) (T : Z -> Z -> R) : R :=
  total nx ny (fun i j => (lx i + rx i) / 2 * ((ly j + ry j) / 2) * T i j).
(** What is printed at a time: the mean, the slice in the middle and its values. *)
Definition line_of (nx ny : Z) (time : R) (T : Z -> Z -> R) : display_line RA :=
  mk_line RA time (total nx ny T / IZR (nx * ny)) (ny / 2) (map (fun i => T i (ny / 2)%Z) (indices nx)).
(** A program prints [lines]: it can end, it is never undefined, and whatever the interleaving it prints these lines. *)
Definition prints {M L} (main : list (list nat) -> res (M * L)) (lines : L) : Prop :=
  (exists ss m, main ss = Ok (m, lines)) /\ (forall ss, main ss <> Undef) /\ (forall ss m l, main ss = Ok (m, l) -> l = lines).
(** Whatever the memory contained and the interleaving: either the program is always undefined (its checks on the sizes and
    the time step fail), or it always prints the same lines. *)
Definition steady {V L} (main : machine V -> res (machine V * L)) : Prop :=
  (forall s, main s = Undef) \/ exists lines, forall m, prints (fun ss => main (mk_machine m ss)) lines.
(** The three allocations, with one ghost on each side, do not overlap. *)
Definition heat_allocations (nx ny : Z) (hm : heat_memory) : Prop :=
  let apart p q := (p + (nx + 2) * (ny + 2) <= q \/ q + (nx + 2) * (ny + 2) <= p)%Z in
  apart (p_last hm) (p_next hm) /\ apart (p_temp hm) (p_last hm) /\ apart (p_temp hm) (p_next hm).
(** Sizes for which nothing overflows. *)
Definition heat_sizes (nx ny : Z) : Prop := (2 <= nx < 2 ^ 62 /\ 2 <= ny < 2 ^ 62 /\ (nx + 2) * (ny + 2) < 2 ^ 64)%Z.
(** [N] steps go from [t0] to [t1], and are the fewest not longer than [bound]. *)
Definition fewest_steps (t0 t1 bound : R) (N : Z) : Prop := (1 <= N)%Z /\ IZR (N - 1) * bound < t1 - t0 <= IZR N * bound.
(** The simulation: temperatures at the steps, from the disc on, and the lines printed. *)
Definition heat_history (nx ny : Z) (X Y lx rx ly ry : Z -> R) (kx ky dt : R) (T : nat -> Z -> Z -> R) : Prop :=
  hot_disc nx ny X Y (T O) /\ forall k, heat_step nx ny lx rx ly ry kx ky dt (T k) (T (S k)).
Definition heat_lines (nx ny : Z) (t0 t1 : R) (period N : Z) (T : nat -> Z -> Z -> R) : list (display_line RA) :=
  map (fun k => line_of nx ny (t0 + IZR (Z.of_nat k) * (t1 - t0) / IZR N) (T k)) (shown_steps period (Z.to_nat N)).
(** The largest value. *)
Definition largest (n : Z) (f : Z -> R) (M : R) : Prop := (exists i, (0 <= i < n)%Z /\ f i = M) /\ forall i, (0 <= i < n)%Z -> f i <= M.
(** The step given by the coefficients and by the largest 1 / (distance before * distance after) of each dimension. *)
Definition step_bound (kx mx ky my : R) : R := 1 / (2 * (kx * mx + ky * my)).
(** The distances of the program with non-uniform points: before the first point comes the last distance, after the
    last point the first one. *)
Definition before (n : Z) (X : Z -> R) (i : Z) : R := if (i =? 0)%Z then X (n - 1)%Z - X (n - 2)%Z else X i - X (i - 1)%Z.
Definition after (n : Z) (X : Z -> R) (i : Z) : R := if (i =? n - 1)%Z then X 1%Z - X 0%Z else X (i + 1)%Z - X i.
Definition rising (n : Z) (X : Z -> R) : Prop := forall i, (0 <= i)%Z -> (i + 1 < n)%Z -> X i < X (i + 1)%Z.
(** Evenly spaced points from [a] to [b]. *)
Definition spacing (a b : R) (n : Z) : R := (b - a) / IZR (n - 1).
Definition evenly (a b : R) (n i : Z) : R := a + IZR i * spacing a b n.
(** What is printed: the means and the values are in a range; the times go up from [t0] to [t1]. *)
Definition printed_within (a b : R) (lines : list (display_line RA)) : Prop :=
  forall l, In l lines -> a <= l_mean RA l <= b /\ forall v, In v (l_values RA l) -> a <= v <= b.
Definition printed_times (t0 t1 : R) (lines : list (display_line RA)) : Prop :=
  hd_error (map (l_time RA) lines) = Some t0 /\ last (map (l_time RA) lines) 0 = t1 /\ StronglySorted Rlt (map (l_time RA) lines).
Definition same_mean (lines : list (display_line RA)) : Prop := forall l l', In l lines -> In l' lines -> l_mean RA l = l_mean RA l'.
