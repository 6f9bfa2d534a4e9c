(** Specification of the spectral heat program: a temperature on nx by ny points, periodic in both directions. *)
From Coq Require Import ZArith List Reals.
From Verif Require Import HeatSpec FFTSpec.
Local Open Scope Z_scope.

(** The coefficient of the wave (p, q): the sum over the points of T(i, j) e^(- 2 pi i (i p / nx + j q / ny)). *)
Definition wave (nx ny : Z) (T : Z -> Z -> R) (p q : Z) : C :=
  csum (Z.to_nat nx) (fun i => csum (Z.to_nat ny) (fun j => RtoC (T i j) * cis (- (2 * PI * (IZR (i * p) / IZR nx + IZR (j * q) / IZR ny))))%C).
(** The number of oscillations of the wave [p] among [n]: those above the middle are negative. *)
Definition oscillations (n p : Z) : Z := if 2 * p <? n then p else p - n.
(** Its frequency on [a, b]. *)
Definition frequency (a b : R) (n p : Z) : R := (2 * PI * IZR (oscillations n p) / (b - a))%R.
(** The rate of decay of a wave by the equation dT/dt = kx d2T/dx2 + ky d2T/dy2. *)
Definition decay_rate (nx ny : Z) (a b c e kx ky : R) (p q : Z) : R := (kx * frequency a b nx p ^ 2 + ky * frequency c e ny q ^ 2)%R.
(** One explicit step of length [dt]: each coefficient loses [dt] times its rate. *)
Definition spectral_step (nx ny : Z) (a b c e kx ky dt : R) (T T' : Z -> Z -> R) : Prop :=
  forall p q, 0 <= p < nx -> 0 <= q < ny -> wave nx ny T' p q = (RtoC (1 - dt * decay_rate nx ny a b c e kx ky p q) * wave nx ny T p q)%C.
(** From the hot disc on; the points are evenly spaced, the last one is the first one again. *)
Definition spectral_history (nx ny : Z) (a b c e kx ky dt : R) (T : nat -> Z -> Z -> R) : Prop :=
  hot_disc nx ny (evenly a b (nx + 1)) (evenly c e (ny + 1)) (T O) /\ forall k, spectral_step nx ny a b c e kx ky dt (T k) (T (S k)).
(** The step of the program: two over the rate of the highest frequencies pi / dx, pi / dy. *)
Definition spectral_dt (nx ny : Z) (a b c e kx ky : R) : R :=
  (2 / (kx * (PI / spacing a b (nx + 1)) ^ 2 + ky * (PI / spacing c e (ny + 1)) ^ 2))%R.
(** The energy. *)
Definition energy (nx ny : Z) (T : Z -> Z -> R) : R := total nx ny (fun i j => T i j ^ 2)%R.
(** What is asked of the arguments. *)
Record spectral_inputs (nx ny : Z) (a b c e kx ky t0 t1 : R) (period : Z) (L : fft_library) (ceil : R -> R) : Prop := {
  sp_nx : 2 <= nx < 2 ^ 31; sp_ny : 2 <= ny < 2 ^ 31; sp_x : (a < b)%R; sp_y : (c < e)%R; sp_kx : (0 < kx)%R; sp_ky : (0 < ky)%R; sp_t : (t0 < t1)%R;
  sp_steps : ((t1 - t0) / spectral_dt nx ny a b c e kx ky <= IZR (2 ^ 61))%R; sp_period : 0 < period; sp_ceil : rounds_up ceil; sp_exact : exact_library L }.
