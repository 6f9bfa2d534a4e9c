(** What C39 asks of the external solvers: each returns the exact solution of the system whose matrix it is
    given, in LAPACK's conventions (LinearSpec). *)
From Coq Require Import List.
From Verif Require Import LinearModel LinearSpec.
Local Open Scope Z_scope.

Definition exact_for (n : Z) (M : Z -> Z -> R) (tr : bool) (f : arr R -> res (arr R)) : Prop :=
  forall b x, a_len b = n -> f b = Ok x -> a_len x = n /\ solves n M tr (a_at x) (a_at b).
Definition exact_solvers (X : solvers RA) : Prop :=
  (forall a tr, a2_m a = a2_n a -> exact_for (a2_n a) (a2_at a) tr (getrs X a tr)) /\
  (forall kl ku q tr, a2_n q = 2 * kl + ku + 1 -> exact_for (a2_m q) (gb_matrix kl ku (a2_at q)) tr (gbtrs X kl ku q tr)) /\
  (forall q, exact_for (a2_m q) (pb_matrix (a2_n q - 1) (a2_at q)) false (pbtrs X q)) /\
  (forall d e, a_len e = a_len d - 1 -> exact_for (a_len d) (pt_matrix (a_at d) (a_at e)) false (pttrs X d e)) /\
  (forall a tr, a2_m a = a2_n a -> exact_for (a2_n a) (a2_at a) tr (bicgstab X a tr)).
(** None of them fails on right-hand sides of the right length; they work in place. *)
Definition total_for (n : Z) (f : arr R -> res (arr R)) : Prop := forall b, a_len b = n -> exists x, f b = Ok x /\ a_len x = n.
Definition total_solvers (X : solvers RA) : Prop :=
  (forall a tr, total_for (a2_n a) (getrs X a tr)) /\
  (forall kl ku q tr, total_for (a2_m q) (gbtrs X kl ku q tr)) /\
  (forall q, total_for (a2_m q) (pbtrs X q)) /\
  (forall d e, total_for (a_len d) (pttrs X d e)) /\
  (forall a tr, total_for (a2_n a) (bicgstab X a tr)).

(** The ways a linear problem is created, with what it then keeps of its matrix and the sizes it is made for. *)
Inductive creation :=
| A_dense (n : Z)
| A_sparse (n : Z)
| A_band (n kl ku : Z) (symmetric : bool)
| Some_blocks (n kl ku : Z) (symmetric : bool) (bottom top : Z)
| A_periodic_band (n kl ku : Z) (symmetric : bool).
Definition create (A : arith) (c : creation) : res (problem A) :=
  match c with
  | A_dense n => e <- new_dense A n ;; Ok (Elementary e)
  | A_sparse n => e <- new_sparse A n ;; Ok (Elementary e)
  | A_band n kl ku pds => e <- make_new_band A n kl ku pds ;; Ok (Elementary e)
  | Some_blocks n kl ku pds bottom top => make_new_block_matrix A n kl ku pds bottom top
  | A_periodic_band n kl ku pds => make_new_periodic_band_matrix A n kl ku pds
  end.
Definition shape_of (c : creation) : shape :=
  match c with
  | A_dense n | A_sparse n => mk_shape n 0 n General
  | A_band n kl ku pds => mk_shape n 0 n (band_kind n kl ku pds)
  | Some_blocks n kl ku pds bottom top => mk_shape n top (n - top - bottom) (band_kind (n - top - bottom) kl ku pds)
  | A_periodic_band n kl ku pds => periodic_shape n kl ku pds
  end.
Definition sensible (c : creation) : Prop :=
  match c with
  | A_dense n | A_sparse n => 0 <= n < 2 ^ 61
  | A_band n kl ku pds =>
      0 <= n < 2 ^ 31 /\ 0 <= kl /\ 0 <= ku /\ 2 * kl + ku + 1 < 2 ^ 31 /\ (pds = true -> kl = ku -> kl = 1 \/ kl < n)
  | Some_blocks n kl ku pds bottom top =>
      0 <= top /\ 0 <= bottom /\ top + bottom <= n /\ n < 2 ^ 31 /\ 0 <= kl /\ 0 <= ku /\ 2 * kl + ku + 1 < 2 ^ 31 /\
      (pds = true -> kl = ku -> kl = 1 \/ kl < n - top - bottom)
  | A_periodic_band n kl ku pds =>
      0 <= kl < n /\ 0 <= ku < n /\ n * n < 2 ^ 31 /\ periodic_storage n kl ku < 2 ^ 31 /\
      (pds = true -> kl = ku -> kl = 1 \/ kl < n - kl \/ n * n <= periodic_storage n kl ku)
  end.
(** The positions given to [set_element] are in the matrix; a value given outside what is kept is less than 1e-15. *)
Definition assignments (A : arith) (s : shape) (h : list (Z * Z * num A)) : Prop :=
  Forall (fun '(i, j, v) => 0 <= i < sh_n s /\ 0 <= j < sh_n s /\ (in_shape s i j = false -> nltb A (nabs A v) (tol15 A) = true)) h.
