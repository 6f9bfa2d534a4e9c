(** Specification for Fourier transforms, independent of the definitions of the model. *)
From Coq Require Import Reals.
From Verif Require Export FFTModel.
Local Open Scope Z_scope.

(** e^(i x) *)
Definition cis (x : R) : C := (cos x, sin x).
Fixpoint csum (n : nat) (f : Z -> C) : C := match n with O => RtoC 0 | S n => (csum n f + f (Z.of_nat n))%C end.
(** The sum over all the indices [j] of an array of the given extents. *)
Fixpoint box_sum (shape : list Z) (f : list Z -> C) : C :=
  match shape with [] => f [] | n :: shape => csum (Z.to_nat n) (fun i => box_sum shape (fun l => f (i :: l))) end.
Definition in_box (shape index : list Z) : Prop := Forall2 (fun n i => 0 <= i < n) shape index.
(** 2 pi (j1 k1 / n1 + j2 k2 / n2 + ...) *)
Fixpoint angle (shape j k : list Z) : R :=
  match shape, j, k with n :: shape, j :: js, k :: ks => (2 * PI * IZR (j * k) / IZR n + angle shape js ks)%R | _, _, _ => 0%R end.
(** The discrete Fourier transform, without normalization, and the inverse one. *)
Definition dft (shape : list Z) (f : list Z -> C) (k : list Z) : C := box_sum shape (fun j => f j * cis (- angle shape j k))%C.
Definition inverse_dft (shape : list Z) (f : list Z -> C) (j : list Z) : C := box_sum shape (fun k => f k * cis (angle shape j k))%C.
Definition points (shape : list Z) : Z := fold_right Z.mul 1 shape.
(** The indices that a real transform keeps: half of them in the last dimension. *)
Fixpoint half (shape : list Z) : list Z := match shape with [] => [] | [n] => [n / 2 + 1] | n :: shape => n :: half shape end.
(** Index of the opposite frequency, and the spectra of real functions. *)
Fixpoint opposite (shape k : list Z) : list Z := match shape, k with n :: shape, k :: ks => (- k) mod n :: opposite shape ks | _, _ => [] end.
Definition hermitian (shape : list Z) (F : list Z -> C) : Prop := forall k, in_box shape k -> F (opposite shape k) = Cconj (F k).

(** What is assumed of Kokkos-FFT, for all the dimensions of a view: the factor of each normalization, *)
Definition library_factor (forward : bool) (k : kokkos_normalization) (shape : list Z) : R :=
  match k, forward with
  | K_NONE, _ => 1
  | K_FORWARD, true | K_BACKWARD, false => / IZR (points shape)
  | K_FORWARD, false | K_BACKWARD, true => 1
  | K_ORTHO, _ => / sqrt (IZR (points shape))
  end.
Definition positive (shape : list Z) : Prop := shape <> [] /\ Forall (fun n => 1 <= n) shape.
(** the axes 0, 1, ..., *)
Definition all_axes (shape : list Z) : list Z := map Z.of_nat (seq 0 (length shape)).
(** and exact sums.  A complex to real transform is given half of the spectrum of a real function. *)
Record exact_library (L : fft_library) : Prop := {
  exact_fftn : forall k shape f, positive shape -> exists g, lib_fftn L k (all_axes shape) shape shape f = Ok g /\
    forall i, in_box shape i -> g i = (RtoC (library_factor true k shape) * dft shape f i)%C;
  exact_ifftn : forall k shape f, positive shape -> exists g, lib_ifftn L k (all_axes shape) shape shape f = Ok g /\
    forall i, in_box shape i -> g i = (RtoC (library_factor false k shape) * inverse_dft shape f i)%C;
  exact_rfftn : forall k shape f, positive shape -> exists g, lib_rfftn L k (all_axes shape) shape (half shape) f = Ok g /\
    forall i, in_box (half shape) i -> g i = (RtoC (library_factor true k shape) * dft shape (fun j => RtoC (f j)) i)%C;
  exact_irfftn : forall k shape f F, positive shape -> hermitian shape F -> (forall i, in_box (half shape) i -> f i = F i) ->
    exists g, lib_irfftn L k (all_axes shape) (half shape) shape f = Ok g /\
    forall i, in_box shape i -> RtoC (g i) = (RtoC (library_factor false k shape) * inverse_dft shape F i)%C }.

(** A mesh of n_i points in the dimension i, from the element b_i. *)
Definition mesh (d : domain) (shape : list Z) : Prop :=
  NoDup (map fst d) /\ d <> [] /\ Forall2 (fun p n => 1 <= n /\ 0 <= fst (snd p) /\ snd (snd p) = fst (snd p) + n /\ snd (snd p) < 2 ^ 63) d shape.
(** The samplings of its dimensions have positive steps and there are at least two points in each (this is used by FULL only). *)
Definition sampled (samplings : tag -> uniform_sampling RA) (d : domain) (shape : list Z) : Prop :=
  Forall (fun n => 2 <= n) shape /\ Forall (fun p => (0 < us_step RA (samplings (fst p)))%R /\ us_front RA (samplings (fst p)) = 0) d.
Definition usable (norm : normalization) (samplings : tag -> uniform_sampling RA) (d : domain) (shape : list Z) : Prop :=
  match norm with N_FULL => sampled samplings d shape | _ => True end.
(** What is left by a transform followed by the inverse one. *)
Definition round_trip_factor (norm : normalization) (shape : list Z) : R := match norm with N_OFF => IZR (points shape) | _ => 1 end.
(** The product over the dimensions of a positive number. *)
Definition product {T} (f : T -> R) (l : list T) : R := fold_right (fun p r => f p * r)%R 1%R l.

(** The factor of each normalization: with N points in all, 1 (OFF), 1/N forward (FORWARD), 1/N backward (BACKWARD), 1/sqrt(N) (ORTHO); dx/sqrt(2 pi) forward
    and dk/sqrt(2 pi) backward in each dimension (FULL), where dk = 2 pi / (n dx). *)
Section Factors.
Context (S : tag -> uniform_sampling RA).
Definition mesh_step (p : tag * (Z * Z)) : R := us_step RA (S (fst p)).
Definition frequency_step (p : tag * (Z * Z)) : R := (2 * PI / (IZR (snd (snd p) - fst (snd p)) * mesh_step p))%R.
Definition forward_factor (p : tag * (Z * Z)) : R := (mesh_step p / sqrt (2 * PI))%R.
Definition backward_factor (p : tag * (Z * Z)) : R := (frequency_step p / sqrt (2 * PI))%R.
Definition factor (dir : direction) (norm : normalization) (d : domain) (shape : list Z) : R :=
  match norm, dir with
  | N_OFF, _ | N_FORWARD, D_BACKWARD | N_BACKWARD, D_FORWARD => 1
  | N_FORWARD, D_FORWARD | N_BACKWARD, D_BACKWARD => / IZR (points shape)
  | N_ORTHO, _ => / sqrt (IZR (points shape))
  | N_FULL, D_FORWARD => product forward_factor d
  | N_FULL, D_BACKWARD => product backward_factor d
  end.
(** The sum over the dimensions of k (x_j - x_0), for the coordinates x of the mesh and k of the frequencies. *)
Fixpoint phase (frequency : tag -> Z -> R) (d : domain) (j k : list Z) : R :=
  match d, j, k with
  | p :: d, j :: js, k :: ks => (frequency (fst p) k * (us_coordinate RA (S (fst p)) (fst (snd p) + j) - us_coordinate RA (S (fst p)) (fst (snd p))) + phase frequency d js ks)%R
  | _, _, _ => 0%R
  end.
End Factors.
(** The mesh of one dimension. *)
Definition one_mesh (p : tag * (Z * Z)) (n : Z) : Prop := 1 <= n /\ 0 <= fst (snd p) /\ snd (snd p) = fst (snd p) + n /\ snd (snd p) < 2 ^ 63.
(** The sum over the dimensions of k x_j. *)
Fixpoint plain_phase (S : tag -> uniform_sampling RA) (frequency : tag -> Z -> R) (d : domain) (j k : list Z) : R :=
  match d, j, k with
  | p :: d, j :: js, k :: ks => (frequency (fst p) k * us_coordinate RA (S (fst p)) (fst (snd p) + j) + plain_phase S frequency d js ks)%R
  | _, _, _ => 0%R
  end.
