(** Property C47: Fourier transforms.  [mesh d shape] is a mesh of shape_i points in the dimension i of [d]; [dft] and [inverse_dft] are the sums that define the
    transforms; [exact_library] is what is assumed of Kokkos-FFT; [factor] is the table of the normalizations (FFTSpec). *)
From Coq Require Import Bool Reals Lia Lra List Floats.SpecFloat.
From Verif Require Import FFTSpec FFTProofs FFTTheorems.
Import ListNotations.
Local Open Scope bool_scope. Local Open Scope Z_scope.

(** * C47 *)
(** What each transform computes: the sum, with the factor of the normalization. *)
Theorem C47_complex_forward : forall L, exact_library L -> forall S norm d kd shape, mesh d shape -> usable norm S d shape -> mesh kd shape -> forall f : list Z -> C,
  exists F : list Z -> C, fft L S norm Complex_ Complex_ (mk_chunk_nd (t := Complex_) d f) kd = Ok (mk_chunk_nd (t := Complex_) kd F) /\
  forall k, in_box shape k -> F k = (RtoC (factor S D_FORWARD norm d shape) * dft shape f k)%C.
Proof. exact complex_forward. Qed.
Print Assumptions C47_complex_forward.
Theorem C47_complex_backward : forall L, exact_library L -> forall S norm d kd shape, mesh d shape -> usable norm S d shape -> mesh kd shape -> forall F : list Z -> C,
  exists f : list Z -> C, ifft L S norm Complex_ Complex_ (mk_chunk_nd (t := Complex_) kd F) d = Ok (mk_chunk_nd (t := Complex_) d f) /\
  forall j, in_box shape j -> f j = (RtoC (factor S D_BACKWARD norm d shape) * inverse_dft shape F j)%C.
Proof. exact complex_backward. Qed.
Print Assumptions C47_complex_backward.
(** A real function: half of the spectrum, in the last dimension. *)
Theorem C47_real_forward : forall L, exact_library L -> forall S norm d kd shape, mesh d shape -> usable norm S d shape -> mesh kd (half shape) -> forall f : list Z -> R,
  exists F : list Z -> C, fft L S norm Real_ Complex_ (mk_chunk_nd (t := Real_) d f) kd = Ok (mk_chunk_nd (t := Complex_) kd F) /\
  forall k, in_box (half shape) k -> F k = (RtoC (factor S D_FORWARD norm d shape) * dft shape (fun j => RtoC (f j)) k)%C.
Proof. exact real_forward. Qed.
Print Assumptions C47_real_forward.
Theorem C47_real_backward : forall L, exact_library L -> forall S norm d kd shape, mesh d shape -> usable norm S d shape -> mesh kd (half shape) ->
  forall h F : list Z -> C, hermitian shape F -> (forall k, in_box (half shape) k -> h k = F k) ->
  exists f : list Z -> R, ifft L S norm Complex_ Real_ (mk_chunk_nd (t := Complex_) kd h) d = Ok (mk_chunk_nd (t := Real_) d f) /\
  forall j, in_box shape j -> RtoC (f j) = (RtoC (factor S D_BACKWARD norm d shape) * inverse_dft shape F j)%C.
Proof. exact real_backward. Qed.
Print Assumptions C47_real_backward.

(** One transform and then the other: the identity, or a multiplication by the number of points for OFF. *)
Theorem C47_complex_round_trip : forall L, exact_library L -> forall S norm d kd shape, mesh d shape -> usable norm S d shape -> mesh kd shape -> forall f : list Z -> C,
  exists F g : list Z -> C, fft L S norm Complex_ Complex_ (mk_chunk_nd (t := Complex_) d f) kd = Ok (mk_chunk_nd (t := Complex_) kd F) /\
  ifft L S norm Complex_ Complex_ (mk_chunk_nd (t := Complex_) kd F) d = Ok (mk_chunk_nd (t := Complex_) d g) /\
  forall j, in_box shape j -> g j = (RtoC (round_trip_factor norm shape) * f j)%C.
Proof. exact complex_round_trip. Qed.
Print Assumptions C47_complex_round_trip.
Theorem C47_complex_round_trip_back : forall L, exact_library L -> forall S norm d kd shape, mesh d shape -> usable norm S d shape -> mesh kd shape -> forall F : list Z -> C,
  exists f G : list Z -> C, ifft L S norm Complex_ Complex_ (mk_chunk_nd (t := Complex_) kd F) d = Ok (mk_chunk_nd (t := Complex_) d f) /\
  fft L S norm Complex_ Complex_ (mk_chunk_nd (t := Complex_) d f) kd = Ok (mk_chunk_nd (t := Complex_) kd G) /\
  forall k, in_box shape k -> G k = (RtoC (round_trip_factor norm shape) * F k)%C.
Proof. exact complex_round_trip_back. Qed.
Print Assumptions C47_complex_round_trip_back.
Theorem C47_real_round_trip : forall L, exact_library L -> forall S norm d kd shape, mesh d shape -> usable norm S d shape -> mesh kd (half shape) -> forall f : list Z -> R,
  exists (F : list Z -> C) (g : list Z -> R), fft L S norm Real_ Complex_ (mk_chunk_nd (t := Real_) d f) kd = Ok (mk_chunk_nd (t := Complex_) kd F) /\
  ifft L S norm Complex_ Real_ (mk_chunk_nd (t := Complex_) kd F) d = Ok (mk_chunk_nd (t := Real_) d g) /\
  forall j, in_box shape j -> g j = (round_trip_factor norm shape * f j)%R.
Proof. exact real_round_trip. Qed.
Print Assumptions C47_real_round_trip.
Theorem C47_real_round_trip_back : forall L, exact_library L -> forall S norm d kd shape, mesh d shape -> usable norm S d shape -> mesh kd (half shape) ->
  forall h F : list Z -> C, hermitian shape F -> (forall k, in_box (half shape) k -> h k = F k) ->
  exists (f : list Z -> R) (G : list Z -> C), ifft L S norm Complex_ Real_ (mk_chunk_nd (t := Complex_) kd h) d = Ok (mk_chunk_nd (t := Real_) d f) /\
  fft L S norm Real_ Complex_ (mk_chunk_nd (t := Real_) d f) kd = Ok (mk_chunk_nd (t := Complex_) kd G) /\
  forall k, in_box (half shape) k -> G k = (RtoC (round_trip_factor norm shape) * h k)%C.
Proof. exact real_round_trip_back. Qed.
Print Assumptions C47_real_round_trip_back.

(** The Fourier mesh: n points in each dimension from 0, but n/2 + 1 in the last one for a real transform. *)
Theorem C47_mesh : forall fourier d shape (c2c : bool), mesh d shape -> NoDup (map fourier (ddims d)) ->
  let kshape := if c2c then shape else half shape in
  exists kd, fourier_mesh fourier d c2c = Ok kd /\ mesh kd kshape /\ kd = map (fun p => (fourier (fst p), (0, snd p))) (combine (ddims d) kshape).
Proof. exact fourier_mesh_ok. Qed.
Print Assumptions C47_mesh.
(** The frequencies of a mesh of n points: multiples of dk, where dx dk n = 2 pi; those of the first half are positive or zero, the others are negative. *)
Theorem C47_frequencies : forall S q p n, one_mesh p n -> 2 <= n <= 2 ^ 31 -> us_front RA (S (fst p)) = 0 -> (0 < us_step RA (S (fst p)))%R ->
  exists s, init_fourier_space RA PI S q p = Ok s /\
  forall k, 0 <= k < n -> ps_coordinate RA s k = Ok (IZR (if k <? n - n / 2 then k else k - n) * frequency_step S p)%R.
Proof. exact frequencies. Qed.
Print Assumptions C47_frequencies.
Theorem C47_steps : forall S p n, one_mesh p n -> 2 <= n <= 2 ^ 31 -> (0 < us_step RA (S (fst p)))%R -> (us_step RA (S (fst p)) * frequency_step S p * IZR n = 2 * PI)%R.
Proof. exact steps_product. Qed.
Print Assumptions C47_steps.
(** With these frequencies, the sum is that of the Fourier transform on the mesh, relative to its first point. *)
Theorem C47_fourier_sum : forall S space frequency d shape (f : list Z -> C), mesh d shape -> sampled S d shape -> Forall (fun n => n <= 2 ^ 31) shape ->
  Forall2 (fun p n => (exists q, init_fourier_space RA PI S q p = Ok (space (fst p))) /\ forall k, 0 <= k < n -> ps_coordinate RA (space (fst p)) k = Ok (frequency (fst p) k : num RA)) d shape ->
  forall k, in_box shape k -> dft shape f k = box_sum shape (fun j => f j * cis (- phase S frequency d j k))%C.
Proof. exact fourier_sum. Qed.
Print Assumptions C47_fourier_sum.

(** The documentation of OFF says sum_j f(x_j) e^(-i k x_j).  This is not so if the mesh does not start at 0. *)
Theorem C47_phase_refuted : forall L, exact_library L -> exists S d (f F : list Z -> C) s frequency, mesh d [2] /\ sampled S d [2] /\
  fft L S N_OFF Complex_ Complex_ (mk_chunk_nd (t := Complex_) d f) [(2%nat, (0, 2))] = Ok (mk_chunk_nd (t := Complex_) [(2%nat, (0, 2))] F) /\
  init_fourier_space RA PI S 2%nat (1%nat, (0, 2)) = Ok s /\ (forall k, 0 <= k < 2 -> ps_coordinate RA s k = Ok (frequency k : num RA)) /\
  F [1] <> box_sum [2] (fun j => f j * cis (- plain_phase S (fun _ => frequency) d j [1]))%C.
Proof. exact phase_refuted. Qed.
Print Assumptions C47_phase_refuted.
(** With one point in a dimension, the factor of FULL is not a number: so is then every element of the result. *)
Theorem C47_single_point_refuted : forall (sqrt_2_pi : num FA) (S : tag -> uniform_sampling FA) p, one_mesh p 1 -> forward_full_norm_coef FA sqrt_2_pi S p = Ok (S754_nan : num FA).
Proof. exact single_point. Qed.
Print Assumptions C47_single_point_refuted.
(** With more than 2^31 points, making the Fourier space overflows. *)
Theorem C47_overflow_refuted : forall S q p n, one_mesh p n -> us_front RA (S (fst p)) = 0 -> 2 ^ 31 < n -> init_fourier_space RA PI S q p = Undef.
Proof. exact fourier_overflow. Qed.
Print Assumptions C47_overflow_refuted.

(** The hypotheses hold: there is an exact library; a mesh of 4 x 3 points, sampled with the steps 1 and 2. *)
Definition mesh_43 : domain := [(1%nat, (5, 9)); (2%nat, (0, 3))].
Definition steps_12 (q : tag) : uniform_sampling RA := mk_us RA 1%R (IZR (Z.of_nat q)) 0.
Example C47_library_instance : exact_library sums. Proof. exact sums_exact. Qed.
Lemma mesh_43_ok : mesh mesh_43 [4; 3].
Proof. split; [|split; [discriminate|]]. - apply (NoDup_cons 1%nat); [intros [E | []]; discriminate|]. apply (NoDup_cons 2%nat); [intros []|]. constructor. - unfold mesh_43. constructor; [cbn [fst snd]; lia|]. constructor; [cbn [fst snd]; lia | constructor]. Qed.
Lemma mesh_43_sampled : sampled steps_12 mesh_43 [4; 3].
Proof. split. - constructor; [lia|]. constructor; [lia | constructor]. - constructor; [split; [cbn; lra | reflexivity]|]. constructor; [split; [cbn; lra | reflexivity] | constructor]. Qed.
Example C47_mesh_instance : exists kd kd', fourier_mesh (fun q => (q + 10)%nat) mesh_43 true = Ok kd /\ fourier_mesh (fun q => (q + 10)%nat) mesh_43 false = Ok kd' /\ mesh kd [4; 3] /\ mesh kd' (half [4; 3]) /\
  kd' = [(11%nat, (0, 4)); (12%nat, (0, 2))].
Proof.
  assert (Hnd : NoDup (map (fun q => (q + 10)%nat) (ddims mesh_43))). { apply (NoDup_cons 11%nat); [intros [E | []]; discriminate|]. apply (NoDup_cons 12%nat); [intros []|]. constructor. }
  destruct (C47_mesh (fun q => (q + 10)%nat) mesh_43 [4; 3] true mesh_43_ok Hnd) as (kd & E & M & _). destruct (C47_mesh (fun q => (q + 10)%nat) mesh_43 [4; 3] false mesh_43_ok Hnd) as (kd' & E' & M' & K).
  exists kd, kd'. split; [exact E|]. split; [exact E'|]. split; [exact M|]. split; [exact M' | exact K].
Qed.
(** FULL, there and back, for any real function on this mesh. *)
Example C47_full_instance (f : list Z -> R) : exists kd (F : list Z -> C) (g : list Z -> R), fourier_mesh (fun q => (q + 10)%nat) mesh_43 false = Ok kd /\
  fft sums steps_12 N_FULL Real_ Complex_ (mk_chunk_nd (t := Real_) mesh_43 f) kd = Ok (mk_chunk_nd (t := Complex_) kd F) /\
  ifft sums steps_12 N_FULL Complex_ Real_ (mk_chunk_nd (t := Complex_) kd F) mesh_43 = Ok (mk_chunk_nd (t := Real_) mesh_43 g) /\ g [3; 2] = f [3; 2].
Proof.
  destruct C47_mesh_instance as (_ & kd & _ & E & _ & M & _).
  destruct (C47_real_round_trip sums sums_exact steps_12 N_FULL mesh_43 kd [4; 3] mesh_43_ok mesh_43_sampled M f) as (F & g & E1 & E2 & H). exists kd, F, g. split; [exact E|]. split; [exact E1|]. split; [exact E2|].
  rewrite H by (constructor; [lia|]; constructor; [lia | constructor]). cbn [round_trip_factor]. ring.
Qed.
