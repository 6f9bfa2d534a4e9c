(** Model of src/ddc/kernels/fft.hpp and src/ddc/kernels/fft.cpp.

    Simplifications.
    - The transforms of Kokkos-FFT are arguments ([fft_library]); FFTSpec says what is assumed of them.
    - [Real] is the type of real numbers, a complex number is a pair of real numbers.  The constants of the mesh are computed over an
      arithmetic [A], given sqrt(2 pi), so that they can also be read over floating-point numbers.
    - A [ChunkSpan] is a domain and its elements, numbered in each dimension from the front of the domain ([allocation_kokkos_view()],
      for the only layout accepted, layout_right).  The input is not changed, while a complex to real transform may overwrite it
      (the documentation warns of it).
    - [samplings q] are the attributes of the discrete dimension [q] ([discrete_space<DDim>()]). *)
From Verif Require Export SamplingModel.
From Coquelicot Require Export Complex.
#[global] Open Scope Z_scope.

(** fft.hpp:33-36 and 43-53 *)
Inductive direction := D_FORWARD | D_BACKWARD.
(** See fft.hpp:33-36, 43-53. *)
Inductive normalization := N_OFF | N_FORWARD | N_BACKWARD | N_ORTHO | N_FULL.
(** KokkosFFT::Normalization *)
Inductive kokkos_normalization := K_NONE | K_FORWARD | K_BACKWARD | K_ORTHO.
(** fft.cpp:13-34; all the enumerators are handled *)
Definition to_kokkos (n : normalization) : kokkos_normalization :=
  match n with
  | N_OFF | N_FULL => K_NONE
  | N_FORWARD => K_FORWARD
  | N_BACKWARD => K_BACKWARD
  | N_ORTHO => K_ORTHO
  end.
(** fft.hpp:100-105 *)
Definition axes (dims : type_seq) : list Z := map (fun q => type_seq_rank_v q dims) dims.

Section Mesh.
Context (A : arith).
Notation num := (num A).
(** sqrt(2 pi), and pi *)
Context (sqrt_2_pi pi : num).
Context (samplings : tag -> uniform_sampling A).
(** The size of a one-dimensional mesh, [extents().value()] (fft.hpp:129, 135, 269). *)
Definition one_extent (d : domain) : res Z := rbind (extents d) one_elem.
(** The mesh of one dimension of a domain: [DiscreteDomain<DDim>(ddom)]. *)
Definition mesh_length (p : tag * (Z * Z)) : res num := rlength A (us_coord A (samplings (fst p))) [p].
(** fft.hpp:125-130 *)
Definition forward_full_norm_coef (p : tag * (Z * Z)) : res num :=
  rbind (mesh_length p) (fun l =>
  rbind (one_extent [p]) (fun n =>
  rbind (ssub n 1) (fun n1 =>
  Ok (l / sqrt_2_pi / nofz A n1)%N_))).
(** fft.hpp:132-136 *)
Definition backward_full_norm_coef (p : tag * (Z * Z)) : res num :=
  rbind (forward_full_norm_coef p) (fun c =>
  rbind (one_extent [p]) (fun n =>
  Ok (nofz A 1 / (c * nofz A n))%N_)).
(** [(f(DiscreteDomain<DDim>(ddom)) * ...)], fft.hpp:220 and 223: a right fold. *)
Fixpoint norm_product (f : tag * (Z * Z) -> res num) (d : domain) : res num :=
  match d with
  | [] => Rejected
  | [p] => f p
  | p :: d => rbind (f p) (fun c => rbind (norm_product f d) (fun r => Ok (c * r)%N_))
  end.
(** fft.hpp:253-277, for the Fourier dimension [q] of the mesh [p].  The product is one of [ptrdiff_t], up to the division. *)
Definition init_fourier_space (q : tag) (p : tag * (Z * Z)) : res (periodic_sampling A) :=
  rbind (one_extent [p]) (fun nx =>
  rbind (mesh_length p) (fun lx =>
  rbind (ssub nx 1) (fun m =>
  rbind (smul 2 m) (fun m2 =>
  rbind (smul m2 m) (fun m3 =>
  rbind (ps_init A q (nofz A 0) (nofz A m3 / (nofz A nx * lx) * pi)%N_ nx nx) (fun r => Ok (fst r))))))).
End Mesh.

(** fft.hpp:294-310.  [fourier q] is the Fourier dimension that goes with the dimension [q]. *)
Fixpoint half_last (l : tagged) : tagged :=
  match l with
  | [] => []
  | [(q, n)] => [(q, Z.quot n 2 + 1)]
  | p :: l => p :: half_last l
  end.
(** See fft.hpp:294-310. *)
Fixpoint fourier_domain (fourier : tag -> tag) (l : tagged) : res domain :=
  match l with
  | [] => Ok []
  | (q, n) :: l => rbind (mk_domain [(fourier q, 0)] [(fourier q, n)]) (fun d => rbind (fourier_domain fourier l) (fun r => Ok (d ++ r)))
  end.
(** See fft.hpp:294-310. *)
Definition fourier_mesh (fourier : tag -> tag) (x_mesh : domain) (c2c : bool) : res domain :=
  rbind (extents x_mesh) (fun e => fourier_domain fourier (if c2c then e else half_last e)).

(** The transforms of Kokkos-FFT: the kind of normalization, the axes, the extents of both views, the elements of the input. *)
Record fft_library := mk_library {
  lib_fftn : kokkos_normalization -> list Z -> list Z -> list Z -> (list Z -> C) -> res (list Z -> C);
  lib_ifftn : kokkos_normalization -> list Z -> list Z -> list Z -> (list Z -> C) -> res (list Z -> C);
  lib_rfftn : kokkos_normalization -> list Z -> list Z -> list Z -> (list Z -> R) -> res (list Z -> C);
  lib_irfftn : kokkos_normalization -> list Z -> list Z -> list Z -> (list Z -> C) -> res (list Z -> R) }.

(** The two types of elements. *)
Inductive scalar := Real_ | Complex_.
(** The type of the values: real or complex (fft.hpp:74-86). *)
Definition value (t : scalar) : Type := match t with Real_ => R | Complex_ => C end.
(** A chunk over a domain (chunk_span.hpp:46), reduced to its values. *)
Record chunk_nd (t : scalar) := mk_chunk_nd { nd_domain : domain; nd_at : list Z -> value t }.
Arguments mk_chunk_nd {t}. Arguments nd_domain {t}. Arguments nd_at {t}.
(** The extents of the view. *)
Definition view_shape (d : domain) : list Z := map extent1 d.
(** fft.hpp:110-123: [m_coef * value] *)
Definition scale {t : scalar} (c : R) : value t -> value t :=
  match t with Real_ => fun v => (c * v)%R | Complex_ => fun v => (RtoC c * v)%C end.

Section Transform.
Context (L : fft_library) (samplings : tag -> uniform_sampling RA).
(** fft.hpp:163-213: which transform is called.  Real to real is not accepted by the library. *)
Definition transform (dir : direction) (norm : normalization) (tin tout : scalar) (in_ : chunk_nd tin) (out_domain : domain) : res (list Z -> value tout) :=
  let k := to_kokkos norm in
  let ax := axes (ddims (nd_domain in_)) in
  let si := view_shape (nd_domain in_) in
  let so := view_shape out_domain in
  match tin, tout return (chunk_nd tin -> res (list Z -> value tout)) with
  | Complex_, Complex_ => fun c => match dir with D_FORWARD => lib_fftn L k ax si so (nd_at c) | D_BACKWARD => lib_ifftn L k ax si so (nd_at c) end
  | Real_, Complex_ => fun c => match dir with D_FORWARD => lib_rfftn L k ax si so (nd_at c) | D_BACKWARD => Undef end
  | Complex_, Real_ => fun c => match dir with D_FORWARD => Undef | D_BACKWARD => lib_irfftn L k ax si so (nd_at c) end
  | Real_, Real_ => fun _ => Rejected
  end in_.
(** fft.hpp:148-228.  215-227: [parallel_transform] applies the function to each element of [out]. *)
Definition fft_impl (dir : direction) (norm : normalization) (tin tout : scalar) (in_ : chunk_nd tin) (out_domain : domain) : res (chunk_nd tout) :=
  rbind (transform dir norm tin tout in_ out_domain) (fun out =>
  match norm with
  | N_FULL =>
      rbind (match dir with
             | D_FORWARD => norm_product RA (forward_full_norm_coef RA (sqrt (2 * PI)) samplings) (nd_domain in_)
             | D_BACKWARD => norm_product RA (backward_full_norm_coef RA (sqrt (2 * PI)) samplings) out_domain
             end) (fun c => Ok (mk_chunk_nd out_domain (fun i => scale c (out i))))
  | _ => Ok (mk_chunk_nd out_domain out)
  end).
(** fft.hpp:353-372 and 406-425 *)
Definition fft := fft_impl D_FORWARD.
(** See fft.hpp:353-372, 406-425. *)
Definition ifft := fft_impl D_BACKWARD.
End Transform.
