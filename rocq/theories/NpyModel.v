(** Model of src/ddc/save_npy.hpp and src/ddc/save_npy.cpp. *)
From Coq Require Export Ascii String.
From Verif Require Export ParModel.
Open Scope list_scope.
Notation bytes := (list ascii).
(** Auxiliary: the bytes of a string. *)
Definition text (s : string) : bytes := list_ascii_of_string s.
(** Auxiliary: the byte of a value. *)
Definition byte (z : Z) : ascii := ascii_of_N (Z.to_N z).

(** std::endian::native *)
Inductive endian := Little | Big | Mixed.
(** Element types that convert_to_npy_dtype accepts (save_npy.hpp:45-81), with their sizeof. *)
Inductive ctype :=
| CBool | CByte                  (* bool, std::byte *)
| CSigned (n : nat) | CUnsigned (n : nat) (* integers of n bytes *)
| CFloat (n : nat)               (* float, double *)
| CComplex (n : nat).            (* complex numbers whose parts have n bytes *)
Definition sizeof (t : ctype) : nat :=
  match t with CBool | CByte => 1 | CSigned n | CUnsigned n | CFloat n => n | CComplex n => (n + n)%nat end.

(** save_npy.cpp:20-35 [get_byte_order] *)
Definition get_byte_order (native : endian) (itemsize : Z) : ascii :=
  if itemsize =? 1 then "|"%char
  else match native with Little => "<"%char | Big => ">"%char | Mixed => "|"%char end.
(** save_npy.hpp:27-34, 45-81 [convert_to_npy_dtype] *)
Record dtype := mk_dtype { d_order : ascii; d_kind : ascii; d_size : Z }.
(** See save_npy.hpp:27-34, 45-81. *)
Definition npy_kind (t : ctype) : ascii :=
  match t with
  | CBool => "b"%char | CByte => "V"%char | CComplex _ => "c"%char | CFloat _ => "f"%char
  | CSigned _ => "i"%char | CUnsigned _ => "u"%char
  end.
(** See save_npy.hpp:27-34, 45-81. *)
Definition convert_to_npy_dtype (native : endian) (t : ctype) : dtype :=
  let itemsize := Z.of_nat (sizeof t) in mk_dtype (get_byte_order native itemsize) (npy_kind t) itemsize.

(** std::to_string(std::size_t): at most 20 decimal digits. *)
Definition digit (d : Z) : ascii := byte (48 + d).
(** Auxiliary for [std::to_string]: digits are put in front of [acc]. *)
Fixpoint decimal (fuel : nat) (n : Z) (acc : bytes) : bytes :=
  match fuel with
  | O => acc
  | S fuel' => if n <? 10 then digit n :: acc else decimal fuel' (n / 10) (digit (n mod 10) :: acc)
  end.
(** [std::to_string] of a [size_t] (used at save_npy.cpp:53 and 62): at most 20 digits. *)
Definition to_string (n : Z) : bytes := decimal 20 n [].

(** save_npy.cpp:37-48 [write_le] *)
Definition write_le (v : Z) : bytes := [byte (Z.land v 255); byte (Z.land (Z.shiftr v 8) 255)].
(** save_npy.cpp:50-54 [NpyDtype::str] *)
Definition dtype_str (d : dtype) : bytes := d_order d :: d_kind d :: to_string (d_size d).

(** save_npy.hpp:83-89 [NpyArrayView]: [v_data k] is the byte at distance k of the data pointer. *)
Record npy_view := mk_view { v_data : Z -> ascii; v_dtype : dtype; v_shape : list Z; v_fortran : bool }.

(** save_npy.cpp:59-69 *)
Definition shape_str (shape : list Z) : bytes := text "(" ++ flat_map (fun n => to_string n ++ text ", ") shape ++ text ")".
(** See save_npy.cpp:59-69. *)
Definition header_dict (v : npy_view) : bytes :=
  text "{'descr': '" ++ dtype_str (v_dtype v) ++ text "', 'fortran_order': "
  ++ text (if v_fortran v then "True" else "False") ++ text ", 'shape': " ++ shape_str (v_shape v) ++ text ", }".
(** save_npy.cpp:71-80 *)
Definition non_padded_header_len (v : npy_view) : Z := Z.of_nat (length (header_dict v)) + 1.
(** See save_npy.cpp:71-80. *)
Definition padding (v : npy_view) : Z := let remainder := (6 + 1 + 1 + 2 + non_padded_header_len v) mod 16 in (16 - remainder) mod 16.
(** save_npy.cpp:95-98: raw data, os.write of n_elems * itemsize bytes. *)
Definition raw_data (v : npy_view) : bytes :=
  let n_elems := fold_left u64_mul (v_shape v) 1 in
  map (fun k => v_data v (Z.of_nat k)) (seq 0 (Z.to_nat (u64_mul n_elems (d_size (v_dtype v))))).
(** save_npy.cpp:57-99 [save_npy]: the bytes sent to the stream; [Rejected] is the exception, thrown
    before anything is written.  The padding is read from a literal of 15 spaces.  Failures of the
    stream are not modelled. *)
Definition save_view (v : npy_view) : res bytes :=
  let header_len := non_padded_header_len v + padding v in
  if (0 <=? header_len) && (header_len <? 65536) then
    if padding v <=? 15 then
      Ok (byte 147 :: text "NUMPY" ++ [byte 1] ++ [byte 0] ++ write_le header_len
          ++ header_dict v ++ firstn (Z.to_nat (padding v)) (text "               ") ++ [byte 10] ++ raw_data v)
    else Undef
  else Rejected.

(** The object representation of a value: one integer (two's complement, or the bit pattern of a
    floating-point number), or two for complex numbers. *)
Notation value := (list Z).
(** Auxiliary: [n] bytes, the least significant first. *)
Fixpoint le_bytes (n : nat) (x : Z) : bytes :=
  match n with O => [] | S n' => byte (x mod 256) :: le_bytes n' (x / 256) end.
(** External: the representation in memory of an object of the type [t]. *)
Definition object_bytes (native : endian) (t : ctype) (x : value) : bytes :=
  let n := match t with CComplex n => n | _ => sizeof t end in
  flat_map (fun c => match native with Big => rev (le_bytes n c) | _ => le_bytes n c end) x.
(** The bytes of the array of values starting at [ptr]. *)
Definition byte_at (native : endian) (t : ctype) (m : memory value) (ptr k : Z) : ascii :=
  nth (Z.to_nat (k mod Z.of_nat (sizeof t))) (object_bytes native t (m (ptr + k / Z.of_nat (sizeof t)))) (byte 0).
(** save_npy.hpp:91-105 [to_np_array_view]: fortran_order is decided by the type of the layout. *)
Definition to_np_array_view (native : endian) (t : ctype) (md : mdspan) (m : memory value) : npy_view :=
  mk_view (byte_at native t m (m_ptr md)) (convert_to_npy_dtype native t) (m_ext md)
    (match m_lay md with LLeft => true | _ => false end).

(** save_npy.hpp:121-131 (stream) and 139-150 (file) [save_npy].  [host]: is the memory of the chunk
    accessible from the host. *)
Definition save_npy (native : endian) (t : ctype) (host : bool) (src : span) (fresh1 fresh2 : Z)
    (g1 g2 g3 g4 : list Z) (s1 s2 : list nat) (m : memory value) : res bytes :=
  rbind (create_layout_right_view_and_copy src fresh1 g1 g2 s1 m) (fun r1 =>
  rbind (create_mirror_view_and_copy host (fst r1) fresh2 g3 g4 s2 (snd r1)) (fun r2 =>
  save_view (to_np_array_view native t (s_md (fst r2)) (snd r2)))).
