(** Model of src/ddc/pdi.hpp and src/ddc/pdi.cpp: the calls of the PDI library made by a [PdiEvent] and
    the storage it owns.  PDI itself is not modelled here. *)
From Coq Require Import String.
From Verif Require Export Machine.

(** What is shared: the address of an object of the user, or the [k]-th object of [m_metadata] (a
    [std::list]: its objects do not move; pdi.hpp:37, 43-55). *)
Inductive ptr := User (address : Z) | Own (k : nat).
(** PDI_IN = 1: PDI may write the data; PDI_OUT = 2: PDI may read it. *)
Record access := mk_access { acc_in : bool; acc_out : bool }.
(** External: the access constants of PDI. *)
Definition PDI_OUT := mk_access false true.
(** External: the access constants of PDI. *)
Definition PDI_INOUT := mk_access true true.
(** The stored copies: a number or a vector of numbers. *)
Inductive meta := Scalar (v : Z) | Array (l : list Z).
(** Effects, in the order in which they happen. *)
Inductive call :=
| Store (k : nat) (m : meta)                       (* creation of the k-th object of m_metadata *)
| PDI_share (name : string) (p : ptr) (a : access)
| PDI_event (name : string)
| PDI_reclaim (name : string)
| Release (k : nat).                               (* destruction of the k-th object *)

Record pdi_event := mk_event { m_event_name : string; m_names : list string; m_metadata : list meta; trace : list call }.

(** pdi.hpp:58, pdi.cpp:26 *)
Definition make_event (name : string) : pdi_event := mk_event name [] [] [].
(** pdi.hpp:43-55 [store_scalar], [store_array]; pdi.cpp:16-24 [store_name]; then [PDI_share].  The
    arguments of the call are evaluated in an unspecified order: it makes no difference. *)
Definition store_name (e : pdi_event) (name : string) : pdi_event :=
  mk_event (m_event_name e) (m_names e ++ [name]) (m_metadata e) (trace e).
(** See pdi.hpp:43-55; pdi.cpp:16-24. *)
Definition share (e : pdi_event) (name : string) (p : ptr) (a : access) : pdi_event :=
  let e := store_name e name in mk_event (m_event_name e) (m_names e) (m_metadata e) (trace e ++ [PDI_share name p a]).
(** See pdi.hpp:43-55; pdi.cpp:16-24. *)
Definition store (e : pdi_event) (m : meta) : pdi_event * ptr :=
  let k := length (m_metadata e) in
  (mk_event (m_event_name e) (m_names e) (m_metadata e ++ [m]) (trace e ++ [Store k m]), Own k).
(** See pdi.hpp:43-55; pdi.cpp:16-24. *)
Definition share_copy (e : pdi_event) (name : string) (m : meta) (a : access) : pdi_event :=
  let (e', p) := store e m in share e' name p a.

(** The argument of [with]: a borrowed chunk ([writable]: [is_writable_chunk_v]), an arithmetic value
    ([writable]: a reference to a non-const lvalue) or a C string of [size] characters. *)
Inductive data :=
| Chunk (extents : list Z) (handle : Z) (writable : bool)
| Arithmetic (v : Z) (address : Z) (writable : bool)
| CString (size : Z) (address : Z).
(** pdi.hpp:22-29 [default_access_v], [chunk_default_access_v]. *)
Definition default_access (writable : bool) : access := if writable then PDI_INOUT else PDI_OUT.
(** pdi.hpp:73-90: the chunk overload with an access argument. *)
Definition with_chunk (e : pdi_event) (name : string) (a : access) (extents : list Z) (handle : Z) (writable : bool) : res pdi_event :=
  if negb (acc_in a) || acc_in (default_access writable) then
    let e := share_copy e (name ++ "_rank") (Scalar (Z.of_nat (length extents))) PDI_OUT in
    let e := share_copy e (name ++ "_extents") (Array (map u64 extents)) PDI_OUT in
    Ok (share e name (User handle) a)
  else Rejected.
(** pdi.hpp:92-108 *)
Definition with_arithmetic (e : pdi_event) (name : string) (a : access) (v address : Z) (writable : bool) : res pdi_event :=
  if negb (acc_in a) || acc_in (default_access writable) then
    if acc_in a then Ok (share e name (User address) a) else Ok (share_copy e name (Scalar v) a)
  else Rejected.
(** pdi.cpp:36-41 *)
Definition with_string (e : pdi_event) (name : string) (size address : Z) : pdi_event :=
  share (share_copy e (name ++ "_size") (Scalar size) PDI_OUT) name (User address) PDI_OUT.
(** pdi.hpp:114-130: [None] deduces the access; the C string overload has no access argument. *)
Definition with_ (e : pdi_event) (name : string) (a : option access) (d : data) : res pdi_event :=
  match d, a with
  | Chunk x h w, Some a => with_chunk e name a x h w
  | Chunk x h w, None => with_chunk e name (default_access w) x h w
  | Arithmetic v p w, Some a => with_arithmetic e name a v p w
  | Arithmetic v p w, None => with_arithmetic e name (default_access w) v p w
  | CString n p, None => Ok (with_string e name n p)
  | CString _ _, Some _ => Rejected
  end.
(** A chain of calls of [with]. *)
Fixpoint withs (e : pdi_event) (l : list (string * option access * data)) : res pdi_event :=
  match l with
  | [] => Ok e
  | (name, a, d) :: l' => rbind (with_ e name a d) (fun e' => withs e' l')
  end.
(** pdi.cpp:28-34: the destructor, after which the members are destroyed. *)
Definition destroy_event (e : pdi_event) : list call :=
  trace e ++ [PDI_event (m_event_name e)] ++ map PDI_reclaim (m_names e) ++ map Release (seq 0 (length (m_metadata e))).
(** The whole life of an event. *)
Definition event_life (name : string) (l : list (string * option access * data)) : res (list call) :=
  rbind (withs (make_event name) l) (fun e => Ok (destroy_event e)).
(** pdi.hpp:135-145 [expose_to_pdi]. *)
Definition expose_to_pdi (name : string) (a : option access) (d : data) : res (list call) := event_life name [(name, a, d)].
