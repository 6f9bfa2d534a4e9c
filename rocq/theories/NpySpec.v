(** An independent reader of the NPY 1.0 format
    (https://numpy.org/neps/nep-0001-npy-format.html): a header holding a Python literal and the
    array, in C or Fortran order. *)
From Coq Require Import Ascii String.
From Verif Require Import TaggedSpec NpyModel.
Open Scope list_scope.
Open Scope char_scope.
Open Scope Z_scope.

Definition code (c : ascii) : Z := Z.of_N (N_of_ascii c).
Definition is_digit (c : ascii) : bool := (48 <=? code c) && (code c <=? 57).
Definition is_letter (c : ascii) : bool := ((65 <=? code c) && (code c <=? 90)) || ((97 <=? code c) && (code c <=? 122)).
Definition is_blank (c : ascii) : bool := (code c =? 32) || (code c =? 10).
Definition is_punct (c : ascii) : bool := existsb (Ascii.eqb c) ["{"; "}"; "("; ")"; ":"; ","].
Definition quote : ascii := "'".

(** ** Python literals *)
Inductive token := TP (c : ascii) | TStr (s : bytes) | TNum (n : Z) | TId (s : bytes).
(** Between tokens, or inside a string, a number, an identifier. *)
Inductive lex_state := Out | InStr (s : bytes) | InNum (n : Z) | InId (s : bytes).
Definition lex_out (c : ascii) : option (list token * lex_state) :=
  if is_blank c then Some ([], Out)
  else if Ascii.eqb c quote then Some ([], InStr [])
  else if is_digit c then Some ([], InNum (code c - 48))
  else if is_letter c then Some ([], InId [c])
  else if is_punct c then Some ([TP c], Out)
  else None.
Definition emit (t : token) (r : option (list token * lex_state)) : option (list token * lex_state) :=
  match r with Some (ts, s) => Some (t :: ts, s) | None => None end.
Definition lex_step (s : lex_state) (c : ascii) : option (list token * lex_state) :=
  match s with
  | Out => lex_out c
  | InStr a => if Ascii.eqb c quote then Some ([TStr a], Out) else Some ([], InStr (a ++ [c]))
  | InNum n => if is_digit c
               then if n =? 0 then None (* no leading zero in Python integers *)
                    else Some ([], InNum (10 * n + (code c - 48)))
               else if is_letter c then None
               else emit (TNum n) (lex_out c)
  | InId a => if is_letter c then Some ([], InId (a ++ [c])) else emit (TId a) (lex_out c)
  end.
Fixpoint lex (s : lex_state) (l : bytes) : option (list token) :=
  match l with
  | [] => match s with Out => Some [] | InStr _ => None | InNum n => Some [TNum n] | InId a => Some [TId a] end
  | c :: r => match lex_step s c with
              | None => None
              | Some (ts, s') => match lex s' r with None => None | Some us => Some (ts ++ us) end
              end
  end.
Inductive literal := LStr (s : bytes) | LBool (b : bool) | LTuple (l : list Z).
Definition is_p (c : ascii) (t : token) : bool := match t with TP d => Ascii.eqb c d | _ => false end.
Definition bytes_eqb (a b : bytes) : bool := if list_eq_dec ascii_dec a b then true else false.
(** The items of a tuple of integers, after the opening parenthesis; (5) is not a tuple. *)
Fixpoint tuple_items (acc : list Z) (ts : list token) : option (list Z * list token) :=
  match ts with
  | TNum n :: t :: r => if is_p "," t then tuple_items (acc ++ [n]) r
                        else if is_p ")" t then match acc with [] => None | _ => Some (acc ++ [n], r) end
                        else None
  | t :: r => if is_p ")" t then Some (acc, r) else None
  | [] => None
  end.
Definition parse_literal (ts : list token) : option (literal * list token) :=
  match ts with
  | TStr s :: r => Some (LStr s, r)
  | TId s :: r => if bytes_eqb s (text "True") then Some (LBool true, r)
                  else if bytes_eqb s (text "False") then Some (LBool false, r) else None
  | TP c :: r => if Ascii.eqb c "(" then match tuple_items [] r with Some (l, r') => Some (LTuple l, r') | None => None end
                 else None
  | _ => None
  end.
(** The entries of a dictionary, after the opening brace, up to the end. *)
Fixpoint parse_entries (fuel : nat) (ts : list token) : option (list (bytes * literal)) :=
  match fuel with
  | O => None
  | S fuel' =>
      match ts with
      | [TP c] => if Ascii.eqb c "}" then Some [] else None
      | TStr k :: TP c :: r =>
          if Ascii.eqb c ":" then
            match parse_literal r with
            | Some (v, t :: r') =>
                if is_p "," t then match parse_entries fuel' r' with Some l => Some ((k, v) :: l) | None => None end
                else if is_p "}" t then match r' with [] => Some [(k, v)] | _ => None end
                else None
            | _ => None
            end
          else None
      | _ => None
      end
  end.
Definition parse_dict (l : bytes) : option (list (bytes * literal)) :=
  match lex Out l with
  | Some (TP c :: ts) => if Ascii.eqb c "{" then parse_entries (S (length ts)) ts else None
  | _ => None
  end.

(** ** Array descriptions: order, kind and size in bytes *)
Fixpoint number (n : Z) (l : bytes) : option Z :=
  match l with [] => Some n | c :: r => if is_digit c then number (10 * n + (code c - 48)) r else None end.
Definition parse_descr (l : bytes) : option (ascii * ascii * Z) :=
  match l with
  | o :: k :: d :: r =>
      if existsb (Ascii.eqb o) ["<"; ">"; "|"] && existsb (Ascii.eqb k) ["b"; "i"; "u"; "f"; "c"; "V"]
      then match number 0 (d :: r) with Some n => Some (o, k, n) | None => None end
      else None
  | _ => None
  end.
Definition entry (k : string) (d : list (bytes * literal)) : option literal :=
  match find (fun p => bytes_eqb (fst p) (text k)) d with Some p => Some (snd p) | None => None end.

Record np_array := mk_np { np_order : ascii; np_kind : ascii; np_size : Z; np_fortran : bool; np_shape : list Z; np_data : bytes }.
Definition read_header (h : bytes) (data : bytes) : option np_array :=
  match parse_dict h with
  | Some d =>
      if (Z.of_nat (length d) =? 3) then
      match entry "descr" d, entry "fortran_order" d, entry "shape" d with
      | Some (LStr s), Some (LBool f), Some (LTuple sh) =>
          match parse_descr s with
          | Some (o, k, n) =>
              if Z.of_nat (length data) =? fold_right Z.mul 1 sh * n then Some (mk_np o k n f sh data) else None
          | None => None
          end
      | _, _, _ => None
      end else None
  | None => None
  end.
(** Magic string, version 1.0, little-endian header length, header ending with a newline and such
    that the data are aligned on 16 bytes. *)
Definition read_npy (l : bytes) : option np_array :=
  match l with
  | m :: n :: u :: m' :: p :: y :: major :: minor :: lo :: hi :: rest =>
      if bytes_eqb [m; n; u; m'; p; y] (ascii_of_N 147 :: list_ascii_of_string "NUMPY")
         && (code major =? 1) && (code minor =? 0) then
        let len := code lo + 256 * code hi in
        let h := firstn (Z.to_nat len) rest in
        if (Z.of_nat (length h) =? len) && ((10 + len) mod 16 =? 0) && (code (last h "a") =? 10)
        then read_header h (skipn (Z.to_nat len) rest)
        else None
      else None
  | _ => None
  end.

(** ** Items *)
(** Position of an index in C order (last index fastest) and Fortran order (first index fastest). *)
Fixpoint c_position (shape idx : list Z) : Z :=
  match shape, idx with _ :: sh, i :: r => i * fold_right Z.mul 1 sh + c_position sh r | _, _ => 0 end.
Fixpoint f_position (shape idx : list Z) : Z :=
  match shape, idx with n :: sh, i :: r => i + n * f_position sh r | _, _ => 0 end.
Fixpoint unsigned_le (l : bytes) : Z := match l with [] => 0 | c :: r => code c + 256 * unsigned_le r end.
Definition unsigned (o : ascii) (l : bytes) : Z := unsigned_le (if Ascii.eqb o ">" then rev l else l).
Definition signed (o : ascii) (l : bytes) : Z :=
  let u := unsigned o l in
  if u <? 2 ^ (8 * Z.of_nat (length l) - 1) then u else u - 2 ^ (8 * Z.of_nat (length l)).
(** Integers are decoded; floating-point numbers are given by their bit pattern. *)
Definition decode (o k : ascii) (l : bytes) : list Z :=
  if Ascii.eqb k "c" then let h := Nat.div2 (length l) in [unsigned o (firstn h l); unsigned o (skipn h l)]
  else if Ascii.eqb k "i" then [signed o l]
  else [unsigned o l].
Definition np_item (a : np_array) (idx : list Z) : list Z :=
  let pos := if np_fortran a then f_position (np_shape a) idx else c_position (np_shape a) idx in
  decode (np_order a) (np_kind a) (firstn (Z.to_nat (np_size a)) (skipn (Z.to_nat (pos * np_size a)) (np_data a))).

(** The NumPy kind of an element type, and the values of the type. *)
Definition kind_of (t : ctype) : ascii :=
  match t with CBool => "b" | CByte => "V" | CSigned _ => "i" | CUnsigned _ => "u" | CFloat _ => "f" | CComplex _ => "c" end.
Definition bits (n : nat) (x : Z) : Prop := 0 <= x < 2 ^ (8 * Z.of_nat n).
Definition has_type (t : ctype) (v : list Z) : Prop :=
  match t, v with
  | CBool, [x] => x = 0 \/ x = 1
  | CByte, [x] => bits 1 x
  | CSigned n, [x] => - 2 ^ (8 * Z.of_nat n - 1) <= x < 2 ^ (8 * Z.of_nat n - 1)
  | (CUnsigned n | CFloat n), [x] => bits n x
  | CComplex n, [x; y] => bits n x /\ bits n y
  | _, _ => False
  end.

(** Sizes of element types, memory made of values of the type, index of an element along each
    dimension (from the front of the domain). *)
Definition ctype_ok (t : ctype) : Prop :=
  match t with CBool | CByte => True | CSigned n | CUnsigned n | CFloat n | CComplex n => (0 < n <= 16)%nat end.
Definition index_of (d : domain) (e : tagged) (idx : list Z) : Prop :=
  Forall2 (fun p i => val_of e (fst p) (fst (snd p) + i)) d idx.
