(** Model of src/ddc/print.hpp and src/ddc/print.cpp. *)
From Coq Require Export Ascii String.
From Verif Require Export ParModel NpyModel.
Open Scope list_scope.
Open Scope Z_scope.

(** print.hpp:26-32 [PrinterOptions] and its default member initialisers. *)
Record options := mk_options { threshold : Z; edgeitems : Z }.
(** See print.hpp:26-32. *)
Definition default_options : options := mk_options 10 3.
(** print.cpp:110: the test made by set_print_options. *)
Definition accepted (o : options) : bool := edgeitems o <? threshold o / 2.
(** print.cpp:100-119 [set_print_options] when no other thread runs: (new m_options, returned value).
    The message on cerr is not modelled. *)
Definition set_print_options (o current : options) : options * options := ((if accepted o then o else current), current).
(** print.cpp:121-125 [get_print_options] *)
Definition get_print_options (current : options) : options := current.
(** print.hpp:433: the options that print_full installs. *)
Definition full_options : options := mk_options (2 ^ 64 - 1) 1.

(** What is sent to the stream: characters, and elements preceded by [pad] spaces. *)
Inductive piece (V : Type) := Txt (s : bytes) | Elt (pad : Z) (v : V).
Arguments Txt {V}. Arguments Elt {V}.
(** Auxiliary: the character [\n]. *)
Definition newline : ascii := byte 10.
(** The characters written, [show] being the effect of [os << elem] under the format of the stream. *)
Definition flatten {V} (show : V -> bytes) (l : list (piece V)) : bytes :=
  flat_map (fun p => match p with Txt s => s | Elt pad v => repeat " "%char (Z.to_nat pad) ++ show v end) l.

(** The values of a loop [for (size_t i0 = beginning; i0 < end; ++i0)]. *)
Definition loop (beginning end_ : Z) : list Z := map (fun k => beginning + Z.of_nat k) (seq 0 (Z.to_nat (end_ - beginning))).
(** Auxiliary: the concatenation of the results of [f]. *)
Definition concat_res {A B} (f : A -> res (list B)) (l : list A) : res (list B) :=
  rbind (map_res f l) (fun r => Ok (concat r)).

Section Printing.
Context {V : Type} (show : V -> bytes) (opts : options).

(** print.hpp:74-80 [get_element_width]: the position in m_ss after writing the element from 0. *)
Definition get_element_width (v : V) : Z := Z.of_nat (length (show v)).
(** print.hpp:85-94 [display_aligned_element]: the subtraction of size_t wraps. *)
Definition display_aligned_element (v : V) (largest : Z) : list (piece V) := [Elt (u64_sub largest (get_element_width v)) v].
(** print.cpp:39-45 [align] *)
Definition align (level : nat) : piece V := Txt (repeat " "%char (S level)).
(** print.hpp:138-140: a loop of sizeof...(Is) newlines. *)
Definition newlines (n : nat) : piece V := Txt (repeat newline n).

(** print.hpp:99-115 [base_case_display] *)
Definition base_case_display (m : memory V) (md : mdspan) (largest beginning end_ extent : Z) : res (list (piece V)) :=
  concat_res (fun i0 => rbind (md_access md [i0]) (fun a =>
    Ok (display_aligned_element (m a) largest ++ if i0 <? u64_sub extent 1 then [Txt (text " ")] else [])))
  (loop beginning end_).
(** print.hpp:120-146 [recursive_display]; [print_sub] is the recursive call of print_impl. *)
Definition recursive_display (print_sub : mdspan -> nat -> res (list (piece V))) (md : mdspan) (rank : nat) (level : nat)
    (beginning end_ : Z) : res (list (piece V)) :=
  concat_res (fun i0 => rbind (submdspan md (Fixed i0 :: repeat Full rank)) (fun sub =>
    rbind (print_sub sub (S level)) (fun out =>
    Ok (out ++ if i0 <? u64_sub end_ 1 then [newlines rank; align level] else []))))
  (loop beginning end_).
(** print.hpp:152-237 [print_impl] by rank. *)
Fixpoint print_impl (m : memory V) (rank : nat) (md : mdspan) (level : nat) (largest : Z) {struct rank} : res (list (piece V)) :=
  match rank with
  | O => Ok [Elt 0 (m (m_ptr md))]
  | S O =>
      let extent := nth 0 (m_ext md) 0 in
      if extent <? threshold opts then
        rbind (base_case_display m md largest 0 extent extent) (fun a => Ok ([Txt (text "[")] ++ a ++ [Txt (text "]")]))
      else
        rbind (base_case_display m md largest 0 (edgeitems opts) extent) (fun a =>
        rbind (base_case_display m md largest (u64_sub extent (edgeitems opts)) extent extent) (fun b =>
        Ok ([Txt (text "[")] ++ a ++ [Txt (text "... ")] ++ b ++ [Txt (text "]")])))
  | S ((S _) as rank') =>
      let extent := nth 0 (m_ext md) 0 in
      let rec_ := fun sub lev => print_impl m rank' sub lev largest in
      if extent <? threshold opts then
        rbind (recursive_display rec_ md rank' level 0 extent) (fun a => Ok ([Txt (text "[")] ++ a ++ [Txt (text "]")]))
      else
        rbind (recursive_display rec_ md rank' level 0 (edgeitems opts)) (fun a =>
        rbind (recursive_display rec_ md rank' level (u64_sub extent (edgeitems opts)) extent) (fun b =>
        Ok ([Txt (text "[")] ++ a ++ [newlines rank'; align level; Txt (text "..."); newlines rank'; align level] ++ b ++ [Txt (text "]")])))
  end.

(** Auxiliary: iterated [std::max] from 0. *)
Definition max_list (l : list Z) : Z := fold_left Z.max l 0.
(** print.hpp:239-304 [find_largest_displayed_element] *)
Fixpoint find_largest (m : memory V) (rank : nat) (md : mdspan) {struct rank} : res Z :=
  match rank with
  | O => Ok 0
  | S O =>
      let extent := nth 0 (m_ext md) 0 in
      let width := fun i0 => rbind (md_access md [i0]) (fun a => Ok (get_element_width (m a))) in
      if extent <? threshold opts then rbind (map_res width (loop 0 extent)) (fun l => Ok (max_list l))
      else rbind (map_res width (loop 0 (edgeitems opts))) (fun l1 =>
           rbind (map_res width (loop (u64_sub extent (edgeitems opts)) extent)) (fun l2 => Ok (max_list (l1 ++ l2))))
  | S ((S _) as rank') =>
      let extent := nth 0 (m_ext md) 0 in
      let width := fun i0 => rbind (submdspan md (Fixed i0 :: repeat Full rank')) (find_largest m rank') in
      if extent <? threshold opts then rbind (map_res width (loop 0 extent)) (fun l => Ok (max_list l))
      else rbind (map_res width (loop 0 (edgeitems opts))) (fun l1 =>
           rbind (map_res width (loop (u64_sub extent (edgeitems opts)) extent)) (fun l2 => Ok (max_list (l1 ++ l2))))
  end.

(** print.hpp:370-379: measure, then print.  The format of the stream is fixed; a field width set
    on the stream beforehand is not modelled. *)
Definition print_array (m : memory V) (md : mdspan) : res (list (piece V)) :=
  rbind (find_largest m (length (m_ext md)) md) (fun largest => print_impl m (length (m_ext md)) md 0 largest).
(** print.hpp:349-382 [print_content] *)
Definition print_content (host : bool) (src : span) (fresh1 fresh2 : Z) (g1 g2 g3 g4 : list Z) (s1 s2 : list nat) (m : memory V) : res (list (piece V)) :=
  rbind (create_layout_right_view_and_copy src fresh1 g1 g2 s1 m) (fun r1 =>
  rbind (create_mirror_view_and_copy host (fst r1) fresh2 g3 g4 s2 (snd r1)) (fun r2 =>
  print_array (snd r2) (s_md (fst r2)))).

(** print.cpp:72-96 [print_single_dim_name], [print_dim_name]; [name] is the demangled name of a
    dimension.  The sign in the text of the size is not modelled: extents are not negative. *)
Definition print_single_dim_name (name : tag -> bytes) (q : tag) (size : Z) : bytes := name q ++ text "(" ++ to_string size ++ text ")".
(** The character written at print.cpp:92, in UTF-8. *)
Definition times_sign : bytes := [byte 195; byte 151].
(** See print.cpp:72-96. *)
Fixpoint print_more_dims (name : tag -> bytes) (ds : list (tag * Z)) : bytes :=
  match ds with [] => [] | (q, n) :: r => times_sign ++ print_single_dim_name name q n ++ print_more_dims name r end.
(** See print.cpp:72-96. *)
Definition print_dim_name (name : tag -> bytes) (ds : list (tag * Z)) : bytes :=
  match ds with [] => text "Scalar" | (q, n) :: r => print_single_dim_name name q n ++ print_more_dims name r end.
(** print.hpp:387-401 [print_type_info]; [tname] is the demangled type of the span. *)
Definition print_type_info (name : tag -> bytes) (tname : bytes) (src : span) : res bytes :=
  rbind (extents (s_dom src)) (fun ex => Ok (print_dim_name name ex ++ [newline] ++ tname ++ [newline])).
(** print.hpp:406-418 [print], and operator<< 443-449 *)
Definition print (name : tag -> bytes) (tname : bytes) (host : bool) (src : span) (fresh1 fresh2 : Z) (g1 g2 g3 g4 : list Z) (s1 s2 : list nat)
    (m : memory V) : res (list (piece V)) :=
  rbind (print_type_info name tname src) (fun a => rbind (print_content host src fresh1 fresh2 g1 g2 g3 g4 s1 s2 m) (fun b => Ok (Txt a :: b))).
End Printing.

(** print.hpp:424-441 [print_full]: the text and the options left behind.  If printing throws, the
    options are not restored: not modelled. *)
Definition print_full {V} (show : V -> bytes) (current : options) (name : tag -> bytes) (tname : bytes) (host : bool) (src : span)
    (fresh1 fresh2 : Z) (g1 g2 g3 g4 : list Z) (s1 s2 : list nat) (m : memory V) : res (list (piece V) * options) :=
  let r := set_print_options full_options current in
  rbind (print show (fst r) name tname host src fresh1 fresh2 g1 g2 g3 g4 s1 s2 m) (fun out =>
  Ok (out, fst (set_print_options (snd r) (fst r)))).

(** ** Threads *)
(** The shared object is the ChunkPrinter: m_options (two words) and m_global_lock, a
    std::recursive_mutex (print.hpp:46).  A thread is a sequence of accesses to them.  Copying
    m_options without the lock (print.cpp:104, 124) is two separate reads: it is a data race, of
    which only the interleaving of the two words is modelled. *)
Inductive event := Returned (o : options) (* by set_print_options or get_print_options *) | Shown (full : bool) (o : options) (* text written under these options *).
(** A thread: its accesses to the lock and to the options. *)
Inductive thread :=
| Done
| Acquire (k : thread) | Release (k : thread)
| GetT (k : Z -> thread) | GetE (k : Z -> thread)
| PutT (z : Z) (k : thread) | PutE (z : Z) (k : thread)
| Emit (e : event) (k : thread).
(** print.cpp:100-119 [set_print_options] *)
Definition t_set (o : options) (k : options -> thread) : thread :=
  GetT (fun t => GetE (fun e => Acquire
    (if accepted o then PutT (threshold o) (PutE (edgeitems o) (Release (k (mk_options t e)))) else Release (k (mk_options t e))))).
(** print.cpp:121-125 [get_print_options] *)
Definition t_get (k : options -> thread) : thread := GetT (fun t => GetE (fun e => k (mk_options t e))).
(** print.hpp:387-401 [print_type_info] takes the lock; print.hpp:349-382 [print_content] takes it
    and reads the options while it prints. *)
Definition t_print_type_info (k : thread) : thread := Acquire (Release k).
(** See print.hpp:387-401, 349-382. *)
Definition t_print_content (full : bool) (k : thread) : thread :=
  Acquire (GetT (fun t => GetE (fun e => Emit (Shown full (mk_options t e)) (Release k)))).
(** print.hpp:406-418 [print] *)
Definition t_print (k : thread) : thread := Acquire (t_print_type_info (t_print_content false (Release k))).
(** print.hpp:424-441 [print_full] *)
Definition t_print_full (k : thread) : thread :=
  Acquire (t_set full_options (fun old => t_print_type_info (t_print_content true (t_set old (fun _ => Release k))))).
(** The calls a thread makes. *)
Inductive call := CSet (o : options) | CGet | CPrint | CPrintFull.
(** Auxiliary: a thread makes a sequence of calls. *)
Fixpoint run_calls (cs : list call) : thread :=
  match cs with
  | [] => Done
  | CSet o :: r => t_set o (fun old => Emit (Returned old) (run_calls r))
  | CGet :: r => t_get (fun o => Emit (Returned o) (run_calls r))
  | CPrint :: r => t_print (run_calls r)
  | CPrintFull :: r => t_print_full (run_calls r)
  end.

Record printer := mk_printer { p_options : options; p_lock : option (nat * nat) (* owner, depth *); p_threads : list thread; p_log : list (nat * event) }.
(** Auxiliary: the initial state. *)
Definition start (o : options) (ts : list (list call)) : printer := mk_printer o None (map run_calls ts) [].
(** Auxiliary: assignment of one element of an array. *)
Fixpoint set_nth {A} (i : nat) (x : A) (l : list A) : list A :=
  match l, i with [], _ => [] | _ :: r, O => x :: r | y :: r, S i' => y :: set_nth i' x r end.
(** One access by thread [i]; None if it is finished or waits for the lock. *)
Definition p_step (i : nat) (s : printer) : option printer :=
  match nth_error (p_threads s) i with
  | None => None
  | Some t =>
      let upd := fun o l k g => Some (mk_printer o l (set_nth i k (p_threads s)) g) in
      let o := p_options s in
      match t with
      | Done => None
      | Acquire k =>
          match p_lock s with
          | None => upd o (Some (i, 1%nat)) k (p_log s)
          | Some (j, d) => if Nat.eqb j i then upd o (Some (i, S d)) k (p_log s) else None
          end
      | Release k =>
          match p_lock s with
          | Some (j, S (S d)) => upd o (Some (j, S d)) k (p_log s)
          | _ => upd o None k (p_log s)
          end
      | GetT k => upd o (p_lock s) (k (threshold o)) (p_log s)
      | GetE k => upd o (p_lock s) (k (edgeitems o)) (p_log s)
      | PutT z k => upd (mk_options z (edgeitems o)) (p_lock s) k (p_log s)
      | PutE z k => upd (mk_options (threshold o) z) (p_lock s) k (p_log s)
      | Emit e k => upd o (p_lock s) k (p_log s ++ [(i, e)])
      end
  end.
(** An execution: the thread that runs at each step; a thread that cannot run does nothing. *)
Fixpoint p_run (sched : list nat) (s : printer) : printer :=
  match sched with [] => s | i :: r => p_run r (match p_step i s with Some s' => s' | None => s end) end.
