(** C24, C25, C26: printing. *)
From Coq Require Import Ascii String.
From Verif Require Import Machine TaggedModel TaggedSpec DomainModel DomainSpec SpanModel SpanSpec ParModel ParSpec NpyModel NpySpec PrintModel PrintSpec PrintProofs2 PrintThreads.
Open Scope list_scope.
Open Scope char_scope.
Open Scope Z_scope.

(** * C24 *)
Theorem C24_history : forall rs, Forall is_options rs -> let final := fold_left (fun cur r => fst (set_print_options r cur)) rs default_options in
  valid final /\ final = last_valid default_options rs /\
  forall r, snd (set_print_options r final) = final /\ (threshold r / 2 <= edgeitems r -> fst (set_print_options r final) = final).
Proof. exact (fun rs H => history_ok rs default_options (conj (conj (Zle_bool_imp_le 0 3 eq_refl) eq_refl) eq_refl) H). Qed.
Print Assumptions C24_history.
Example C24_ex : fold_left (fun cur r => fst (set_print_options r cur)) [mk_options 7 2; mk_options 7 3; mk_options 1 0] default_options = mk_options 7 2.
Proof. reflexivity. Qed.
Theorem C24_ends_disjoint : forall o n, valid o -> threshold o <= n ->
  (forall i, ~ (i < edgeitems o /\ n - edgeitems o <= i)) /\ exists i, 0 <= i < n /\ visible1 o n i = false.
Proof. exact truncation_disjoint. Qed.
Print Assumptions C24_ends_disjoint.

(** * C25 *)
Theorem C25_content : forall V (show : V -> bytes) o host src fresh1 fresh2 g1 g2 g3 g4 (m : memory V),
  valid o -> (forall v, Z.of_nat (length (show v)) < 2 ^ 64) -> span_wf src -> box_count (s_dom src) < 2 ^ 64 ->
  fresh_for src fresh1 -> fresh_for src fresh2 -> (fresh1 + box_count (s_dom src) <= fresh2 \/ fresh2 + box_count (s_dom src) <= fresh1) ->
  room src g1 -> room src g2 -> room src g3 -> room src g4 ->
  (exists s1 s2 out, print_content show o host src fresh1 fresh2 g1 g2 g3 g4 s1 s2 m = Ok out) /\
  forall s1 s2 out, print_content show o host src fresh1 fresh2 g1 g2 g3 g4 s1 s2 m = Ok out ->
  exists f, (forall e idx, in_box (s_dom src) e -> index_of (s_dom src) e idx -> span_read m src [e] = Ok (f idx)) /\
    marks out = picture o (map (fun p => snd (snd p) - fst (snd p)) (s_dom src)) f /\
    map snd (elements out) = map f (filter (visible o (map (fun p => snd (snd p) - fst (snd p)) (s_dom src)))
                                           (all_indices (map (fun p => snd (snd p) - fst (snd p)) (s_dom src)))) /\
    same_width show (elements out) /\ separated out.
Proof. exact (@print_content_ok). Qed.
Print Assumptions C25_content.
(** print adds the dimensions, separated by multiplication signs (bytes 195 151), and the type in front. *)
Theorem C25_print : forall V (show : V -> bytes) o name tname host src fresh1 fresh2 g1 g2 g3 g4 s1 s2 (m : memory V) out, span_wf src ->
  print show o name tname host src fresh1 fresh2 g1 g2 g3 g4 s1 s2 m = Ok out <->
  exists content, print_content show o host src fresh1 fresh2 g1 g2 g3 g4 s1 s2 m = Ok content /\
    out = Txt ((match s_dom src with [] => text "Scalar" | d => join [byte 195; byte 151] (map (fun p => name (fst p) ++ text "(" ++ to_string (snd (snd p) - fst (snd p)) ++ text ")") d) end)
               ++ [newline] ++ tname ++ [newline]) :: content.
Proof. exact (@print_ok). Qed.
Print Assumptions C25_print.
Theorem C25_full : forall V (show : V -> bytes) cur name tname host src fresh1 fresh2 g1 g2 g3 g4 (m : memory V),
  valid cur -> (forall v, Z.of_nat (length (show v)) < 2 ^ 64) -> span_wf src -> box_count (s_dom src) < 2 ^ 64 ->
  fresh_for src fresh1 -> fresh_for src fresh2 -> (fresh1 + box_count (s_dom src) <= fresh2 \/ fresh2 + box_count (s_dom src) <= fresh1) ->
  room src g1 -> room src g2 -> room src g3 -> room src g4 ->
  (exists s1 s2 r, print_full show cur name tname host src fresh1 fresh2 g1 g2 g3 g4 s1 s2 m = Ok r) /\
  forall s1 s2 out left, print_full show cur name tname host src fresh1 fresh2 g1 g2 g3 g4 s1 s2 m = Ok (out, left) ->
  left = cur /\ exists header content f, out = Txt header :: content /\
    (forall e idx, in_box (s_dom src) e -> index_of (s_dom src) e idx -> span_read m src [e] = Ok (f idx)) /\
    map snd (elements content) = map f (all_indices (map (fun p => snd (snd p) - fst (snd p)) (s_dom src))) /\ ~ In Dots (marks content).
Proof. exact (@print_full_ok). Qed.
Print Assumptions C25_full.
(** A 2 x 5 array under threshold 4, edgeitems 1. *)
Example C25_ex :
  match print_array to_string (mk_options 4 1) (fun a => a * a) (mk_mdspan 6 LRight [2; 5]) with
  | Ok out => flatten to_string out = text "[[ 36 ... 100]" ++ [newline] ++ text " [121 ... 225]]"
  | _ => False
  end.
Proof. vm_compute. reflexivity. Qed.
(** The hypotheses on the memory are those of C22; this is a 2 x 3 column-major chunk. *)
Definition left_2x3 : span := mk_span (mk_mdspan 100 LLeft [2; 3]) [(1%nat, (0, 2)); (2%nat, (5, 8))].
Example C25_content_ex :
  match print_content to_string (mk_options 4 1) false left_2x3 300 400 [0; 0; 0; 0] [0; 0; 0; 0] [0; 0; 0; 0] [0; 0; 0; 0]
    [0; 0; 1; 1; 2; 2; 3; 4; 5; 3; 4; 5]%nat [5; 5; 4; 4; 0; 0; 1; 1; 2; 2; 3; 3]%nat (fun a => a - 96) with
  | Ok out => flatten to_string out = text "[[4 6 8]" ++ [newline] ++ text " [5 7 9]]"
  | _ => False
  end.
Proof. vm_compute. reflexivity. Qed.

(** * C26 *)
(** Any number of threads, any schedule: when all calls have returned the options are the initial
    ones or were requested; what print shows follows such options and print_full its own; nobody
    waits forever. *)
Theorem C26_options_kept : forall init ts sched, accepted init = true -> let s := p_run sched (start init ts) in
  (finished s -> p_lock s = None /\ legitimate init ts (p_options s)) /\
  (forall i full o, In (i, Shown full o) (p_log s) -> if full then o = mk_options (2 ^ 64 - 1) 1 else accepted o = true /\ legitimate init ts o) /\
  (finished s \/ exists i s', p_step i s = Some s').
Proof. exact threads_ok. Qed.
Print Assumptions C26_options_kept.
Definition two_threads : list (list call) := [[CPrintFull; CPrint]; [CSet (mk_options 20 4); CGet]].
Example C26_ex : accepted default_options = true /\
  let s := p_run (repeat 0%nat 9 ++ repeat 1%nat 8 ++ repeat 0%nat 30 ++ repeat 1%nat 20 ++ repeat 0%nat 20) (start default_options two_threads) in
  finished s /\ p_options s = mk_options 20 4 /\ length (p_log s) = 4%nat.
Proof. vm_compute. repeat split; repeat constructor. Qed.
(** set_print_options reads the value it returns before it takes the lock: it can return the
    temporary options of a concurrent print_full. *)
Theorem C26_returns_temporary_refuted : exists sched,
  let s := p_run sched (start default_options [[CPrintFull]; [CSet (mk_options 20 4)]]) in
  finished s /\ In (1%nat, Returned (mk_options (2 ^ 64 - 1) 1)) (p_log s).
Proof. exact returns_temporary. Qed.
Print Assumptions C26_returns_temporary_refuted.
(** get_print_options reads the two options without the lock: it can return a mixture of two
    settings, here one that is not valid. *)
Theorem C26_torn_read_refuted : exists sched o,
  let s := p_run sched (start default_options [[CSet (mk_options 4 1)]; [CGet]]) in
  finished s /\ In (1%nat, Returned o) (p_log s) /\ ~ valid o /\ ~ legitimate default_options [[CSet (mk_options 4 1)]; [CGet]] o.
Proof. exact torn_read. Qed.
Print Assumptions C26_torn_read_refuted.
