(** What printing must show, written without reference to how print.hpp does it. *)
From Coq Require Import Ascii String.
From Verif Require Import TaggedSpec DomainModel NpyModel PrintModel.
Open Scope list_scope.
Open Scope Z_scope.

(** Options are usable if the two ends that are kept are shorter than half of the threshold. *)
Definition valid (o : options) : Prop := 0 <= edgeitems o < threshold o / 2 /\ threshold o < 2 ^ 64.
Definition is_options (o : options) : Prop := 0 <= edgeitems o < 2 ^ 64 /\ 0 <= threshold o < 2 ^ 64.
(** Options in force after requests in sequence: the last valid one. *)
Fixpoint last_valid (o : options) (requests : list options) : options :=
  match requests with [] => o | r :: rest => last_valid (if edgeitems r <? threshold r / 2 then r else o) rest end.

(** The index tuples of an array, in row-major order. *)
Definition upto (n : Z) : list Z := map Z.of_nat (seq 0 (Z.to_nat n)).
Fixpoint all_indices (ext : list Z) : list (list Z) :=
  match ext with [] => [[]] | n :: r => flat_map (fun i => map (cons i) (all_indices r)) (upto n) end.
(** Is the entry i of a dimension of extent n shown? *)
Definition visible1 (o : options) (n i : Z) : bool :=
  (n <? threshold o) || (i <? edgeitems o) || (n - edgeitems o <=? i).
Fixpoint visible (o : options) (ext idx : list Z) : bool :=
  match ext, idx with n :: r, i :: is => visible1 o n i && visible o r is | _, _ => true end.

(** The picture of an array: brackets around each dimension, dots where entries are left out. *)
Inductive mark (V : Type) := Open | Close | Dots | Val (v : V) | Other (c : ascii).
Arguments Open {V}. Arguments Close {V}. Arguments Dots {V}. Arguments Val {V}. Arguments Other {V}.
Fixpoint picture {V} (o : options) (ext : list Z) (f : list Z -> V) : list (mark V) :=
  match ext with
  | [] => [Val (f [])]
  | n :: r =>
      let entry := fun i => picture o r (fun is => f (i :: is)) in
      [Open] ++
      (if n <? threshold o then flat_map entry (upto n)
       else flat_map entry (filter (fun i => i <? edgeitems o) (upto n)) ++ [Dots] ++
            flat_map entry (filter (fun i => n - edgeitems o <=? i) (upto n))) ++
      [Close]
  end.
Definition values_of {V} (l : list (mark V)) : list V := flat_map (fun x => match x with Val v => [v] | _ => [] end) l.

(** What a reader sees in the output: marks, blanks ignored. *)
Fixpoint see {V} (s : bytes) : list (mark V) :=
  match s with
  | [] => []
  | c :: r =>
      if Ascii.eqb c " " || Ascii.eqb c newline then see r
      else if Ascii.eqb c "[" then Open :: see r
      else if Ascii.eqb c "]" then Close :: see r
      else match r with
           | d :: e :: r' => if Ascii.eqb c "." && Ascii.eqb d "." && Ascii.eqb e "." then Dots :: see r' else Other c :: see r
           | _ => Other c :: see r
           end
  end.
Definition marks {V} (l : list (piece V)) : list (mark V) :=
  flat_map (fun p => match p with Txt s => see s | Elt _ v => [Val v] end) l.
(** Elements never touch each other. *)
Fixpoint separated {V} (l : list (piece V)) : Prop :=
  match l with
  | Elt _ _ :: ((Txt s :: _) as r) => s <> [] /\ separated r
  | Elt _ _ :: Elt _ _ :: _ => False
  | _ :: r => separated r
  | [] => True
  end.
(** All the elements end in columns of the same width, the smallest possible. *)
Definition elements {V} (l : list (piece V)) : list (Z * V) := flat_map (fun p => match p with Elt pad v => [(pad, v)] | _ => [] end) l.
Definition same_width {V} (show : V -> bytes) (l : list (Z * V)) : Prop :=
  exists w, Forall (fun p => 0 <= fst p /\ fst p + Z.of_nat (length (show (snd p))) = w) l /\
            (l = [] \/ exists v, In (0, v) l).

(** "name(size)" joined by a multiplication sign. *)
Fixpoint join (sep : bytes) (l : list bytes) : bytes :=
  match l with [] => [] | [x] => x | x :: r => x ++ sep ++ join sep r end.

(** ** Threads *)
Definition requested (ts : list (list call)) (o : options) : Prop := exists cs, In cs ts /\ In (CSet o) cs.
(** The options come from the initial ones or from a request. *)
Definition legitimate (init : options) (ts : list (list call)) (o : options) : Prop := o = init \/ (requested ts o /\ accepted o = true).
Definition finished (s : printer) : Prop := Forall (fun t => t = Done) (p_threads s).
