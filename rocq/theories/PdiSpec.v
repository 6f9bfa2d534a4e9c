(** Specification: the state of PDI and of the objects owned by the event along a trace of calls.  A
    name of PDI is a stack of shared references: [PDI_share] pushes, [PDI_reclaim] pops. *)
From Coq Require Import String.
From Verif Require Import PdiModel.

Definition store_t := string -> list (ptr * access).
Definition upd (s : store_t) (n : string) (l : list (ptr * access)) : store_t := fun m => if String.eqb m n then l else s m.
Record world := mk_world { shared : store_t; owned : nat -> option meta }.
(** One call; [None]: a reference to an object that does not exist is shared, a name that is not shared is
    reclaimed, an object is released while PDI still holds a reference to it, or created twice. *)
Inductive step : world -> call -> world -> Prop :=
| step_store w k m : owned w k = None ->
    step w (Store k m) (mk_world (shared w) (fun j => if Nat.eqb j k then Some m else owned w j))
| step_share w n p a : (forall k, p = Own k -> owned w k <> None) ->
    step w (PDI_share n p a) (mk_world (upd (shared w) n ((p, a) :: shared w n)) (owned w))
| step_event w n : step w (PDI_event n) w
| step_reclaim w n x l : shared w n = x :: l -> step w (PDI_reclaim n) (mk_world (upd (shared w) n l) (owned w))
| step_release w k : owned w k <> None -> (forall n a, ~ In (Own k, a) (shared w n)) ->
    step w (Release k) (mk_world (shared w) (fun j => if Nat.eqb j k then None else owned w j)).
Inductive steps : world -> list call -> world -> Prop :=
| steps_nil w : steps w [] w
| steps_cons w c w' l w'' : step w c w' -> steps w' l w'' -> steps w (c :: l) w''.
(** The same state, whatever the representation of functions. *)
Definition same_world (v w : world) : Prop := (forall n, shared v n = shared w n) /\ (forall k, owned v k = owned w k).

(** PDI may read the data, or read and write it: [acc_in] is the right to write, [acc_out] to read. *)
Definition read_only : access := mk_access false true.
Definition read_write : access := mk_access true true.
(** What must be shared under each name for one [with]. *)
Inductive content := Copy (m : meta) | At (address : Z).
Definition expected (c : string * option access * data) : list (string * content * access) :=
  match c with
  | (name, a, Chunk x h w) =>
      [(name ++ "_rank", Copy (Scalar (Z.of_nat (length x))), read_only); (name ++ "_extents", Copy (Array x), read_only);
       (name, At h, match a with Some a => a | None => if w then read_write else read_only end)]
  | (name, a, Arithmetic v p w) =>
      let a := match a with Some a => a | None => if w then read_write else read_only end in
      [(name, if acc_in a then At p else Copy (Scalar v), a)]
  | (name, _, CString n p) => [((name ++ "_size")%string, Copy (Scalar n), read_only); (name, At p, read_only)]
  end%string.
(** What is visible in a world under a shared reference. *)
Definition denotes (w : world) (p : ptr) (c : content) : Prop :=
  match c with Copy m => exists k, p = Own k /\ owned w k = Some m | At h => p = User h end.
(** The requests that the library accepts: PDI may write only writable data. *)
Definition acceptable (c : string * option access * data) : Prop :=
  match c with
  | (_, Some a, Chunk _ _ w) | (_, Some a, Arithmetic _ _ w) => acc_in a = true -> w = true
  | (_, None, _) => True
  | (_, Some _, CString _ _) => False
  end.
Definition extents_fit (c : string * option access * data) : Prop :=
  match c with (_, _, Chunk x _ _) => Forall (fun n => 0 <= n < 2 ^ 64) x | _ => True end.
