(** What a user expects of discrete spaces, told from the history of calls alone. *)
From Verif Require Import SpaceModel.

Section Spec.
Context {A : Type}.
(** Is a guard alive after the history (most recent event last)? *)
Fixpoint guarded_from (g : bool) (h : list (event A)) : bool :=
  match h with
  | [] => g
  | Begin :: h' => guarded_from true h'
  | End :: h' => guarded_from false h'
  | _ :: h' => guarded_from g h'
  end.
(** Attributes of dimension [d] after the history: those of the first initialisation that
    did not fail since the last end of a guard. *)
Fixpoint attributes_from (v : option A) (d : nat) (h : list (event A)) : option A :=
  match h with
  | [] => v
  | End :: h' => attributes_from None d h'
  | Init d' (Some a) :: h' =>
      if Nat.eqb d d' then match v with
                           | Some b => attributes_from (Some b) d h'
                           | None => attributes_from (Some a) d h'
                           end
      else attributes_from v d h'
  | _ :: h' => attributes_from v d h'
  end.
Definition guarded (h : list (event A)) : bool := guarded_from false h.
Definition attributes (d : nat) (h : list (event A)) : option A := attributes_from None d h.

(** The next call is allowed: at most one guard at a time, initialisations under a guard only,
    reads of initialised spaces only. *)
Definition allowed (h : list (event A)) (e : event A) : Prop :=
  match e with
  | Begin => guarded h = false
  | End => guarded h = true
  | Init _ _ => guarded h = true
  | Ask _ => True
  | Read d => attributes d h <> None
  end.
(** The answer expected from the call. *)
Definition expected (h : list (event A)) (e : event A) : answer A :=
  match e with
  | Begin | End => Done
  | Init d None => Threw
  | Init d (Some a) => match attributes d h with Some _ => Threw | None => Done end
  | Ask d => Says (match attributes d h with Some _ => true | None => false end)
  | Read d => match attributes d h with Some a => Attributes a | None => Threw end
  end.
Definition disciplined (h : list (event A)) : Prop :=
  forall p e q, h = p ++ e :: q -> allowed p e.
End Spec.
