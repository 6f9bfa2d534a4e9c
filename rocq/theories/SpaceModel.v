(** Model of src/ddc/discrete_space.hpp and src/ddc/scope_guard.cpp (host build). *)
From Verif Require Export Machine.

Section Space.
(** Attributes of a discrete space (the Impl object held by DualDiscretization,
    detail/dual_discretization.hpp:22-81; without device there is only m_host), and the strings
    typeid(DDim).name(). *)
Context {A name : Type}.
Variable name_eqb : name -> name -> bool.
Variable name_of : nat -> name.

(** discrete_space.hpp:94: g_discretization_store, a map from names to resetters; a resetter is
    known by the dimension it resets.  The order of the map (by name) is not modelled: resetting
    commutes.  discrete_space.hpp:98: g_discrete_space_dual<DDim>. *)
Record state := mk_state { store : option (list (name * nat)); dual : nat -> option A }.
(** Auxiliary: the initial state. *)
Definition start : state := mk_state None (fun _ => None).
(** Auxiliary: update of one dimension. *)
Definition set_dual (f : nat -> option A) (d : nat) (v : option A) : nat -> option A :=
  fun x => if Nat.eqb x d then v else f x.

(** What a call shows to its caller. *)
Inductive answer := Done | Threw | Says (b : bool) | Attributes (a : A).

(** std::map::emplace: nothing happens if the key is present. *)
Definition map_emplace (m : list (name * nat)) (k : name) (d : nat) : list (name * nat) :=
  if existsb (fun p => name_eqb (fst p) k) m then m else m ++ [(k, d)].

(** discrete_space.hpp:131-161.  [c] is what the constructor of the attributes does on the given
    arguments: an object, or an exception ([None]; std::optional::emplace then leaves it empty).
    Dereferencing an empty g_discretization_store is undefined. *)
Definition init_discrete_space (s : state) (d : nat) (c : option A) : res (answer * state) :=
  match dual s d with
  | Some _ => Ok (Threw, s)
  | None =>
      match c with
      | None => Ok (Threw, s)
      | Some a =>
          let f := set_dual (dual s) d (Some a) in
          match store s with
          | None => Undef
          | Some m => Ok (Done, mk_state (Some (map_emplace m (name_of d) d)) f)
          end
      end
  end.
(** discrete_space.hpp:192-196 *)
Definition is_discrete_space_initialized (s : state) (d : nat) : bool :=
  match dual s d with Some _ => true | None => false end.
(** discrete_space.hpp:204-224 (host) and 226-232; undefined (assertion) if not initialised. *)
Definition discrete_space (s : state) (d : nat) : res (answer * state) :=
  match dual s d with Some a => Ok (Attributes a, s) | None => Undef end.
(** scope_guard.cpp:16-31 *)
Definition guard_ctor (s : state) : res (answer * state) := Ok (Done, mk_state (Some []) (dual s)).
(** scope_guard.cpp:33-39 *)
Definition guard_dtor (s : state) : res (answer * state) :=
  match store s with
  | None => Undef
  | Some m => Ok (Done, mk_state None (fold_left (fun f p => set_dual f (snd p) None) m (dual s)))
  end.

(** A history is a list of calls to the library. *)
Inductive event :=
| Begin                       (* ScopeGuard g; *)
| End                         (* end of the lifetime of the guard *)
| Init (d : nat) (c : option A) (* init_discrete_space<d>(args) *)
| Ask (d : nat)               (* is_discrete_space_initialized<d>() *)
| Read (d : nat).             (* discrete_space<d>() or host_discrete_space<d>() *)

Definition step (s : state) (e : event) : res (answer * state) :=
  match e with
  | Begin => guard_ctor s
  | End => guard_dtor s
  | Init d c => init_discrete_space s d c
  | Ask d => Ok (Says (is_discrete_space_initialized s d), s)
  | Read d => discrete_space s d
  end.
(** Auxiliary: the calls of a history, in order, with their answers. *)
Fixpoint run (s : state) (h : list event) : res (list answer * state) :=
  match h with
  | [] => Ok ([], s)
  | e :: h' => rbind (step s e) (fun r => rbind (run (snd r) h') (fun r' => Ok (fst r :: fst r', snd r')))
  end.

(** discrete_space.hpp:119-123 (extract_after) and 168-185: the tuple is the attributes followed by
    the values to pass through; the answer of the initialisation, the remaining values. *)
Definition extract_after {B} (dflt : B) (rest : list B) (whole : list B) : list B :=
  map (fun i => nth (i + 1) whole dflt) (seq 0 (length rest)).
End Space.
Arguments state : clear implicits.
Arguments event : clear implicits.
Arguments answer : clear implicits.
