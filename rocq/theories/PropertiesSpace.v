(** C21: properties of discrete spaces. *)
From Verif Require Import SpaceModel SpaceSpec SpaceProofs.

(** Every call of every disciplined history answers as told by the history alone; in particular no call
    is undefined, and the state at the end is what the history says. *)
Theorem C21_history : forall (A name : Type) (name_eqb : name -> name -> bool) (name_of : nat -> name),
  (forall a b, name_eqb a b = true <-> a = b) -> (forall a b, name_of a = name_of b -> a = b) ->
  forall h : list (event A), disciplined h ->
  exists l s, run name_eqb name_of start h = Ok (l, s) /\ length l = length h /\
    (forall p e q, h = p ++ e :: q -> nth_error l (length p) = Some (expected p e)) /\
    (forall d, is_discrete_space_initialized s d = true <-> attributes d h <> None) /\
    (forall d a, discrete_space s d = Ok (Attributes a, s) <-> attributes d h = Some a).
Proof. exact (fun A name e n H1 H2 => @history_exact A name e n H1 H2). Qed.
Print Assumptions C21_history.
Theorem C21_first_wins : forall (A : Type) d (a : A) p q, (forall b, ~ In (Init d (Some b)) p) -> ~ In End q ->
  forall o, attributes d (o ++ End :: p ++ Init d (Some a) :: q) = Some a.
Proof. exact (fun A => @first_wins A). Qed.
Print Assumptions C21_first_wins.
Theorem C21_end_clears : forall (A : Type) (h : list (event A)) d, attributes d (h ++ [End]) = None.
Proof. exact (fun A => @end_clears A). Qed.
Print Assumptions C21_end_clears.
Example C21_ex :
  disciplined [Begin; Init 1%nat (Some 10); Init 1%nat (Some 11); Read 1%nat; End; Ask 1%nat; Begin; Init 1%nat (Some 12); Read 1%nat; End] /\
  match run Nat.eqb (fun d => d) start [Begin; Init 1%nat (Some 10); Init 1%nat (Some 11); Read 1%nat; End; Ask 1%nat; Begin; Init 1%nat (Some 12); Read 1%nat; End] with
  | Ok (l, _) => l = [Done; Done; Threw; Attributes 10; Done; Says false; Done; Done; Attributes 12; Done]
  | _ => False
  end.
Proof.
  split; [|reflexivity]. intros p e q H.
  do 10 (destruct p as [|? p]; [injection H as <- _; cbn; first [reflexivity | exact I | discriminate] | injection H as <- H]).
  destruct p; discriminate.
Qed.
Theorem C21_pass_through : forall (B : Type) (dflt x : B) rest, extract_after dflt rest (x :: rest) = rest.
Proof. exact (fun B => @extract_after_ok B). Qed.
Print Assumptions C21_pass_through.
Example C21_pass_through_ex : extract_after 0 [5; 6; 7] [4; 5; 6; 7] = [5; 6; 7].
Proof. reflexivity. Qed.
(** The names must be distinct, guards must not nest, and initialisation needs a guard. *)
Theorem C21_same_name_refuted : exists l s,
  run Nat.eqb (fun _ => O) start [Begin; Init 1%nat (Some 10); Init 2%nat (Some 20); End; Begin; Init 2%nat (Some 30)] = Ok (l, s) /\
  nth_error l 5 = Some Threw /\ discrete_space s 2%nat = Ok (Attributes 20, s).
Proof. exact same_name_survives. Qed.
Print Assumptions C21_same_name_refuted.
Theorem C21_nested_guards_refuted : run (A := Z) Nat.eqb (fun d => d) start [Begin; Begin; End; End] = Undef.
Proof. exact nested_undefined. Qed.
Print Assumptions C21_nested_guards_refuted.
Theorem C21_nested_leftover_refuted : exists l s,
  run Nat.eqb (fun d => d) start [Begin; Init 1%nat (Some 10); Begin; End] = Ok (l, s) /\
  is_discrete_space_initialized s 1%nat = true.
Proof. exact nested_survives. Qed.
Print Assumptions C21_nested_leftover_refuted.
Theorem C21_unguarded_refuted : forall d (a : Z), run Nat.eqb (fun d => d) start [Init d (Some a)] = Undef.
Proof. exact unguarded_undefined. Qed.
Print Assumptions C21_unguarded_refuted.
