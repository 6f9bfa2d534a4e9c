From Verif Require Import Machine ChunkMemModel.

(** [x] is alive and owns buffer [p]. *)
Definition owns (w : world) (x p : nat) : Prop := exists c, vars w x = Some c /\ c_ptr c = Some p.
Definition is_live (w : world) (p : nat) : Prop := exists n, In (p, n) (live w).
(** The buffers allocated so far are the numbers below [next]. *)
Definition allocated (w : world) (p : nat) : Prop := (p < next w)%nat.
(** The object [x] is in its lifetime. *)
Definition alive (w : world) (x : nat) : Prop := vars w x <> None.
(** Statements are legal C++: they construct objects not yet alive and use objects that are. *)
Fixpoint legal (alive : nat -> bool) (os : list op) : bool :=
  match os with
  | [] => true
  | o :: r =>
      let upd x b := fun y => if Nat.eqb y x then b else alive y in
      match o with
      | Default x => negb (alive x) && legal (upd x true) r
      | Alloc x n _ => negb (alive x) && ((0 <=? n) && (n <? 2 ^ 64)) && legal (upd x true) r
      | MoveCtor x y => negb (alive x) && alive y && legal (upd x true) r
      | MoveAssign x y => alive x && alive y && legal alive r
      | Destroy x => alive x && legal (upd x false) r
      end
  end.
