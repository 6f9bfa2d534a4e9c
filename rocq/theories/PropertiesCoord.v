(** C58: coordinates are vectors indexed by dimension. *)
From Coq Require Import Floats.SpecFloat.
From Verif Require Import CoordModel CoordSpec CoordProofs CoordTheorems TaggedSpec.

(** * C58 *)
(** Sums and differences are taken dimension by dimension, whatever the order in which each operand lists
    them; the program is rejected when the dimensions differ. *)
Theorem C58_sum_difference : forall (A : arith) (sg : bool) (l r : coord A), coord_wf l -> coord_wf r ->
  (same_dims l r -> exists s, (if sg then c_add l r else c_sub l r) = Ok s /\ coord_wf s /\
     pointwise (if sg then nadd A else nsub A) l r s) /\
  (~ same_dims l r -> (if sg then c_add l r else c_sub l r) = Rejected).
Proof. exact @sum_difference. Qed.
Print Assumptions C58_sum_difference.
Example C58_sum_difference_ex :
  c_add (A := QA) [(1%nat, 3%Q); (2%nat, 5%Q)] [(2%nat, 10%Q); (1%nat, 20%Q)] = Ok [(1%nat, 23%Q); (2%nat, 15%Q)] /\
  c_sub (A := QA) [(1%nat, 3%Q); (2%nat, 5%Q)] [(2%nat, 10%Q); (1%nat, 20%Q)] = Ok [(1%nat, (-17)%Q); (2%nat, (-5)%Q)] /\
  c_add (A := QA) [(1%nat, 3%Q); (2%nat, 5%Q)] [(1%nat, 20%Q)] = Rejected.
Proof. repeat split; vm_compute; reflexivity. Qed.

Theorem C58_opposite_multiple : forall (A : arith) (k : num A) (c : coord A), coord_wf c ->
  (exists s, c_opp c = Ok s /\ coord_wf s /\ cdims s = cdims c /\ forall q x, along c q x -> along s q (- x)%N_) /\
  (exists s, c_scale k c = Ok s /\ coord_wf s /\ cdims s = cdims c /\ forall q x, along c q x -> along s q (k * x)%N_).
Proof. exact @opposite_multiple. Qed.
Print Assumptions C58_opposite_multiple.

(** A scalar and a coordinate: only for one dimension. *)
Theorem C58_scalar_one_dimension : forall (A : arith) (op : num A -> num A -> num A) (left : bool) (k x : num A) t (c : coord A),
  (c = [(t, x)] -> c_scalar op left k c = Ok [(t, if left then op k x else op x k)]) /\
  (length c <> 1%nat -> c_scalar op left k c = Rejected).
Proof. exact @scalar_one. Qed.
Print Assumptions C58_scalar_one_dimension.

(** [c op= rhs], where [rhs] can be [c] itself: every dimension is updated once, with the value that [rhs]
    had before the assignment. *)
Theorem C58_assign : forall (A : arith) (op : num A -> num A -> num A) (c : coord A) (rhs : operand A),
  coord_wf c -> coord_wf (designated rhs c) ->
  (same_dims c (designated rhs c) ->
     exists s, c_assign op c rhs = Ok s /\ coord_wf s /\ pointwise op c (designated rhs c) s) /\
  (~ same_dims c (designated rhs c) -> c_assign op c rhs = Rejected).
Proof. exact @assign_exact. Qed.
Print Assumptions C58_assign.
Example C58_assign_ex :
  c_assign (A := QA) (nadd QA) [(1%nat, 3%Q); (2%nat, 5%Q)] (Other (A := QA) [(2%nat, 10%Q); (1%nat, 20%Q)]) = Ok [(1%nat, 23%Q); (2%nat, 15%Q)] /\
  c_assign (A := QA) (nmul QA) [(1%nat, 3%Q); (2%nat, 5%Q)] (Itself (A := QA)) = Ok [(1%nat, 9%Q); (2%nat, 25%Q)].
Proof. split; vm_compute; reflexivity. Qed.

(** [c op= x] for a number stored elsewhere. *)
Theorem C58_scalar_assign : forall (A : arith) (op : num A -> num A -> num A) (x : num A) (c : coord A), coord_wf c ->
  exists s, c_assign_scalar op c (Number x) = Ok s /\ cdims s = cdims c /\
    forall q a, along c q a -> along s q (op a x).
Proof. exact scalar_assign. Qed.
Print Assumptions C58_scalar_assign.
(** [c op= get<X>(c)]: the operand is a reference to an entry of [c]; the entries after it are updated with
    the entry already updated. *)
Theorem C58_scalar_assign_own_entry : forall (A : arith) (op : num A -> num A -> num A) (l r : coord A) (t : tag) (v : num A),
  coord_wf (l ++ (t, v) :: r) ->
  c_assign_scalar op (l ++ (t, v) :: r) (Entry (length l)) =
  Ok (map (fun p => (fst p, op (snd p) v)) l ++ (t, op v v) :: map (fun p => (fst p, op (snd p) (op v v))) r).
Proof. exact scalar_assign_own. Qed.
Print Assumptions C58_scalar_assign_own_entry.
Theorem C58_scalar_assign_own_refuted : ~ forall (c : coord RA) k x, coord_wf c -> c_index k c = Ok x ->
  exists s, c_assign_scalar (nadd RA) c (Entry k) = Ok s /\ forall q a, along c q a -> along s q (a + x)%N_.
Proof. exact scalar_assign_own_refuted. Qed.
Print Assumptions C58_scalar_assign_own_refuted.
Example C58_scalar_assign_ex :
  c_assign_scalar (A := QA) (nadd QA) [(1%nat, 3%Q); (2%nat, 5%Q)] (Number (A := QA) 3%Q) = Ok [(1%nat, 6%Q); (2%nat, 8%Q)] /\
  c_assign_scalar (A := QA) (nadd QA) [(1%nat, 3%Q); (2%nat, 5%Q)] (Entry 0) = Ok [(1%nat, 6%Q); (2%nat, 11%Q)] /\
  c_assign_scalar (A := QA) (nsub QA) [(1%nat, 3%Q); (2%nat, 5%Q)] (Entry 0) = Ok [(1%nat, 0%Q); (2%nat, 5%Q)].
Proof. repeat split; vm_compute; reflexivity. Qed.

(** Exact arithmetic: the laws of a vector space.  The results are equal as objects, in the order of
    dimensions of the left operand; only [a + b] and [b + a] may list the dimensions differently. *)
Theorem C58_vector_space : forall (k : R) (a b c : coord RA),
  coord_wf a -> coord_wf b -> coord_wf c -> same_dims a b -> same_dims b c ->
  rbind (c_add a b) (fun s => c_add s c) = rbind (c_add b c) (fun s => c_add a s) /\
  rbind (c_sub a b) (fun s => c_add s b) = Ok a /\
  rbind (c_add a b) (fun s => c_sub s b) = Ok a /\
  c_sub a b = rbind (c_opp b) (fun n => c_add a n) /\
  rbind (c_add a b) (c_scale (k : num RA)) =
    rbind (c_scale (k : num RA) a) (fun p => rbind (c_scale (k : num RA) b) (fun q => c_add p q)) /\
  exists s t, c_add a b = Ok s /\ c_add b a = Ok t /\ same_coord s t.
Proof. exact vector_space. Qed.
Print Assumptions C58_vector_space.
Example C58_vector_space_ex : coord_wf (A := RA) [(1%nat, 3%R); (2%nat, 5%R)] /\ coord_wf (A := RA) [(2%nat, 10%R); (1%nat, 20%R)] /\
  same_dims (A := RA) [(1%nat, 3%R); (2%nat, 5%R)] [(2%nat, 10%R); (1%nat, 20%R)].
Proof. repeat split; try (repeat constructor; cbn; intuition discriminate); cbn; tauto. Qed.
(** Binary64: sums commute exactly, [(a - b) + b] is not [a]. *)
Theorem C58_binary64_sum_commutes : forall (a b : coord FA), coord_wf a -> coord_wf b -> same_dims a b ->
  exists s t, c_add a b = Ok s /\ c_add b a = Ok t /\ same_coord s t.
Proof. exact binary64_sum_commutes. Qed.
Print Assumptions C58_binary64_sum_commutes.
Theorem C58_binary64_difference_refuted : ~ forall (a b : coord FA), coord_wf a -> coord_wf b -> same_dims a b ->
  rbind (c_sub a b) (fun s => c_add s b) = Ok a.
Proof. exact binary64_difference_refuted. Qed.
Print Assumptions C58_binary64_difference_refuted.

(** [l == r] compares the dimensions of [l]; [r] may have more. *)
Theorem C58_equality : forall (A : arith) (l r : coord A), coord_wf l -> coord_wf r ->
  (incl (cdims l) (cdims r) -> exists b, c_eq l r = Ok b /\
     (b = true <-> forall q x y, along l q x -> along r q y -> ((x <=? y)%N_ && (y <=? x)%N_ = true)%bool)) /\
  (~ incl (cdims l) (cdims r) -> c_eq l r = Rejected).
Proof. exact @equality. Qed.
Print Assumptions C58_equality.
Theorem C58_equality_reals : forall (a b : coord RA), coord_wf a -> coord_wf b -> same_dims a b ->
  exists r, c_eq a b = Ok r /\ (r = true <-> same_coord a b).
Proof. exact equality_reals. Qed.
Print Assumptions C58_equality_reals.
Theorem C58_equality_symmetric_refuted : ~ forall (l r : coord RA), coord_wf l -> coord_wf r ->
  c_eq l r = Ok true -> c_eq r l = Ok true.
Proof. exact equality_symmetric_refuted. Qed.
Print Assumptions C58_equality_symmetric_refuted.
Example C58_equality_ex :
  c_eq (A := QA) [(1%nat, 3%Q); (2%nat, 5%Q)] [(2%nat, 5%Q); (1%nat, 3%Q)] = Ok true /\
  c_eq (A := QA) [(1%nat, 3%Q); (2%nat, 5%Q)] [(2%nat, 3%Q); (1%nat, 5%Q)] = Ok false /\
  c_eq (A := FA) [(1%nat, S754_nan)] [(1%nat, S754_nan)] = Ok false /\
  c_eq (A := FA) [(1%nat, S754_zero true)] [(1%nat, S754_zero false)] = Ok true.
Proof. repeat split; vm_compute; reflexivity. Qed.

(** Access, with or without a default. *)
Theorem C58_access : forall (A : arith) (c : coord A) q dflt, coord_wf c ->
  (forall x, c_get q c = Ok x <-> along c q x) /\
  (In q (cdims c) -> exists x, c_get q c = Ok x /\ c_get_or q c dflt = Ok x) /\
  (~ In q (cdims c) -> c_get q c = Rejected /\ c_get_or q c dflt = Ok dflt).
Proof. exact @access. Qed.
Print Assumptions C58_access.
(** The k-th value in the order of the dimensions; [value()] only for one dimension. *)
Theorem C58_position : forall (A : arith) (c : coord A),
  (forall k x, c_index k c = Ok x <-> exists t, nth_error c k = Some (t, x)) /\
  (forall x, c_value c = Ok x <-> exists t, c = [(t, x)]) /\
  (length c <> 1%nat -> c_value c = Rejected).
Proof. exact @access_position. Qed.
Print Assumptions C58_position.
Example C58_position_ex :
  c_index (A := QA) 1 [(1%nat, 3%Q); (7%nat, 4%Q)] = Ok 4%Q /\ c_value (A := QA) [(7%nat, 4%Q)] = Ok 4%Q /\
  c_value (A := QA) [(1%nat, 3%Q); (7%nat, 4%Q)] = Rejected.
Proof. repeat split; reflexivity. Qed.
(** Selecting dimensions, in any order, keeps their values. *)
Theorem C58_select : forall (A : arith) ts (c : coord A), coord_wf c ->
  (incl ts (cdims c) -> exists s, c_select ts c = Ok s /\ cdims s = ts /\ forall q x, along s q x <-> In q ts /\ along c q x) /\
  (~ incl ts (cdims c) -> c_select ts c = Rejected).
Proof. exact @select_exact. Qed.
Print Assumptions C58_select.
(** Assembling a coordinate from others: every dimension must be held by exactly one of them. *)
Theorem C58_construct : forall (A : arith) ts (cs : list (coord A)), Forall coord_wf cs ->
  ((forall q, In q ts -> length (filter (fun c => in_tags_v q (cdims c)) cs) = 1%nat) ->
   exists s, c_construct ts cs = Ok s /\ cdims s = ts /\
     forall q x, along s q x <-> In q ts /\ exists c, In c cs /\ along c q x) /\
  ((exists q, In q ts /\ length (filter (fun c => in_tags_v q (cdims c)) cs) <> 1%nat) -> c_construct ts cs = Rejected).
Proof. exact @construct_exact. Qed.
Print Assumptions C58_construct.
Theorem C58_values : forall (A : arith) ts (vs : list (num A)), length vs = length ts ->
  exists s : coord A, c_of_values ts vs = Ok s /\ cdims s = ts /\ cvalues s = vs.
Proof. exact @of_values. Qed.
Print Assumptions C58_values.
Example C58_construct_ex :
  c_select (A := QA) [2%nat; 1%nat] [(1%nat, 3%Q); (7%nat, 4%Q); (2%nat, 5%Q)] = Ok [(2%nat, 5%Q); (1%nat, 3%Q)] /\
  c_construct (A := QA) [2%nat; 1%nat] [[(1%nat, 3%Q); (7%nat, 4%Q)]; [(2%nat, 5%Q)]] = Ok [(2%nat, 5%Q); (1%nat, 3%Q)] /\
  c_construct (A := QA) [2%nat; 1%nat] [[(1%nat, 3%Q); (2%nat, 4%Q)]; [(2%nat, 5%Q)]] = Rejected.
Proof. repeat split; vm_compute; reflexivity. Qed.

(** The coordinate of a discrete element of several dimensions: along the continuous dimension of each
    sampling, the coordinate of that component; two samplings of one continuous dimension are rejected. *)
Theorem C58_coordinate : forall (A : arith) (cdim : tag -> tag) (point : tag -> Z -> res (num A)) (e : tagged),
  NoDup (dims e) -> (1 < length e)%nat -> (forall q u, val_of e q u -> exists x, point q u = Ok x) ->
  (NoDup (map cdim (dims e)) -> exists s, coordinate_nd cdim point e = Ok s /\ cdims s = map cdim (dims e) /\
     forall q u x, val_of e q u -> point q u = Ok x -> along s (cdim q) x) /\
  (~ NoDup (map cdim (dims e)) -> coordinate_nd cdim point e = Rejected).
Proof. exact coordinate_exact. Qed.
Print Assumptions C58_coordinate.
Example C58_coordinate_ex :
  coordinate_nd (A := QA) (fun q => Nat.add q 10) (fun q u => Ok (nofz QA (Z.of_nat q * u))) [(1%nat, 5); (2%nat, 7)] =
    Ok [(11%nat, 5%Q); (12%nat, 14%Q)] /\
  coordinate_nd (A := QA) (fun q => 3%nat) (fun q u => Ok (nofz QA u)) [(1%nat, 5); (2%nat, 7)] = Rejected.
Proof. split; vm_compute; reflexivity. Qed.

(** Printing, for coordinates, elements and vectors. *)
Theorem C58_print : forall (A : arith) (show : num A -> string) (showz : Z -> string) (c : coord A) (e : tagged),
  print_coord show c = ("(" ++ String.concat ", " (map show (cvalues c)) ++ ")")%string /\
  print_tagged showz e = ("(" ++ String.concat ", " (map showz (values e)) ++ ")")%string.
Proof. exact prints. Qed.
Print Assumptions C58_print.
Example C58_print_ex : print_tagged (fun z => if Z.eqb z 1 then "1"%string else "2"%string) [(1%nat, 2); (5%nat, 1)] = "(2, 1)"%string /\
  print_tagged (fun _ => "x"%string) [] = "()"%string.
Proof. split; reflexivity. Qed.
