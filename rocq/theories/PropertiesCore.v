(** C01-C10: dimension tags, elements, vectors and domains.  The vocabulary of the statements is in
    TaggedSpec, DomainSpec, StridedSpec and SparseSpec. *)
From Coq Require Import Sorting.Sorted Permutation.
From Verif Require Import Machine TypeSeqModel TypeSeqProofs TaggedModel TaggedSpec TaggedProofs
  DomainModel DomainSpec DomainProofs DomainProofs2 IteratorModel IteratorProofs StridedModel StridedSpec StridedProofs
  SparseModel SparseSpec SparseProofs CoreLemmas.

(** * C01 *)
Theorem C01_rank : forall q s,
  (In q s -> exists k, type_seq_rank_v q s = Z.of_nat k /\ nth_error s k = Some q /\
     forall j, (j < k)%nat -> nth_error s j <> Some q) /\
  (~ In q s -> type_seq_rank_v q s = 2 ^ 64 - 1).
Proof. exact rank_exact. Qed.
Print Assumptions C01_rank.
Example C01_rank_ex : type_seq_rank_v 7%nat [3; 7; 9]%nat = 1 /\ type_seq_rank_v 8%nat [3; 7; 9]%nat = 2 ^ 64 - 1.
Proof. split; reflexivity. Qed.

Theorem C01_merge : forall a b,
  (forall x, In x (type_seq_merge a b) <-> In x a \/ In x b) /\
  (exists rest, type_seq_merge a b = a ++ rest /\
     rest = filter (fun x => if in_dec Nat.eq_dec x a then false else true) b) /\
  (NoDup a -> NoDup b -> NoDup (type_seq_merge a b)).
Proof. exact merge_exact. Qed.
Print Assumptions C01_merge.
Example C01_merge_ex : type_seq_merge [1; 2]%nat [3; 2; 4]%nat = [1; 2; 3; 4]%nat.
Proof. reflexivity. Qed.

Theorem C01_remove : forall a b,
  type_seq_remove a b = filter (fun x => if in_dec Nat.eq_dec x b then false else true) a /\
  (NoDup a -> NoDup (type_seq_remove a b)).
Proof. exact remove_exact. Qed.
Print Assumptions C01_remove.
Theorem C01_cat : forall a b k, nth_error (type_seq_cat a b) k =
  if Nat.ltb k (length a) then nth_error a k else nth_error b (k - length a).
Proof. exact cat_exact. Qed.
Print Assumptions C01_cat.
Example C01_remove_ex : type_seq_remove [1; 2; 3]%nat [2; 5]%nat = [1; 3]%nat.
Proof. reflexivity. Qed.

Theorem C01_replace : forall a b c, length b = length c ->
  exists s, type_seq_replace a b c = Some s /\ length s = length a /\
  (forall i x, nth_error a i = Some x -> ~ In x b -> nth_error s i = Some x) /\
  (forall i k x, nth_error a i = Some x -> nth_error b k = Some x ->
     (forall j, (j < k)%nat -> nth_error b j <> Some x) -> nth_error s i = nth_error c k) /\
  (NoDup a -> NoDup c -> (forall x, In x a -> In x c -> In x b) -> NoDup s).
Proof. exact replace_exact. Qed.
Print Assumptions C01_replace.
Example C01_replace_ex : type_seq_replace [1; 2; 3]%nat [2]%nat [9]%nat = Some [1; 9; 3]%nat.
Proof. reflexivity. Qed.

Theorem C01_same : forall a b, type_seq_same_v a b = true <-> (forall x, In x a <-> In x b).
Proof. exact same_exact. Qed.
Print Assumptions C01_same.
Example C01_same_ex : type_seq_same_v [1; 2; 3]%nat [3; 1; 2]%nat = true /\ type_seq_same_v [1; 2]%nat [1; 3]%nat = false.
Proof. split; reflexivity. Qed.

Theorem C01_unique : forall s, type_seq_is_unique_v s = true <-> NoDup s.
Proof. exact is_unique_spec. Qed.
Print Assumptions C01_unique.
Example C01_unique_ex : type_seq_is_unique_v [1; 2; 3]%nat = true /\ type_seq_is_unique_v [1; 2; 1]%nat = false.
Proof. split; reflexivity. Qed.

(** * C02 *)
Theorem C02_diff_then_add : forall a b, elem_wf a -> elem_wf b -> (forall q, In q (dims a) <-> In q (dims b)) ->
  exists v r, elem_diff a b = Ok v /\ vect_wf v /\ elem_add b v = Ok r /\ elem_wf r /\ same_values r a.
Proof. exact diff_then_add. Qed.
Print Assumptions C02_diff_then_add.
Theorem C02_add_then_diff : forall a v, elem_wf a -> vect_wf v -> (forall q, In q (dims v) <-> In q (dims a)) ->
  exists b w, elem_add a v = Ok b /\ elem_wf b /\ elem_diff b a = Ok w /\ same_values w v.
Proof. exact add_then_diff. Qed.
Print Assumptions C02_add_then_diff.
Theorem C02_frame : forall (sg : bool) e v, elem_wf e -> vect_wf v -> incl (dims v) (dims e) ->
  exists r, (if sg then elem_add e v else elem_sub_vect e v) = Ok r /\ elem_wf r /\ dims r = dims e /\
   (forall q x, val_of e q x -> ~ In q (dims v) -> val_of r q x) /\
   (forall q x y, val_of e q x -> val_of v q y -> val_of r q ((if sg then x + y else x - y) mod 2 ^ 64)).
Proof. exact elem_add_sub_frame. Qed.
Print Assumptions C02_frame.
Theorem C02_equality : forall l r, NoDup (dims l) -> NoDup (dims r) -> (forall q, In q (dims l) <-> In q (dims r)) ->
  exists b, tagged_eq l r = Ok b /\ (b = true <-> same_values l r).
Proof. exact tagged_eq_spec. Qed.
Print Assumptions C02_equality.
Theorem C02_equality_order : forall l r l' r', elem_wf l -> elem_wf r -> Permutation l l' -> Permutation r r' ->
  (forall q, In q (dims l) <-> In q (dims r)) -> tagged_eq l r = tagged_eq l' r'.
Proof. exact eq_reorder. Qed.
Print Assumptions C02_equality_order.
Theorem C02_vectors : forall (sg : bool) l r, vect_wf l -> vect_wf r -> (forall q, In q (dims l) <-> In q (dims r)) ->
  ((forall q x y, val_of l q x -> val_of r q y -> is_i64 (if sg then x + y else x - y)) ->
   exists s, (if sg then vect_add l r else vect_sub l r) = Ok s /\ vect_wf s /\ dims s = dims l /\
     forall q x y, val_of l q x -> val_of r q y -> val_of s q (if sg then x + y else x - y)) /\
  ((exists q x y, val_of l q x /\ val_of r q y /\ ~ is_i64 (if sg then x + y else x - y)) ->
   (if sg then vect_add l r else vect_sub l r) = Undef).
Proof. exact vect_addsub_same. Qed.
Print Assumptions C02_vectors.
(** One of the vectors may have fewer dimensions: its displacement there is 0.  The difference negates
    the right operand first when it has more dimensions. *)
Theorem C02_vectors_mixed : forall (sg : bool) l r, vect_wf l -> vect_wf r ->
  (incl (dims r) (dims l) \/ incl (dims l) (dims r)) ->
  (forall q x y, In q (dims l ++ dims r) -> val0 l q x -> val0 r q y -> is_i64 (if sg then x + y else x - y)) ->
  (sg = false -> ~ incl (dims r) (dims l) -> forall q y, val_of r q y -> is_i64 (- y)) ->
  exists s, (if sg then vect_add l r else vect_sub l r) = Ok s /\ vect_wf s /\
    (forall q, In q (dims s) <-> In q (dims l) \/ In q (dims r)) /\
    forall q x y, In q (dims s) -> val0 l q x -> val0 r q y -> val_of s q (if sg then x + y else x - y).
Proof. exact vect_addsub_mixed. Qed.
Print Assumptions C02_vectors_mixed.
Example C02_vectors_mixed_ex : vect_sub [(2%nat, 7)] [(1%nat, 3); (2%nat, 2)] = Ok [(1%nat, -3); (2%nat, 5)] /\
  vect_sub [(1%nat, 3); (2%nat, 2)] [(2%nat, 7)] = Ok [(1%nat, 3); (2%nat, -5)].
Proof. split; reflexivity. Qed.
Theorem C02_opposite : forall v, vect_wf v ->
  ((forall q x, val_of v q x -> is_i64 (- x)) ->
    exists r, vect_opp v = Ok r /\ vect_wf r /\ dims r = dims v /\ forall q x, val_of v q x -> val_of r q (- x)) /\
  ((exists q x, val_of v q x /\ ~ is_i64 (- x)) -> vect_opp v = Undef).
Proof. exact opp_spec. Qed.
Print Assumptions C02_opposite.
Theorem C02_scale : forall k v, vect_wf v ->
  ((forall q x, val_of v q x -> is_i64 (k * x)) ->
    exists r, vect_scale k v = Ok r /\ vect_wf r /\ dims r = dims v /\ forall q x, val_of v q x -> val_of r q (k * x)) /\
  ((exists q x, val_of v q x /\ ~ is_i64 (k * x)) -> vect_scale k v = Undef).
Proof. exact scale_spec. Qed.
Print Assumptions C02_scale.
Example C02_scale_ex : vect_scale 3 [(1%nat, -2); (4%nat, 5)] = Ok [(1%nat, -6); (4%nat, 15)] /\
  vect_scale 3 [(1%nat, 2 ^ 62)] = Undef /\ vect_opp [(1%nat, - 2 ^ 63)] = Undef.
Proof. repeat split; reflexivity. Qed.
(** a = (d1: 2^64 - 1, d2: 0), b = (d2: 5, d1: 3): the differences wrap and still invert. *)
Example C02_ex : elem_wf [(1%nat, 2 ^ 64 - 1); (2%nat, 0)] /\ elem_wf [(2%nat, 5); (1%nat, 3)] /\
  elem_diff [(1%nat, 2 ^ 64 - 1); (2%nat, 0)] [(2%nat, 5); (1%nat, 3)] = Ok [(1%nat, -4); (2%nat, -5)] /\
  elem_add [(2%nat, 5); (1%nat, 3)] [(1%nat, -4); (2%nat, -5)] = Ok [(2%nat, 0); (1%nat, 2 ^ 64 - 1)] /\
  tagged_eq [(2%nat, 0); (1%nat, 2 ^ 64 - 1)] [(1%nat, 2 ^ 64 - 1); (2%nat, 0)] = Ok true.
Proof.
  assert (W : forall a b x y, a <> b -> 0 <= x < 2 ^ 64 -> 0 <= y < 2 ^ 64 -> elem_wf [(a, x); (b, y)]).
  { intros a b x y H Hx Hy. split; [repeat constructor; simpl; intuition | repeat constructor; simpl; auto; unfold is_u64, two64; lia]. }
  split; [apply W; lia|]. split; [apply W; lia|]. split; [|split]; vm_compute; reflexivity.
Qed.

(** * C03 *)
Theorem C03_for_each : forall d, dom_wf d ->
  exists l : list tagged,
    (forall (S : Type) (f : tagged -> S -> S) (s : S),
        host_for_each d f s = Ok (fold_left (fun s e => f e s) l s)) /\
    (forall e, dims e = ddims d -> (In e l <-> contains d [e] = Ok true)) /\
    (forall e, In e l -> dims e = ddims d) /\
    NoDup l /\ StronglySorted (fun a b => lex_lt (values a) (values b)) l /\
    Z.of_nat (length l) = box_count d.
Proof. exact host_for_each_exact. Qed.
Print Assumptions C03_for_each.
Theorem C03_contains_is_box : forall d es, NoDup (ddims d) -> elem_of_dims d (concat es) ->
  exists r, contains d es = Ok r /\ (r = true <-> in_box d (concat es)).
Proof. exact contains_spec_box. Qed.
Print Assumptions C03_contains_is_box.
Example C03_ex : dom_wf [(1%nat, (10, 12)); (2%nat, (2 ^ 64 - 3, 2 ^ 64 - 1))] /\
  host_for_each [(1%nat, (10, 12)); (2%nat, (2 ^ 64 - 3, 2 ^ 64 - 1))] (fun e l => l ++ [values e]) []
  = Ok [[10; 2 ^ 64 - 3]; [10; 2 ^ 64 - 2]; [11; 2 ^ 64 - 3]; [11; 2 ^ 64 - 2]].
Proof.
  split; [|vm_compute; reflexivity].
  split; [repeat constructor; simpl; intuition lia | repeat constructor; simpl; lia].
Qed.

(** * C04 *)
Theorem C04_first : forall d n, dom_wf d -> cut_ok d n ->
  exists t r, take_first d n = Ok t /\ remove_first d n = Ok r /\ ddims t = ddims d /\ ddims r = ddims d /\
    (forall q x, in_dim d q x <-> in_dim t q x \/ in_dim r q x) /\
    (forall q x, ~ (in_dim t q x /\ in_dim r q x)) /\
    (forall q b f y, In (q, (b, f)) d -> val_of n q y -> forall x, in_dim t q x <-> b <= x < b + y).
Proof. exact cut_first_partition. Qed.
Print Assumptions C04_first.
Theorem C04_last : forall d n, dom_wf d -> cut_ok d n ->
  exists t r, take_last d n = Ok t /\ remove_last d n = Ok r /\ ddims t = ddims d /\ ddims r = ddims d /\
    (forall q x, in_dim d q x <-> in_dim t q x \/ in_dim r q x) /\
    (forall q x, ~ (in_dim t q x /\ in_dim r q x)) /\
    (forall q b f y, In (q, (b, f)) d -> val_of n q y -> forall x, in_dim t q x <-> f - y <= x < f).
Proof. exact cut_last_partition. Qed.
Print Assumptions C04_last.
Theorem C04_both : forall d n1 n2, dom_wf d -> cut_ok d n1 -> cut_ok d n2 ->
  (forall q b f y1 y2, In (q, (b, f)) d -> val_of n1 q y1 -> val_of n2 q y2 -> y1 + y2 <= f - b) ->
  exists r, remove_both d n1 n2 = Ok r /\ ddims r = ddims d /\
    forall q b f y1 y2, In (q, (b, f)) d -> val_of n1 q y1 -> val_of n2 q y2 ->
      forall x, in_dim r q x <-> b + y1 <= x < f - y2.
Proof. exact cut_both. Qed.
Print Assumptions C04_both.
Example C04_ex : dom_wf [(1%nat, (10, 15))] /\ cut_ok [(1%nat, (10, 15))] [(1%nat, 2)] /\
  take_first [(1%nat, (10, 15))] [(1%nat, 2)] = Ok [(1%nat, (10, 12))] /\
  remove_both [(1%nat, (10, 15))] [(1%nat, 2)] [(1%nat, 2)] = Ok [(1%nat, (12, 13))].
Proof.
  split; [split; [repeat constructor; simpl; auto | repeat constructor; simpl; lia]|].
  split; [|split; vm_compute; reflexivity].
  split; [split; [repeat constructor; simpl; auto | repeat constructor; simpl; unfold is_i64, two63; lia]|].
  split; [simpl; tauto|]. intros q b f y [H|[]] [H'|[]]. injection H as <- <- <-. injection H' as <-. lia.
Qed.

(** * C05 *)
Theorem C05_equality : forall d o, dom_wf d -> dom_wf o -> (forall q, In q (ddims d) <-> In q (ddims o)) ->
  box_count d < 2 ^ 64 -> box_count o < 2 ^ 64 ->
  exists r, dom_eq d o = Ok r /\ (r = true <-> forall e, in_box d e <-> in_box o e).
Proof. exact dom_eq_exact. Qed.
Print Assumptions C05_equality.
Theorem C05_size : forall d, dom_wf d -> exists l : list tagged,
  NoDup l /\ (forall e, In e l <-> dims e = ddims d /\ in_box d e) /\
  dom_size d = Z.of_nat (length l) mod 2 ^ 64.
Proof. exact size_counts. Qed.
Print Assumptions C05_size.
(** The bound on the number of elements is needed. *)
Theorem C05_unbounded_refuted : exists d o, dom_wf d /\ dom_wf o /\ ddims d = ddims o /\
  dom_eq d o = Ok true /\ exists e, in_box d e /\ ~ in_box o e.
Proof. exact dom_eq_wraps. Qed.
Print Assumptions C05_unbounded_refuted.
Example C05_ex : box_count [(1%nat, (10, 15)); (2%nat, (0, 3))] = 15 /\
  dom_eq [(1%nat, (10, 15)); (2%nat, (0, 3))] [(2%nat, (0, 3)); (1%nat, (10, 15))] = Ok true /\
  dom_eq [(1%nat, (10, 10)); (2%nat, (0, 3))] [(2%nat, (4, 4)); (1%nat, (10, 15))] = Ok true /\
  dom_eq [(1%nat, (10, 15)); (2%nat, (0, 3))] [(2%nat, (0, 3)); (1%nat, (10, 14))] = Ok false.
Proof. repeat split; vm_compute; reflexivity. Qed.

(** * C06 *)
Theorem C06_distance_then_at : forall d es, dom_wf d -> in_box d (concat es) ->
  exists v e, distance_from_front d es = Ok v /\ offset_in_range d v /\ dom_at d v = Ok e /\ same_values e (concat es).
Proof. exact distance_then_at. Qed.
Print Assumptions C06_distance_then_at.
Theorem C06_at_then_distance : forall d v, dom_wf d -> offset_in_range d v ->
  exists e w, dom_at d v = Ok e /\ in_box d e /\ contains d [e] = Ok true /\
    distance_from_front d [e] = Ok w /\ same_values w v.
Proof. exact at_then_distance. Qed.
Print Assumptions C06_at_then_distance.
Example C06_ex : in_box [(1%nat, (10, 15)); (2%nat, (3, 9))] (concat [[(2%nat, 4)]; [(1%nat, 12)]]) /\
  distance_from_front [(1%nat, (10, 15)); (2%nat, (3, 9))] [[(2%nat, 4)]; [(1%nat, 12)]] = Ok [(1%nat, 2); (2%nat, 1)].
Proof.
  split; [|vm_compute; reflexivity]. split.
  - split; [repeat constructor; simpl; intuition lia | simpl; intuition].
  - intros q b f [H|[H|[]]]; injection H as <- <- <-; eexists; (split; [unfold val_of; simpl; auto|]); lia.
Qed.

(** * C07 *)
Theorem C07_restrict : forall d o, dom_wf d -> dom_wf o -> incl (ddims o) (ddims d) ->
  (forall q b f b' f', In (q, (b, f)) d -> In (q, (b', f')) o -> b <= b' /\ f' <= f) ->
  exists r, restrict_with d o = Ok r /\ dom_wf r /\ ddims r = ddims d /\
    forall e, in_box r e <-> in_box d e /\ in_box o (proj (ddims o) e).
Proof. exact restrict_with_spec. Qed.
Print Assumptions C07_restrict.
(** A restriction to a domain that sticks out violates the precondition and is never accepted. *)
Theorem C07_restrict_outside : forall d o q b f b' f', dom_wf d -> dom_wf o -> incl (ddims o) (ddims d) ->
  In (q, (b, f)) d -> In (q, (b', f')) o -> b' < b \/ f < f' -> restrict_with d o = Undef.
Proof. exact restrict_outside. Qed.
Print Assumptions C07_restrict_outside.
Theorem C07_product : forall ts ds, Forall dom_wf ds -> NoDup (concat (map ddims ds)) ->
  (forall q, In q ts <-> In q (concat (map ddims ds))) -> NoDup ts ->
  exists r, dom_merge ts ds = Ok r /\ dom_wf r /\ ddims r = ts /\
    forall e, in_box r e <-> (NoDup (dims e) /\ (forall q, In q (dims e) <-> In q ts) /\
                              forall d, In d ds -> in_box d (proj (ddims d) e)).
Proof. exact merge_elements. Qed.
Print Assumptions C07_product.
Theorem C07_select : forall ts d, dom_wf d -> NoDup ts -> incl ts (ddims d) -> box_count d <> 0 ->
  exists r, dom_select ts d = Ok r /\ dom_wf r /\ ddims r = ts /\
    forall e, in_box r e <-> exists e', in_box d e' /\ same_values e (proj ts e') /\ NoDup (dims e).
Proof. exact select_elements. Qed.
Print Assumptions C07_select.
Theorem C07_remove_dims : forall ts d, dom_wf d -> box_count d <> 0 ->
  exists r, remove_dims_of d ts = Ok r /\ dom_wf r /\
    ddims r = filter (fun q => if in_dec Nat.eq_dec q ts then false else true) (ddims d) /\
    forall e, in_box r e <-> exists e', in_box d e' /\ same_values e (proj (ddims r) e') /\ NoDup (dims e).
Proof. exact remove_dims_elements. Qed.
Print Assumptions C07_remove_dims.
Theorem C07_replace_dim : forall t1 t2 a b, dom_wf a -> dom_wf b -> In t2 (ddims b) -> ~ In t2 (ddims a) ->
  exists r, replace_dim_of t1 t2 a b = Ok r /\ dom_wf r /\
    ddims r = map (fun x => if Nat.eqb x t1 then t2 else x) (ddims a) /\
    forall q x f, In (q, (x, f)) r <->
      (q = t2 /\ In t1 (ddims a) /\ In (t2, (x, f)) b) \/ (q <> t1 /\ In (q, (x, f)) a).
Proof. exact replace_dim_spec. Qed.
Print Assumptions C07_replace_dim.
Example C07_ex :
  restrict_with [(1%nat, (10, 15)); (2%nat, (3, 9))] [(2%nat, (4, 6))] = Ok [(1%nat, (10, 15)); (2%nat, (4, 6))] /\
  dom_merge [2; 1]%nat [[(1%nat, (10, 15))]; [(2%nat, (4, 6))]] = Ok [(2%nat, (4, 6)); (1%nat, (10, 15))] /\
  dom_select [2]%nat [(1%nat, (10, 15)); (2%nat, (3, 9))] = Ok [(2%nat, (3, 9))] /\
  remove_dims_of [(1%nat, (10, 15)); (2%nat, (3, 9))] [2]%nat = Ok [(1%nat, (10, 15))] /\
  replace_dim_of 2%nat 3%nat [(1%nat, (10, 15)); (2%nat, (3, 9))] [(3%nat, (0, 7))] = Ok [(1%nat, (10, 15)); (3%nat, (0, 7))].
Proof. repeat split; vm_compute; reflexivity. Qed.

(** * C08 *)
Theorem C08_iterator_laws : forall x n, is_u64 x -> is_i64 n -> n <> - 2 ^ 63 ->
  exists y, it_add x n = Ok y /\ is_u64 y /\ it_diff y x = Ok n /\ it_sub y n = Ok x /\
            it_at x n = y /\ (0 <= x + n < 2 ^ 64 -> y = x + n).
Proof. exact iterator_laws. Qed.
Print Assumptions C08_iterator_laws.
Theorem C08_incr_decr : forall x, is_u64 x -> it_add x 1 = Ok (it_incr x) /\ it_sub x 1 = Ok (it_decr x) /\
  it_decr (it_incr x) = x /\ it_incr (it_decr x) = x.
Proof. exact iterator_incr. Qed.
Print Assumptions C08_incr_decr.
Theorem C08_order : forall x n m, is_u64 x -> 0 <= x + n < 2 ^ 64 -> 0 <= x + m < 2 ^ 64 -> is_i64 n -> is_i64 m ->
  n <> - 2 ^ 63 -> m <> - 2 ^ 63 ->
  exists y z, it_add x n = Ok y /\ it_add x m = Ok z /\
   (it_lt y z = true <-> n < m) /\ (it_eq y z = true <-> n = m).
Proof. exact iterator_order. Qed.
Print Assumptions C08_order.
(** A range-for over [b, b + n) yields b, b+1, ..., b+n-1. *)
Theorem C08_range_for : forall n b, 0 <= b -> b + Z.of_nat n < 2 ^ 64 ->
  range_for it_incr n b (b + Z.of_nat n) = Some (map (fun k => b + Z.of_nat k) (seq 0 n)).
Proof. exact range_for_exact. Qed.
Print Assumptions C08_range_for.
Theorem C08_strided_laws : forall s x n, is_u64 x -> is_i64 n -> n <> - 2 ^ 63 ->
  exists y, sit_add s x n = Ok y /\ sit_sub s y n = Ok x /\ (0 <= x + n * s < 2 ^ 64 -> y = x + n * s) /\
    (n = 1 -> y = sit_incr s x) /\ (n = -1 -> y = sit_decr s x).
Proof. exact strided_iterator_laws. Qed.
Print Assumptions C08_strided_laws.
Theorem C08_strided_range_for : forall n s b, 0 < s -> 0 <= b -> b + Z.of_nat n * s < 2 ^ 64 ->
  range_for (sit_incr s) n b (b + Z.of_nat n * s) = Some (map (fun k => b + Z.of_nat k * s) (seq 0 n)).
Proof. exact range_for_strided. Qed.
Print Assumptions C08_strided_range_for.
(** Findings: for strided domains (it + n) - it is n * stride, and it += PTRDIFF_MIN is undefined. *)
Theorem C08_strided_difference : forall s x n, is_u64 x -> is_u64 (x + n * s) -> - 2 ^ 63 < n * s < 2 ^ 63 ->
  sit_diff (x + n * s) x = Ok (n * s).
Proof. exact strided_diff_scaled. Qed.
Print Assumptions C08_strided_difference.
Theorem C08_strided_difference_refuted : exists s x n y, 0 < s /\ sit_add s x n = Ok y /\ sit_diff y x <> Ok n.
Proof. exact sit_diff_not_count. Qed.
Print Assumptions C08_strided_difference_refuted.
Theorem C08_minimal_offset_refuted : exists x, is_u64 x /\ it_add x (- 2 ^ 63) = Undef.
Proof. exact it_add_min. Qed.
Print Assumptions C08_minimal_offset_refuted.
Example C08_ex : it_add 10 (-3) = Ok 7 /\ it_diff 7 10 = Ok (-3) /\ range_for it_incr 3 5 8 = Some [5; 6; 7] /\
  it_add (2 ^ 63 + 5) (2 ^ 62) = Ok (2 ^ 63 + 2 ^ 62 + 5).
Proof. repeat split; vm_compute; reflexivity. Qed.

(** * C09 *)
Theorem C09_contains : forall d es, sdom_wf d -> Forall (fun p => 0 < sn (snd p)) d ->
  elem_wf (concat es) -> (forall q, In q (dims (concat es)) <-> In q (sdims d)) ->
  exists r e, s_contains d es = Ok r /\ dims e = sdims d /\ same_values e (concat es) /\
     (r = true <-> in_progressions d (values e)).
Proof. exact s_contains_exact. Qed.
Print Assumptions C09_contains.
Theorem C09_distance : forall d v, sdom_wf d -> s_in_range d v ->
  exists e, s_at d v = Ok e /\ in_progressions d (values e) /\ s_distance d [e] = Ok (combine (sdims d) v).
Proof. exact s_distance_roundtrip. Qed.
Print Assumptions C09_distance.
Theorem C09_at_onto : forall d e, sdom_wf d -> dims e = sdims d -> in_progressions d (values e) ->
  exists v, s_distance d [e] = Ok (combine (sdims d) v) /\ s_in_range d v /\ s_at d v = Ok e.
Proof. exact s_at_surjective. Qed.
Print Assumptions C09_at_onto.
Theorem C09_cut_first : forall d v, sdom_wf d -> Forall2 (fun p k => cut1 (snd p) k) d v ->
  exists t r, s_take_first d v = Ok t /\ s_remove_first d v = Ok r /\ sdims t = sdims d /\ sdims r = sdims d /\
    (forall xs, in_progressions t xs <-> in_progressions d xs /\
        Forall2 (fun pk x => x < sb (snd (fst pk)) + snd pk * ss (snd (fst pk))) (combine d v) xs) /\
    (forall xs, in_progressions r xs <-> in_progressions d xs /\
        Forall2 (fun pk x => sb (snd (fst pk)) + snd pk * ss (snd (fst pk)) <= x) (combine d v) xs).
Proof. exact s_cut_first_partition. Qed.
Print Assumptions C09_cut_first.
Theorem C09_cut_last : forall d v, sdom_wf d -> Forall2 (fun p k => cut1 (snd p) k) d v ->
  exists t r, s_take_last d v = Ok t /\ s_remove_last d v = Ok r /\ sdims t = sdims d /\ sdims r = sdims d /\
    (forall xs, in_progressions t xs <-> in_progressions d xs /\
        Forall2 (fun pk x => sb (snd (fst pk)) + (sn (snd (fst pk)) - snd pk) * ss (snd (fst pk)) <= x) (combine d v) xs) /\
    (forall xs, in_progressions r xs <-> in_progressions d xs /\
        Forall2 (fun pk x => x < sb (snd (fst pk)) + (sn (snd (fst pk)) - snd pk) * ss (snd (fst pk))) (combine d v) xs).
Proof. exact s_cut_last_partition. Qed.
Print Assumptions C09_cut_last.
Theorem C09_for_each : forall d, sdom_wf d ->
  exists l : list tagged,
    (forall (S : Type) (f : tagged -> S -> S) (s : S), s_host_for_each d f s = Ok (fold_left (fun s e => f e s) l s)) /\
    (forall e, In e l <-> dims e = sdims d /\ in_progressions d (values e)) /\
    NoDup l /\ StronglySorted (fun a b => lex_lt (values a) (values b)) l.
Proof. exact s_for_each_exact. Qed.
Print Assumptions C09_for_each.
Theorem C09_back : forall p, sdim_wf p -> 0 < sn p ->
  exists x, s_back1 p = Ok x /\ progression p x /\ forall y, progression p y -> y <= x.
Proof. exact s_back_exact. Qed.
Print Assumptions C09_back.
(** == holds exactly for identical domains and for pairs of domains without elements. *)
Theorem C09_equality : forall d o, sdom_wf d -> sdom_wf o -> sdims d = sdims o ->
  fold_right (fun p z => sn (snd p) * z) 1 d < 2 ^ 64 -> fold_right (fun p z => sn (snd p) * z) 1 o < 2 ^ 64 ->
  s_eq d o = true <-> d = o \/ ((forall xs, ~ in_progressions d xs) /\ (forall xs, ~ in_progressions o xs)).
Proof. exact s_eq_exact. Qed.
Print Assumptions C09_equality.
(** Findings: an empty strided domain may claim to contain an element; equality distinguishes
    equal one-element domains. *)
Theorem C09_empty_contains_refuted : exists d e, sdom_wf d /\ s_contains d [e] = Ok true /\ ~ in_progressions d (values e).
Proof. exact s_contains_empty. Qed.
Print Assumptions C09_empty_contains_refuted.
Theorem C09_equality_refuted : exists d o, sdom_wf d /\ sdom_wf o /\ sdims d = sdims o /\
  (forall xs, in_progressions d xs <-> in_progressions o xs) /\ s_eq d o = false.
Proof. exact s_eq_incomplete. Qed.
Print Assumptions C09_equality_refuted.
Example C09_ex :
  sdom_wf [(1%nat, {| sb := 10; sn := 4; ss := 3 |})] /\
  s_contains [(1%nat, {| sb := 10; sn := 4; ss := 3 |})] [[(1%nat, 19)]] = Ok true /\
  s_contains [(1%nat, {| sb := 10; sn := 4; ss := 3 |})] [[(1%nat, 20)]] = Ok false /\
  s_contains [(1%nat, {| sb := 10; sn := 4; ss := 3 |})] [[(1%nat, 22)]] = Ok false /\
  s_host_for_each [(1%nat, {| sb := 10; sn := 4; ss := 3 |})] (fun e l => l ++ [values e]) [] = Ok [[10]; [13]; [16]; [19]].
Proof.
  split; [split; [repeat constructor; simpl; auto | repeat constructor; simpl; lia]|].
  repeat split; vm_compute; reflexivity.
Qed.

(** * C10 *)
Theorem C10_lower_bound : forall l v, StronglySorted Z.le l ->
  exists k, lower_bound l v = Some (Ok k) /\ (k <= length l)%nat /\
    (forall j x, (j < k)%nat -> nth_error l j = Some x -> x < v) /\
    (forall j x, (k <= j)%nat -> nth_error l j = Some x -> v <= x).
Proof. exact lower_bound_exact. Qed.
Print Assumptions C10_lower_bound.
Theorem C10_binary_search : forall l v, StronglySorted Z.le l ->
  exists r, binary_search l v = Some (Ok r) /\ (r = true <-> In v l).
Proof. exact binary_search_exact. Qed.
Print Assumptions C10_binary_search.
Theorem C10_contains : forall d es, NoDup (spdims d) -> Forall (fun p => StronglySorted Z.le (snd p)) d ->
  NoDup (dims (concat es)) -> (forall q, In q (dims (concat es)) <-> In q (spdims d)) ->
  exists r e, sp_contains d es = Ok r /\ dims e = spdims d /\ same_values e (concat es) /\
     (r = true <-> in_lists d (values e)).
Proof. exact sp_contains_exact. Qed.
Print Assumptions C10_contains.
Theorem C10_distance : forall d v, spdom_wf d -> sp_in_range d v ->
  exists e, sp_at d v = Ok e /\ in_lists d (values e) /\ sp_distance d [e] = Ok (combine (spdims d) v).
Proof. exact sp_distance_roundtrip. Qed.
Print Assumptions C10_distance.
Theorem C10_at_onto : forall d e, spdom_wf d -> dims e = spdims d -> in_lists d (values e) ->
  exists v, sp_distance d [e] = Ok (combine (spdims d) v) /\ sp_in_range d v /\ sp_at d v = Ok e.
Proof. exact sp_at_surjective. Qed.
Print Assumptions C10_at_onto.
Theorem C10_for_each : forall d, spdom_wf d ->
  exists l : list tagged,
    (forall (S : Type) (f : tagged -> S -> S) (s : S), sp_host_for_each d f s = Ok (fold_left (fun s e => f e s) l s)) /\
    (forall e, In e l <-> dims e = spdims d /\ in_lists d (values e)) /\
    NoDup l /\ StronglySorted (fun a b => lex_lt (values a) (values b)) l.
Proof. exact sp_for_each_exact. Qed.
Print Assumptions C10_for_each.
Theorem C10_equality : forall d o, spdom_wf d -> spdom_wf o -> spdims d = spdims o ->
  sp_count d < 2 ^ 64 -> sp_count o < 2 ^ 64 ->
  (sp_eq d o = true <-> forall xs, in_lists d xs <-> in_lists o xs).
Proof. exact sp_eq_exact. Qed.
Print Assumptions C10_equality.
(** Finding: the constructor does not check that the elements are sorted; without it the search misses elements that the domain has and visits. *)
Theorem C10_unsorted_refuted : exists d e, NoDup (spdims d) /\ Forall (fun p => NoDup (snd p)) d /\ dims e = spdims d /\ in_lists d (values e) /\ sp_contains d [e] = Ok false /\
  sp_host_for_each d (fun x s => orb s (Z.eqb (hd 0 (values x)) (hd 0 (values e)))) false = Ok true.
Proof. exact sp_unsorted. Qed.
Print Assumptions C10_unsorted_refuted.
Example C10_ex : spdom_wf [(1%nat, [2; 5; 9; 40])] /\
  binary_search [2; 5; 9; 40] 9 = Some (Ok true) /\ binary_search [2; 5; 9; 40] 10 = Some (Ok false) /\
  sp_distance [(1%nat, [2; 5; 9; 40])] [[(1%nat, 40)]] = Ok [(1%nat, 3)].
Proof.
  split; [|repeat split; vm_compute; reflexivity].
  split; [repeat constructor; simpl; auto | repeat constructor; simpl; lia].
Qed.
