From Verif Require Import Machine MachineProofs TaggedModel IteratorModel.

Lemma opp_ok n : is_i64 n -> n <> - 2 ^ 63 -> of_i64 (i64_opp n) = Ok (- n).
Proof.
  intros H Hn. unfold i64_opp, i64_ret. replace (is_i64b (- n)) with true; auto.
  symmetry. apply is_i64b_spec. mlia.
Qed.
Lemma it_add_total x n : is_u64 x -> is_i64 n -> n <> - 2 ^ 63 -> it_add x n = Ok ((x + n) mod 2 ^ 64).
Proof.
  intros Hx Hn Hm. unfold it_add. destruct (Z.leb_spec 0 n).
  - f_equal. mlia.
  - rewrite opp_ok by auto. cbn [rbind]. f_equal. mlia.
Qed.
Lemma it_sub_total x n : is_u64 x -> is_i64 n -> n <> - 2 ^ 63 -> it_sub x n = Ok ((x - n) mod 2 ^ 64).
Proof.
  intros Hx Hn Hm. unfold it_sub. destruct (Z.leb_spec 0 n).
  - f_equal. mlia.
  - rewrite opp_ok by auto. cbn [rbind]. f_equal. mlia.
Qed.
Lemma i64_sub_mod x n : is_u64 x -> is_i64 n -> n <> - 2 ^ 63 -> it_diff ((x + n) mod 2 ^ 64) x = Ok n.
Proof.
  intros Hx Hn Hm. unfold it_diff.
  destruct (Z.ltb_spec ((x + n) mod 2 ^ 64) x).
  - replace (i64 (u64_sub x ((x + n) mod 2 ^ 64))) with (- n) by mlia.
    rewrite opp_ok; [f_equal; lia | mlia | mlia].
  - f_equal. mlia.
Qed.
Lemma iterator_laws x n : is_u64 x -> is_i64 n -> n <> - 2 ^ 63 ->
  exists y, it_add x n = Ok y /\ is_u64 y /\ it_diff y x = Ok n /\ it_sub y n = Ok x /\
            it_at x n = y /\ (0 <= x + n < 2 ^ 64 -> y = x + n).
Proof.
  intros Hx Hn Hm. exists ((x + n) mod 2 ^ 64). rewrite it_add_total by auto.
  assert (is_u64 ((x + n) mod 2 ^ 64)) by mlia.
  split; [reflexivity|]. split; [auto|]. split; [now apply i64_sub_mod|]. split.
  - rewrite it_sub_total by auto. f_equal. mlia.
  - split; [reflexivity|]. intros. now apply Z.mod_small.
Qed.
Lemma iterator_incr x : is_u64 x -> it_add x 1 = Ok (it_incr x) /\ it_sub x 1 = Ok (it_decr x) /\
  it_decr (it_incr x) = x /\ it_incr (it_decr x) = x.
Proof.
  intros Hx. rewrite it_add_total, it_sub_total by (mlia || auto). unfold it_incr, it_decr.
  repeat split; mlia.
Qed.
Lemma iterator_order x n m : is_u64 x -> 0 <= x + n < 2 ^ 64 -> 0 <= x + m < 2 ^ 64 -> is_i64 n -> is_i64 m ->
  n <> - 2 ^ 63 -> m <> - 2 ^ 63 ->
  exists y z, it_add x n = Ok y /\ it_add x m = Ok z /\
   (it_lt y z = true <-> n < m) /\ (it_eq y z = true <-> n = m).
Proof.
  intros Hx H1 H2 Hn Hm Nn Nm. exists (x + n), (x + m). rewrite !it_add_total by auto.
  rewrite !Z.mod_small by auto. repeat split; unfold it_lt, it_eq; lia.
Qed.

Lemma range_for_exact fuel b : 0 <= b -> b + Z.of_nat fuel < 2 ^ 64 ->
  range_for it_incr fuel b (b + Z.of_nat fuel) = Some (map (fun k => b + Z.of_nat k) (seq 0 fuel)).
Proof.
  revert b. induction fuel as [|k IH]; intros b Hb Hf.
  - simpl. unfold it_eq. replace (b =? b + 0) with true by lia. reflexivity.
  - cbn [range_for]. unfold it_eq. replace (b =? b + Z.of_nat (S k)) with false by lia.
    replace (it_incr b) with (b + 1) by (unfold it_incr; rewrite u64_add_id; mlia).
    replace (b + Z.of_nat (S k)) with (b + 1 + Z.of_nat k) by lia.
    rewrite IH by lia. f_equal. cbn [seq map]. f_equal; [lia|].
    rewrite <- seq_shift, map_map. apply map_ext. intros. lia.
Qed.
(** Strided iteration. *)
Lemma range_for_strided fuel s b : 0 < s -> 0 <= b -> b + Z.of_nat fuel * s < 2 ^ 64 ->
  range_for (sit_incr s) fuel b (b + Z.of_nat fuel * s) = Some (map (fun k => b + Z.of_nat k * s) (seq 0 fuel)).
Proof.
  intros Hs. revert b. induction fuel as [|k IH]; intros b Hb Hf.
  - cbn. unfold it_eq. replace (b =? b + 0) with true by lia. reflexivity.
  - cbn [range_for]. unfold it_eq. replace (b =? b + Z.of_nat (S k) * s) with false by nia.
    replace (sit_incr s b) with (b + s) by (unfold sit_incr; rewrite u64_add_id; [lia | unfold is_u64, two64; nia]).
    replace (b + Z.of_nat (S k) * s) with (b + s + Z.of_nat k * s) by lia.
    rewrite IH by lia. f_equal. cbn [seq map]. f_equal; [lia|].
    rewrite <- seq_shift, map_map. apply map_ext. intros. lia.
Qed.
Lemma mul_mod_i64 a s : i64 (u64_mul (u64 a) (u64 s)) = i64 (a * s).
Proof.
  unfold u64_mul, u64, i64. rewrite <- Z.mul_mod by (unfold two64; lia).
  rewrite Zplus_mod_idemp_l. reflexivity.
Qed.
Lemma i64_mod z : exists k, i64 z = z + k * 2 ^ 64.
Proof.
  exists (- ((z + two63) / two64)). unfold i64. rewrite Z.mod_eq by (unfold two64; lia).
  change two64 with (2 ^ 64). lia.
Qed.
Lemma u64_add_i64 x z : u64_add x (i64 z) = (x + z) mod 2 ^ 64.
Proof.
  destruct (i64_mod z) as [k ->]. unfold u64_add, u64. change two64 with (2 ^ 64).
  rewrite Z.add_assoc. apply Z.mod_add. lia.
Qed.
Lemma u64_sub_i64 x z : u64_sub x (i64 z) = (x - z) mod 2 ^ 64.
Proof.
  destruct (i64_mod z) as [k ->]. unfold u64_sub, u64. change two64 with (2 ^ 64).
  replace (x - (z + k * 2 ^ 64)) with (x - z + (- k) * 2 ^ 64) by lia. apply Z.mod_add. lia.
Qed.
Lemma sit_add_total s x n : is_i64 n -> n <> - 2 ^ 63 -> sit_add s x n = Ok ((x + n * s) mod 2 ^ 64).
Proof.
  intros Hn Hm. unfold sit_add. destruct (Z.leb_spec 0 n).
  - rewrite mul_mod_i64, u64_add_i64. reflexivity.
  - rewrite opp_ok by auto. cbn [rbind]. rewrite mul_mod_i64, u64_sub_i64. f_equal. f_equal. lia.
Qed.
Lemma sit_sub_total s x n : is_i64 n -> n <> - 2 ^ 63 -> sit_sub s x n = Ok ((x - n * s) mod 2 ^ 64).
Proof.
  intros Hn Hm. unfold sit_sub. destruct (Z.leb_spec 0 n).
  - rewrite mul_mod_i64, u64_sub_i64. reflexivity.
  - rewrite opp_ok by auto. cbn [rbind]. rewrite mul_mod_i64, u64_add_i64. f_equal. f_equal. lia.
Qed.
Lemma strided_iterator_laws s x n : is_u64 x -> is_i64 n -> n <> - 2 ^ 63 ->
  exists y, sit_add s x n = Ok y /\ sit_sub s y n = Ok x /\ (0 <= x + n * s < 2 ^ 64 -> y = x + n * s) /\
    (n = 1 -> y = sit_incr s x) /\ (n = -1 -> y = sit_decr s x).
Proof.
  intros Hx Hn Hm. exists ((x + n * s) mod 2 ^ 64). rewrite sit_add_total, sit_sub_total by auto.
  split; [reflexivity|]. split.
  - f_equal. rewrite Zminus_mod_idemp_l. replace (x + n * s - n * s) with x by lia. apply Z.mod_small. mlia.
  - split; [intros; now apply Z.mod_small|]. split; intros ->; unfold sit_incr, sit_decr, u64_add, u64_sub, u64, two64; f_equal; lia.
Qed.
(** The difference of strided iterators is a number of discrete steps times the stride. *)
Lemma strided_diff_scaled s x n : is_u64 x -> is_u64 (x + n * s) -> - 2 ^ 63 < n * s < 2 ^ 63 ->
  sit_diff (x + n * s) x = Ok (n * s).
Proof.
  intros Hx Hy H1. unfold sit_diff. generalize dependent (n * s). intros z Hy H1. destruct (Z.ltb_spec (x + z) x).
  - replace (i64 (u64_sub x (x + z))) with (- z) by (unfold is_u64 in *; mlia). rewrite opp_ok; [f_equal; lia | unfold is_i64; mlia | mlia].
  - f_equal. unfold is_u64 in *. mlia.
Qed.
