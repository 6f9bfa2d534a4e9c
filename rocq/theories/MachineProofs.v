From Verif Require Import Machine.
Ltac Zify.zify_post_hook ::= Z.div_mod_to_equations.

Lemma two64_val : two64 = 18446744073709551616. Proof. reflexivity. Qed.
Lemma two63_val : two63 = 9223372036854775808. Proof. reflexivity. Qed.
Ltac mlia := unfold u64_add, u64_sub, u64_mul, u64, i64, is_u64, is_i64 in *;
  rewrite ?two64_val, ?two63_val in *; lia.

Lemma u64_range z : is_u64 (u64 z). Proof. mlia. Qed.
Lemma i64_range z : is_i64 (i64 z). Proof. mlia. Qed.
Lemma u64_id z : is_u64 z -> u64 z = z. Proof. mlia. Qed.
Lemma i64_id z : is_i64 z -> i64 z = z. Proof. mlia. Qed.
Lemma u64_sub_add a b : is_u64 a -> is_u64 b -> u64_add b (i64 (u64_sub a b)) = a.
Proof. mlia. Qed.
Lemma u64_add_sub a v : is_u64 a -> is_i64 v -> i64 (u64_sub (u64_add a v) a) = v.
Proof. mlia. Qed.
Lemma u64_add_sub' a v : is_u64 a -> u64_sub (u64_add a v) v = a.
Proof. mlia. Qed.
Lemma u64_sub_add' a v : is_u64 a -> u64_add (u64_sub a v) v = a.
Proof. mlia. Qed.
Lemma u64_add_id a v : is_u64 (a + v) -> u64_add a v = a + v.
Proof. mlia. Qed.
Lemma u64_sub_id a v : is_u64 (a - v) -> u64_sub a v = a - v.
Proof. mlia. Qed.
Lemma u64_u64_add a b : u64 (u64 a + b) = u64 (a + b).
Proof. unfold u64. now rewrite Zplus_mod_idemp_l. Qed.
Lemma u64_add_u64 a b : u64 (a + u64 b) = u64 (a + b).
Proof. unfold u64. now rewrite Zplus_mod_idemp_r. Qed.
Lemma u64_mul_u64_l a b : u64 (u64 a * b) = u64 (a * b).
Proof. unfold u64. now rewrite Zmult_mod_idemp_l. Qed.
Lemma u64_mul_u64_r a b : u64 (a * u64 b) = u64 (a * b).
Proof. unfold u64. now rewrite Zmult_mod_idemp_r. Qed.
Lemma is_i64b_spec z : is_i64b z = true <-> is_i64 z.
Proof. unfold is_i64b, is_i64. lia. Qed.
Lemma i64_ret_some z w : i64_ret z = Some w <-> is_i64 z /\ w = z.
Proof.
  unfold i64_ret. destruct (is_i64b z) eqn:E.
  - apply is_i64b_spec in E. split; [intros H; injection H as <-; auto | intros [_ ->]; auto].
  - split; [discriminate | intros [H _]; apply is_i64b_spec in H; congruence].
Qed.
