(** Properties C48 (integer helpers) and C51 (PDI events). *)
From Coq Require Import Lra Factorial String Reals.
From Verif Require Import Machine ArithModel MathModel MathProofs PdiModel PdiSpec PdiProofs.
Local Open Scope Z_scope.

(** * C48 *)
Theorem C48_factorial : forall f, 0 <= f < 2 ^ 64 - 1 -> factorial f = Z.of_nat (fact (Z.to_nat f)) mod 2 ^ 64.
Proof. exact factorial_ok. Qed.
Print Assumptions C48_factorial.
(** Finding: the largest argument returns 1: the loop bound wraps to 0. *)
Theorem C48_factorial_max : factorial (2 ^ 64 - 1) = 1.
Proof. exact factorial_max. Qed.
Print Assumptions C48_factorial_max.
Theorem C48_ipow_unsigned : forall a n, ipow_size RA a n = (a ^ n)%R.
Proof. exact ipow_size_ok. Qed.
Print Assumptions C48_ipow_unsigned.
Theorem C48_ipow : forall a i, - 2 ^ 31 < i < 2 ^ 31 -> a <> 0%R -> ipow RA a i = Ok (powerRZ a i).
Proof. exact ipow_ok. Qed.
Print Assumptions C48_ipow.
Theorem C48_ipow_nonneg : forall a i, 0 <= i < 2 ^ 31 -> ipow RA a i = Ok (a ^ Z.to_nat i)%R.
Proof. exact ipow_nonneg. Qed.
Print Assumptions C48_ipow_nonneg.
(** In double precision with its rounding, for all ints: [x mod y] is the remainder with the sign of [y]. *)
Theorem C48_modulo_double : forall x y, y <> 0 -> - 2 ^ 31 <= x < 2 ^ 31 -> - 2 ^ 31 <= y < 2 ^ 31 ->
  modulo FA x y = x mod y.
Proof. exact modulo_ok. Qed.
Print Assumptions C48_modulo_double.
Theorem C48_sum : forall l, sum RA l = fold_right Rplus 0%R l.
Proof. exact sum_ok. Qed.
Print Assumptions C48_sum.
Theorem C48_dot_product : forall a b, dot_product RA a b = fold_right Rplus 0%R (map (fun p => (fst p * snd p)%R) (combine a b)).
Proof. exact dot_product_ok. Qed.
Print Assumptions C48_dot_product.
Theorem C48_min_max : forall x y, min_ RA x y = Rmin x y /\ max_ RA x y = Rmax x y.
Proof. intros x y. exact (conj (min_ok x y) (max_ok x y)). Qed.
Print Assumptions C48_min_max.
Example C48_ex : factorial 5 = 120 /\ factorial 25 = 7034535277573963776 /\ modulo FA (-7) 3 = 2 /\ modulo FA 7 3 = 1 /\
  modulo FA 2147483647 2 = 1 /\ ipow QA (3 # 2)%Q (-2) = Ok (4 # 9)%Q.
Proof. vm_compute. repeat split; reflexivity. Qed.

(** * C51 *)
(** For every sequence of [with] calls: the calls to PDI are those of [expected]; they are followed by the
    event, raised once while everything is shared and alive, then by the reclaims, after which PDI and the
    storage of the event are as before.  The judgement [steps] holds for no trace that reclaims a name that
    is not shared, shares an object that does not exist, or destroys an object that is still shared. *)
Theorem C51_life : forall name l w0, (forall k, owned w0 k = None) -> (forall n k a, ~ In (Own k, a) (shared w0 n)) ->
  Forall acceptable l -> Forall extents_fit l ->
  exists before after refs w1 w2, event_life name l = Ok (before ++ [PDI_event name] ++ after) /\
    (forall n, ~ In (PDI_event n) (before ++ after)) /\ (forall n, ~ In (PDI_reclaim n) before) /\ (forall k, ~ In (Release k) before) /\
    steps w0 before w1 /\
    Forall2 (fun r x => fst (fst r) = fst (fst x) /\ snd r = snd x /\ denotes w1 (snd (fst r)) (snd (fst x)))
            refs (concat (map expected l)) /\
    (forall n, shared w1 n = rev (map (fun r => (snd (fst r), snd r)) (filter (fun r => String.eqb n (fst (fst r))) refs)) ++ shared w0 n) /\
    steps w1 after w2 /\ same_world w2 w0.
Proof. exact life_ok. Qed.
Print Assumptions C51_life.
(** Write access to constant data is rejected at compilation. *)
Theorem C51_rejected : forall name l, ~ Forall acceptable l -> event_life name l = Rejected.
Proof. exact life_rejected. Qed.
Print Assumptions C51_rejected.
Example C51_ex :
  event_life "ev" [("a"%string, None, Chunk [2; 3] 100 true); ("n"%string, None, Arithmetic 7 50 false); ("a"%string, Some PDI_OUT, Arithmetic 8 60 true)] =
  Ok [Store 0 (Scalar 2); PDI_share "a_rank" (Own 0) PDI_OUT; Store 1 (Array [2; 3]); PDI_share "a_extents" (Own 1) PDI_OUT;
      PDI_share "a" (User 100) PDI_INOUT; Store 2 (Scalar 7); PDI_share "n" (Own 2) PDI_OUT;
      Store 3 (Scalar 8); PDI_share "a" (Own 3) PDI_OUT; PDI_event "ev";
      PDI_reclaim "a_rank"; PDI_reclaim "a_extents"; PDI_reclaim "a"; PDI_reclaim "n"; PDI_reclaim "a";
      Release 0; Release 1; Release 2; Release 3]%string.
Proof. reflexivity. Qed.
