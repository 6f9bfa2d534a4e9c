(** Properties C27, C28 and C29: samplings.  Coordinates are real numbers. *)
From Coq Require Import Lra.
From Verif Require Import ArithModel SamplingModel SamplingSpec SamplingProofs.
Local Open Scope Z_scope.

(** * C27 *)
Theorem C27_init : forall q a b n, (a < b)%R -> 2 <= n < 2 ^ 63 ->
  exists s, us_init RA q a b n = Ok (s, [(q, (0, n))]) /\
    (forall k, 0 <= k < n -> us_coordinate RA s k = (a + IZR k * (b - a) / IZR (n - 1))%R) /\
    us_coordinate RA s 0 = a /\ us_coordinate RA s (n - 1) = b /\
    (forall i j, 0 <= i < j -> j < n -> (us_coordinate RA s i < us_coordinate RA s j)%R) /\
    (forall i, 0 <= i -> i + 1 < n -> us_distance_at_right RA s i = (us_coordinate RA s (i + 1) - us_coordinate RA s i)%R /\
       us_distance_at_left RA s (i + 1) = (us_coordinate RA s (i + 1) - us_coordinate RA s i)%R) /\
    rmin RA (us_coord RA s) [(q, (0, n))] = Ok a /\ rmax RA (us_coord RA s) [(q, (0, n))] = Ok b /\
    rlength RA (us_coord RA s) [(q, (0, n))] = Ok (b - a)%R.
Proof. exact us_init_full. Qed.
Print Assumptions C27_init.
Theorem C27_ghosted : forall q a b n p r, (a < b)%R -> 2 <= n -> 0 <= p -> 0 <= r -> n + p + r < 2 ^ 63 ->
  exists s g, us_init_ghosted RA q a b n p r = Ok (s, g) /\
    g_pre g = [(q, (0, p))] /\ g_main g = [(q, (p, p + n))] /\ g_post g = [(q, (p + n, p + n + r))] /\ g_all g = [(q, (0, p + n + r))] /\
    (forall k, 0 <= k < p + n + r -> us_coordinate RA s k = (a + IZR (k - p) * (b - a) / IZR (n - 1))%R) /\
    rmin RA (us_coord RA s) (g_main g) = Ok a /\ rmax RA (us_coord RA s) (g_main g) = Ok b.
Proof. exact us_ghosted_full. Qed.
Print Assumptions C27_ghosted.
Example C27_ex :
  match us_init QA 3%nat (1 # 1)%Q (3 # 1)%Q 5 with
  | Ok (s, d) => d = [(3%nat, (0, 5))] /\ map (us_coordinate QA s) [0; 1; 2; 3; 4] = [1 # 1; 3 # 2; 2 # 1; 5 # 2; 3 # 1]%Q
  | _ => False end.
Proof. vm_compute. split; reflexivity. Qed.
Example C27_ghosted_ex :
  match us_init_ghosted QA 3%nat (1 # 1)%Q (3 # 1)%Q 5 2 1 with
  | Ok (s, g) => g_main g = [(3%nat, (2, 7))] /\ map (us_coordinate QA s) [0; 1; 2; 6; 7] = [0 # 1; 1 # 2; 1 # 1; 3 # 1; 7 # 2]%Q
  | _ => False end.
Proof. vm_compute. split; reflexivity. Qed.

(** * C28 *)
Theorem C28_init : forall q (l : list R), l <> [] -> small (length l) ->
  (increasing l -> exists s, ns_init RA q l = Ok (Some (s, [(q, (0, Z.of_nat (length l)))])) /\
     (forall k x, nth_error l k = Some x -> ns_coordinate RA s (Z.of_nat k) = Ok x) /\
     (forall k x y, nth_error l k = Some x -> nth_error l (S k) = Some y ->
        ns_distance_at_right RA s (Z.of_nat k) = Ok (y - x)%R /\ ns_distance_at_left RA s (Z.of_nat (S k)) = Ok (y - x)%R /\ (0 <= y - x)%R)) /\
  (~ increasing l -> ns_init RA q l = Ok None).
Proof. exact ns_init_ok. Qed.
Print Assumptions C28_init.
Theorem C28_ghosted : forall q (pre l post : list R), l <> [] -> small (length pre + length l + length post) ->
  (increasing (pre ++ l ++ post) -> exists s g, ns_init_ghosted RA q l pre post = Ok (Some (s, g)) /\
     let p := Z.of_nat (length pre) in let n := Z.of_nat (length l) in let r := Z.of_nat (length post) in
     g_pre g = [(q, (0, p))] /\ g_main g = [(q, (p, p + n))] /\ g_post g = [(q, (p + n, p + n + r))] /\ g_all g = [(q, (0, p + n + r))] /\
     (forall k x, nth_error pre k = Some x -> ns_coordinate RA s (Z.of_nat k) = Ok x) /\
     (forall k x, nth_error l k = Some x -> ns_coordinate RA s (p + Z.of_nat k) = Ok x) /\
     (forall k x, nth_error post k = Some x -> ns_coordinate RA s (p + n + Z.of_nat k) = Ok x)) /\
  (~ increasing (pre ++ l ++ post) -> ns_init_ghosted RA q l pre post = Ok None).
Proof. exact ns_ghosted_ok. Qed.
Print Assumptions C28_ghosted.
Example C28_ex : increasing [1; 2; 2; 5]%R /\ ~ increasing [1; 3; 2]%R.
Proof.
  split.
  - intros i j x y H Hi Hj. destruct j as [|[|[|[|j]]]]; [lia | | | | destruct j; discriminate]; cbn in Hj; injection Hj as <-;
      destruct i as [|[|[|i]]]; try lia; cbn in Hi; injection Hi as <-; lra.
  - intros H. specialize (H 1%nat 2%nat 3%R 2%R ltac:(lia) eq_refl eq_refl). lra.
Qed.

(** * C29 *)
Theorem C29_periodic : forall s i, ps_front RA s = 0 -> 0 < ps_n_period RA s <= 2 ^ 31 -> 0 <= i -> i + 2 * ps_n_period RA s < 2 ^ 63 ->
  let h := ps_n_period RA s / 2 in
  exists k x, ps_coordinate RA s i = Ok x /\ ps_coordinate RA s (i + ps_n_period RA s) = Ok x /\
    x = (ps_origin RA s + IZR k * ps_step RA s)%R /\ - h <= k < ps_n_period RA s - h /\ (i - k) mod ps_n_period RA s = 0.
Proof. exact ps_periodic. Qed.
Print Assumptions C29_periodic.
Theorem C29_injective : forall s i j x, ps_front RA s = 0 -> 0 < ps_n_period RA s <= 2 ^ 31 -> (0 < ps_step RA s)%R ->
  0 <= i < j -> j < i + ps_n_period RA s -> j + ps_n_period RA s < 2 ^ 63 ->
  ps_coordinate RA s i = Ok x -> ps_coordinate RA s j <> Ok x.
Proof. exact ps_injective. Qed.
Print Assumptions C29_injective.
Theorem C29_init : forall q a b n P, (a < b)%R -> 2 <= n < 2 ^ 63 -> 2 <= P <= 2 ^ 31 ->
  exists s, ps_init RA q a b n P = Ok (s, [(q, (0, n))]) /\ ps_front RA s = 0 /\ ps_n_period RA s = P /\ (0 < ps_step RA s)%R /\
    ps_coordinate RA s 0 = Ok a /\
    (n <= P - P / 2 -> ps_coordinate RA s (n - 1) = Ok b).
Proof. exact ps_init_ok. Qed.
Print Assumptions C29_init.
(** With ghosts, while the points stay in the first half of the period. *)
Theorem C29_ghosted : forall q a b n P p r, (a < b)%R -> 2 <= n -> 2 <= P <= 2 ^ 31 -> 0 <= p -> 0 <= r -> n + p + r < 2 ^ 63 ->
  exists s g, ps_init_ghosted RA q a b n P p r = Ok (s, g) /\ ps_front RA s = 0 /\ ps_n_period RA s = P /\ (0 < ps_step RA s)%R /\
    g_pre g = [(q, (0, p))] /\ g_main g = [(q, (p, p + n))] /\ g_post g = [(q, (p + n, p + n + r))] /\ g_all g = [(q, (0, p + n + r))] /\
    (forall k, 0 <= k < P - P / 2 -> ps_coordinate RA s k = Ok (a + IZR (k - p) * ((b - a) / IZR (n - 1)))%R) /\
    (p < P - P / 2 -> ps_coordinate RA s p = Ok a) /\ (p + n - 1 < P - P / 2 -> ps_coordinate RA s (p + n - 1) = Ok b).
Proof. exact ps_ghosted_ok. Qed.
Print Assumptions C29_ghosted.
(** Finding: the bound 2^31 on the period is needed. *)
Theorem C29_long_period_refuted : exists s i, ps_init RA 0%nat 0%R 1%R 2 (2 ^ 31 + 2) = Ok (s, [(0%nat, (0, 2))]) /\ 0 <= i /\ ps_coordinate RA s i = Undef.
Proof. exact ps_long_period. Qed.
Print Assumptions C29_long_period_refuted.
(** Finding: when the points fill more than half of the period, the sampling does not reach b and
    [rlength] of the domain may be negative. *)
Theorem C29_length_refuted : exists s d x, ps_init RA 0%nat 0%R 4%R 5 6 = Ok (s, d) /\
  rlength RA (ps_coordinate RA s) d = Ok x /\ (x < 0)%R.
Proof. exact ps_length_negative. Qed.
Print Assumptions C29_length_refuted.
Example C29_ex :
  match ps_init QA 3%nat (0 # 1)%Q (4 # 1)%Q 5 10 with
  | Ok (s, d) => d = [(3%nat, (0, 5))] /\ ps_n_period QA s = 10 /\
      map (ps_coordinate QA s) [0; 4; 5; 9; 10; 14] = [Ok (0 # 1); Ok (4 # 1); Ok (-5 # 1); Ok (-1 # 1); Ok (0 # 1); Ok (4 # 1)]%Q
  | _ => False end.
Proof. vm_compute. split; [|split]; reflexivity. Qed.
Example C29_ghosted_ex :
  match ps_init_ghosted QA 3%nat (0 # 1)%Q (4 # 1)%Q 5 20 2 1 with
  | Ok (s, g) => g_main g = [(3%nat, (2, 7))] /\ map (ps_coordinate QA s) [0; 2; 6; 20] = [Ok (-2 # 1); Ok (0 # 1); Ok (4 # 1); Ok (-2 # 1)]%Q
  | _ => False end.
Proof. vm_compute. split; reflexivity. Qed.
