(** The assembly of the matrix. *)
From Coq Require Import Bool Reals Lia Lra ZifyBool List.
From Coquelicot Require Import Coquelicot.
From Verif Require Import BuilderSpec LoopProofs BSplineMath BSplineDeriv SamplingProofs MathProofs LinearProofs LinearProofs2 LinearLemmas EvaluatorSpace EvaluatorProofs BuilderMath.
Import ListNotations.
Local Open Scope bool_scope. Local Open Scope Z_scope.

(** ** Machine integers *)
Lemma i32_u64 z : i32 (u64 z) = i32 z.
Proof.
  unfold i32, u64. change two64 with (2 ^ 32 * 2 ^ 32). f_equal.
  rewrite <- (Zplus_mod_idemp_l (z mod (2 ^ 32 * 2 ^ 32))), <- (Zplus_mod_idemp_l z). do 2 f_equal.
  rewrite Z.rem_mul_r by lia. rewrite (Z.mul_comm (2 ^ 32)), Z_mod_plus_full. apply Z.mod_mod. lia.
Qed.
Lemma u64_u64 z : u64 (u64 z) = u64 z. Proof. unfold u64. now rewrite Z.mod_mod. Qed.
Lemma u64_add_l x y : u64_add (u64 x) y = u64 (x + y). Proof. unfold u64_add, u64. apply Zplus_mod_idemp_l. Qed.
Lemma u64_add_r x y : u64_add x (u64 y) = u64 (x + y). Proof. unfold u64_add, u64. apply Zplus_mod_idemp_r. Qed.
Lemma u64_sub_l x y : u64_sub (u64 x) y = u64 (x - y). Proof. unfold u64_sub, u64. apply Zminus_mod_idemp_l. Qed.
Lemma u64_sub_r x y : u64_sub x (u64 y) = u64 (x - y). Proof. unfold u64_sub, u64. apply Zminus_mod_idemp_r. Qed.
Lemma u64_add_u x y : u64_add x y = u64 (x + y). Proof. reflexivity. Qed.
Lemma u64_sub_u x y : u64_sub x y = u64 (x - y). Proof. reflexivity. Qed.
Lemma R_trunc_IZR z : R_trunc (IZR z) = z.
Proof.
  unfold R_trunc. assert (I : forall k r, r = IZR k -> Int_part r = k).
  { intros k r ->. pose proof (base_Int_part (IZR k)) as [B1 B2]. apply le_IZR in B1.
    assert (IZR k - 1 < IZR (Int_part (IZR k)))%R by lra. rewrite <- minus_IZR in H. apply lt_IZR in H. lia. }
  destruct (Rlt_dec (IZR z) 0); [|now apply I]. rewrite (I (- z)); [lia|]. now rewrite opp_IZR.
Qed.
Lemma modulo_R x y : 0 < y -> modulo RA x y = x mod y.
Proof.
  intros Hy. unfold modulo. assert (Hy' : (0 < IZR y)%R) by (apply IZR_lt; lia).
  assert (E : MathModel.nfloor RA (IZR x / IZR y)%R = x / y).
  { pose proof (Z.mod_pos_bound x y Hy). pose proof (Z.div_mod x y ltac:(lia)).
    assert (B : (IZR (x / y) <= IZR x / IZR y < IZR (x / y) + 1)%R).
    { replace (IZR x) with (IZR y * IZR (x / y) + IZR (x mod y))%R by (rewrite <- mult_IZR, <- plus_IZR; f_equal; lia).
      replace ((IZR y * IZR (x / y) + IZR (x mod y)) / IZR y)%R with (IZR (x / y) + IZR (x mod y) / IZR y)%R by (field; lra).
      assert (0 <= IZR (x mod y))%R by (apply IZR_le; lia). assert (IZR (x mod y) < IZR y)%R by (apply IZR_lt; lia).
      assert (0 <= IZR (x mod y) / IZR y)%R by (apply Rle_div_r; lra).
      assert (IZR (x mod y) / IZR y < 1)%R by (apply Rlt_div_l; lra). lra. }
    set (q := (IZR x / IZR y)%R) in *. unfold MathModel.nfloor. cbn [RA ntrunc nofz nltb num]. unfold R_trunc, R_ltb. destruct (Rlt_dec q 0) as [H1|H1].
    - pose proof (base_Int_part (- q)) as [B1 B2]. set (p := Int_part (- q)) in *. rewrite opp_IZR. destruct (Rlt_dec q (- IZR p)) as [L|L].
      + assert (IZR (- p - 1) < IZR (x / y) + 1)%R by (rewrite minus_IZR, opp_IZR; lra). assert (IZR (x / y) < IZR (- p - 1) + 1)%R by (rewrite minus_IZR, opp_IZR; lra).
        rewrite <- plus_IZR in *. apply lt_IZR in H2, H3. lia.
      + assert (IZR (- p) < IZR (x / y) + 1)%R by (rewrite opp_IZR; lra). assert (IZR (x / y) < IZR (- p) + 1)%R by (rewrite opp_IZR; lra).
        rewrite <- plus_IZR in *. apply lt_IZR in H2, H3. lia.
    - pose proof (base_Int_part q) as [B1 B2]. destruct (Rlt_dec q (IZR (Int_part q))); [lra|].
      assert (IZR (Int_part q) < IZR (x / y) + 1)%R by lra. assert (IZR (x / y) < IZR (Int_part q) + 1)%R by lra.
      rewrite <- plus_IZR in *. apply lt_IZR in H2, H3. lia. }
  cbn [ndiv nsub nmul nofz ntrunc RA]. change (num RA) with R in *. rewrite E. rewrite <- mult_IZR, <- minus_IZR, R_trunc_IZR.
  rewrite Z.mod_eq by lia. reflexivity.
Qed.

(** ** Histories of assignments of the entries of one matrix *)
Lemma kept_matrix (sh : shape) (M : Z -> Z -> R) h : representable sh M ->
  Forall (fun '(i, j, v) => 0 <= i < sh_n sh /\ 0 <= j < sh_n sh /\ v = M i j) h ->
  (forall i j, 0 <= i < sh_n sh -> 0 <= j < sh_n sh -> M i j = 0%R \/ In (i, j, M i j) h) ->
  forall i j, 0 <= i < sh_n sh -> 0 <= j < sh_n sh -> kept 0%R sh h i j = M i j.
Proof.
  intros [Z S] G C i j Hi Hj. unfold kept. destruct (in_shape sh i j) eqn:E; [|now rewrite Z].
  unfold last_value. destruct (find _ (rev h)) as [[[k l] v]|] eqn:Fd.
  - apply find_some in Fd. destruct Fd as [In_ Same]. apply in_rev in In_. rewrite Forall_forall in G. destruct (G _ In_) as (_ & _ & ->).
    unfold same_entry in Same. apply orb_prop in Same. destruct Same as [Same | Same].
    + apply andb_prop in Same. destruct Same as [S1 S2]. apply Z.eqb_eq in S1, S2. now subst.
    + destruct (sh_kind sh) as [| |kd] eqn:K; try discriminate.
      apply andb_prop in Same. destruct Same as [Same S2]. apply andb_prop in Same. destruct Same as [Same S1]. apply andb_prop in Same. destruct Same as [M1 M2].
      apply Z.eqb_eq in S1, S2. subst. symmetry. apply (S j i kd eq_refl M2 M1) || apply (S i j kd eq_refl); assumption.
  - destruct (C i j Hi Hj) as [-> | In_]; [reflexivity|]. apply in_rev in In_. apply (find_none _ _ Fd) in In_. cbn in In_.
    unfold same_entry in In_. now rewrite !Z.eqb_refl in In_.
Qed.
Lemma set_all_snoc A (p0 : problem A) h i j v : set_all A p0 (h ++ [(i, j, v)]) = rbind (set_all A p0 h) (fun p => set_element A p i j v).
Proof. unfold set_all. now rewrite fold_left_app. Qed.
Section History.
Context (c : creation) (Hsens : sensible c) (p0 : problem RA) (Hp0 : create RA c = Ok p0) (M : Z -> Z -> R) (Hrep : representable (shape_of c) M).
Let n := sh_n (shape_of c).
Definition written (done : Z -> Z -> Prop) (p : problem RA) : Prop :=
  exists h : list (Z * Z * R), set_all RA p0 h = Ok p /\ Forall (fun '(i, j, v) => 0 <= i < n /\ 0 <= j < n /\ v = M i j) h /\
    (forall i j, 0 <= i < n -> 0 <= j < n -> done i j -> M i j = 0%R \/ In (i, j, M i j) h).
Lemma good_assignments h : Forall (fun '(i, j, v) => 0 <= i < n /\ 0 <= j < n /\ v = M i j) h -> assignments RA (shape_of c) h.
Proof.
  intros G. unfold assignments. eapply Forall_impl; [|exact G]. intros [[i j] v] (Hi & Hj & ->). split; [exact Hi|]. split; [exact Hj|].
  intros E. rewrite (proj1 Hrep) by assumption. cbn [nltb RA]. unfold nabs. cbn [nltb nopp nofz RA]. unfold R_ltb.
  destruct (Rlt_dec 0 0); [lra|]. unfold tol15. cbn [ndiv nofz RA]. change (num RA) with R. 
  destruct (Rlt_dec 0 _) as [|N]; [reflexivity|]. exfalso. apply N. apply Rdiv_lt_0_compat; apply IZR_lt; lia.
Qed.
Lemma written_none : written (fun _ _ => False) p0.
Proof. exists []. split; [reflexivity|]. split; [constructor|]. intros; contradiction. Qed.
Lemma written_weaken (done done' : Z -> Z -> Prop) p : (forall i j, 0 <= i < n -> 0 <= j < n -> done' i j -> done i j \/ M i j = 0%R) -> written done p -> written done' p.
Proof. intros H (h & E & G & C). exists h. split; [exact E|]. split; [exact G|]. intros i j Hi Hj D. destruct (H i j Hi Hj D) as [D' | Z]; [now apply C | now left]. Qed.
Lemma written_set done p i j v : written done p -> 0 <= i < n -> 0 <= j < n -> v = M i j ->
  exists p', set_element RA p i j v = Ok p' /\ written (fun k l => done k l \/ (k = i /\ l = j)) p'.
Proof using Hsens Hp0 Hrep.
  intros (h & E & G & C) Hi Hj Ev.
  assert (G' : Forall (fun '(i, j, v) => 0 <= i < n /\ 0 <= j < n /\ v = M i j) (h ++ [(i, j, v)])).
  { apply Forall_app. split; [exact G|]. constructor; [repeat split; try tauto; lia || assumption | constructor]. }
  destruct (st_round_trip RA c (h ++ [(i, j, v)]) Hsens (good_assignments _ G')) as (p0' & p' & E0 & E1 & _).
  assert (p0' = p0) by congruence. subst p0'. rewrite set_all_snoc, E in E1. cbn [rbind] in E1.
  exists p'. split; [exact E1|]. exists (h ++ [(i, j, v)]). split; [rewrite set_all_snoc, E; exact E1|]. split; [exact G'|].
  intros k l Hk Hl [D | [-> ->]].
  - destruct (C k l Hk Hl D) as [Z | I]; [now left | right; apply in_or_app; now left].
  - right. apply in_or_app. right. left. now rewrite Ev.
Qed.
(** A row, or a column, of assignments. *)
Lemma written_loop done p m (row col : Z -> Z) (val : Z -> res R) : written done p ->
  (forall k, 0 <= k < m -> 0 <= row k < n /\ 0 <= col k < n /\ val k = Ok (M (row k) (col k))) ->
  exists p', for_range 0 m (fun k p => v <- val k ;; set_element RA p (row k) (col k) v) p = Ok p' /\
    written (fun i j => done i j \/ exists k, 0 <= k < m /\ i = row k /\ j = col k) p'.
Proof using Hsens Hp0 Hrep.
  intros W H. destruct (Z_le_gt_dec 0 m) as [Hm | Hm].
  - destruct (for_range_inv (fun q p => written (fun i j => done i j \/ exists k, 0 <= k < q /\ i = row k /\ j = col k) p)
      (fun k p => v <- val k ;; set_element RA p (row k) (col k) v) 0 m p Hm) as (p' & E & W').
    + eapply written_weaken; [|exact W]. intros i j _ _ [D | (k & Hk & _)]; [now left | lia].
    + intros q p1 Hq W1. destruct (H q Hq) as (H1 & H2 & H3). rewrite H3. cbn [rbind].
      destruct (written_set _ p1 (row q) (col q) (M (row q) (col q)) W1 H1 H2 eq_refl) as (p2 & E2 & W2).
      exists p2. split; [exact E2|]. eapply written_weaken; [|exact W2]. intros i j _ _ D. left.
      destruct D as [D | (k & Hk & -> & ->)]; [left; now left|].
      destruct (Z.eq_dec k q) as [-> | N]; [right; now split | left; right; exists k; repeat split; lia].
    + exists p'. split; assumption.
  - rewrite for_range_empty by lia. exists p. split; [reflexivity|]. eapply written_weaken; [|exact W]. intros i j _ _ [D | (k & Hk & _)]; [now left | lia].
Qed.
Lemma written_kept p : written (fun _ _ => True) p ->
  exists h, set_all RA p0 h = Ok p /\ assignments RA (shape_of c) h /\ forall i j, 0 <= i < n -> 0 <= j < n -> kept 0%R (shape_of c) h i j = M i j.
Proof using Hrep.
  intros (h & E & G & C). exists h. split; [exact E|]. split; [now apply good_assignments|]. apply kept_matrix; [exact Hrep | exact G|].
  intros i j Hi Hj. now apply C.
Qed.
End History.

(** ** The equations *)
Section Assembly.
Context (s : bspline_space RA) (d : Z) (periodic : bool) (ncells : Z) (t : Z -> R) (a b : R) (F : facts s d periodic ncells t a b).
Context (m : scratch RA) (lower upper : closure) (Hcompat : compatible_closures RA s lower upper = true).
Let Hd : 1 <= d := f_d _ _ _ _ _ _ _ F.
Let Hn : 1 <= ncells := f_n _ _ _ _ _ _ _ F.
Let Hbig : ncells + 1 + 2 * d < 2 ^ 31 := f_big _ _ _ _ _ _ _ F.
Let N := unknowns periodic d ncells.
Let first := equations lower d.
Let last := N - equations upper d.
Let h := ((b - a) / IZR ncells)%R.

Lemma half_d : 0 <= d / 2 /\ 0 <= d mod 2 <= 1 /\ d = 2 * (d / 2) + d mod 2.
Proof. clear -Hd. pose proof (Z.div_mod d 2 ltac:(lia)). pose proof (Z.mod_pos_bound d 2 ltac:(lia)). pose proof (Z.div_pos d 2). lia. Qed.
Lemma nbe_equations c : n_boundary_equations c d = equations c d.
Proof. pose proof half_d. clear -H Hbig Hn. destruct c; cbn [n_boundary_equations equations]; try reflexivity; apply i32_small; lia. Qed.
Lemma equations_bound c : 0 <= equations c d <= d / 2. Proof. pose proof half_d. clear -H. destruct c; cbn [equations]; lia. Qed.
Lemma compat_periodic : periodic = true -> lower = PERIODIC /\ upper = PERIODIC.
Proof. intros ->. unfold compatible_closures in Hcompat. rewrite (f_per _ _ _ _ _ _ _ F) in Hcompat. destruct lower, upper; try discriminate; now split. Qed.
Lemma N_pos : ncells <= N <= ncells + d /\ 0 <= first /\ first + ncells <= last <= N.
Proof.
  pose proof half_d. pose proof (equations_bound lower). pose proof (equations_bound upper). unfold last, first, N, unknowns.
  destruct (bool_dec periodic true) as [Ep | Ep%not_true_is_false]; rewrite Ep; [destruct (compat_periodic Ep) as [El Eu]; rewrite El, Eu; cbn [equations]; lia | lia].
Qed.
Lemma nbasis_N : bs_nbasis RA s = N. Proof. exact (f_nbasis _ _ _ _ _ _ _ F). Qed.
Lemma nbe_min : s_nbe_xmin RA s lower = first. Proof. unfold s_nbe_xmin. rewrite (f_deg _ _ _ _ _ _ _ F). apply nbe_equations. Qed.
Lemma nbe_max : s_nbe_xmax RA s upper = equations upper d. Proof. unfold s_nbe_xmax. rewrite (f_deg _ _ _ _ _ _ _ F). apply nbe_equations. Qed.
Lemma odd_eq : s_odd RA s = d mod 2. Proof. unfold s_odd. now rewrite (f_deg _ _ _ _ _ _ _ F). Qed.
Lemma expected_eq : u64_sub (u64_sub (bs_nbasis RA s) (u64 (s_nbe_xmin RA s lower))) (u64 (s_nbe_xmax RA s upper)) = last - first.
Proof.
  rewrite nbasis_N, nbe_min, nbe_max. pose proof N_pos. pose proof (equations_bound upper). unfold last in *. unfold u64_sub.
  rewrite (u64_small first) by lia. rewrite (u64_small (equations upper d)) by lia. rewrite (u64_small (N - first)) by lia. rewrite u64_small; lia.
Qed.
Lemma h_pos : (0 < h)%R.
Proof. unfold h. pose proof (f_ab _ _ _ _ _ _ _ F). apply Rdiv_lt_0_compat; [lra | apply IZR_lt; lia]. Qed.

Context (start n : Z) (coord : Z -> res R) (x : Z -> R).
Hypothesis Hstart : 0 <= start.
Hypothesis Hsmall : start + ncells + 1 + 2 * d < 2 ^ 31.
Hypothesis Hcoord : forall i, 0 <= i < n -> coord (start + i) = Ok (x i) /\ (a <= x i <= b)%R.
Hypothesis Hfact : is_hermite lower || is_hermite upper = true -> falling_z d (Z.to_nat (d / 2)) < 2 ^ 31.
Context (shift : Z) (Hshift : periodic = false -> shift = 0) (Hshift_lo : - start - d <= shift <= ncells + d) (Hcells : periodic = true -> d + 1 <= ncells) (Hpoints : n = last - first).
Let M := collocation periodic t a b d ncells lower upper x shift.
Context (c : creation) (Hsens : sensible c) (p0 : problem RA) (Hp0 : create RA c = Ok p0) (Hrep : representable (shape_of c) M) (HN : sh_n (shape_of c) = N).
Notation written := (written c p0 M).

Lemma normalise_ok (derivs : arr2 R) : a2_n derivs = d + 1 -> a2_m derivs = d / 2 + 1 ->
  exists derivs', normalise RA s h derivs = Ok derivs' /\ a2_n derivs' = d + 1 /\ a2_m derivs' = d / 2 + 1 /\
    forall r k, 0 <= r <= d -> 0 <= k <= d / 2 -> a2_at derivs' r k = (h ^ Z.to_nat k * a2_at derivs r k)%R.
Proof.
  intros E1 E2. pose proof half_d. unfold normalise. rewrite (f_deg _ _ _ _ _ _ _ F).
  destruct (for_range_inv (fun i (v : arr2 R) => a2_n v = d + 1 /\ a2_m v = d / 2 + 1 /\
      (forall r k, 0 <= r < i -> 0 <= k <= d / 2 -> a2_at v r k = (h ^ Z.to_nat k * a2_at derivs r k)%R) /\
      (forall r k, i <= r <= d -> 0 <= k <= d / 2 -> a2_at v r k = a2_at derivs r k))
    (fun i (v : arr2 R) => for_range 1 (d / 2 + 1) (fun j (v : arr2 R) => w <- aget2 v i j ;; aset2 v i j (nmul RA w (ipow_size RA h (Z.to_nat j)))) v) 0 (d + 1) derivs)
    as (v & E & V1 & V2 & V3 & _).
  - lia.
  - repeat split; try assumption. intros; lia.
  - intros i v Hi (V1 & V2 & V3 & V4).
    destruct (for_range_inv (fun j (w : arr2 R) => a2_n w = d + 1 /\ a2_m w = d / 2 + 1 /\
        (forall r k, r <> i -> a2_at w r k = a2_at v r k) /\
        (forall k, 0 <= k < j -> a2_at w i k = (h ^ Z.to_nat k * a2_at derivs i k)%R) /\
        (forall k, j <= k <= d / 2 -> a2_at w i k = a2_at derivs i k))
      (fun j (v : arr2 R) => w <- aget2 v i j ;; aset2 v i j (nmul RA w (ipow_size RA h (Z.to_nat j)))) 1 (d / 2 + 1) v)
      as (w & E & W1 & W2 & W3 & W4 & W5).
    + lia.
    + repeat split; try assumption.
      * intros k Hk. replace k with 0 by lia. rewrite V4 by lia. cbn. ring.
      * intros k Hk. apply V4; lia.
    + intros j w Hj (W1 & W2 & W3 & W4 & W5). rewrite aget2_ok by lia. cbn [rbind]. rewrite aset2_ok by lia.
      eexists. split; [reflexivity|]. cbn [a2_n a2_m a2_at]. split; [exact W1|]. split; [exact W2|]. split; [|split].
      * intros r k Hr. rewrite upd2_neq by lia. now apply W3.
      * intros k Hk. destruct (Z.eq_dec k j) as [-> | Nk].
        -- rewrite upd2_eq. rewrite W5 by lia. rewrite ipow_size_ok. cbn [nmul RA]. change (num RA) with R. ring.
        -- rewrite upd2_neq by lia. apply W4. lia.
      * intros k Hk. rewrite upd2_neq by lia. apply W5. lia.
    + exists w. split; [exact E|]. split; [exact W1|]. split; [exact W2|]. split.
      * intros r k Hr Hk. destruct (Z.eq_dec r i) as [-> | Nr]; [apply W4; lia | rewrite W3 by exact Nr; apply V3; lia].
      * intros r k Hr Hk. rewrite W3 by lia. apply V4; lia.
  - exists v. split; [exact E|]. split; [exact V1|]. split; [exact V2|]. intros r k Hr Hk. apply V3; lia.
Qed.
Lemma orders i cl : 0 <= i < equations cl d -> Z.of_nat (order d i) = i + d mod 2 /\ 0 <= i + d mod 2 <= d / 2 /\ i + d mod 2 < d.
Proof. intros Hi. pose proof half_d. pose proof (equations_bound cl). unfold order. rewrite Z2Nat.id by lia. lia. Qed.

Lemma lower_rows_ok done p : is_hermite lower = true -> written done p ->
  exists p', hermite_lower_rows RA s m lower h p = Ok p' /\ written (fun i j => done i j \/ i < first) p'.
Proof.
  intros Hl W. pose proof half_d as Hh. assert (Ef : first = d / 2) by (unfold first; destruct lower; try discriminate; reflexivity).
  assert (Ep : periodic = false). { destruct (bool_dec periodic true) as [Ep | Ep%not_true_is_false]; [destruct (compat_periodic Ep) as [El _]; rewrite El in Hl; discriminate | exact Ep]. }
  assert (EN : N = ncells + d) by (unfold N, unknowns; now rewrite Ep).
  unfold hermite_lower_rows. rewrite (f_rmin _ _ _ _ _ _ _ F). cbn [rbind]. rewrite nbe_min, odd_eq, (f_deg _ _ _ _ _ _ _ F).
  pose proof (f_ab _ _ _ _ _ _ _ F) as Hab.
  destruct (f_derivs _ _ _ _ _ _ _ F m a first ltac:(lra) ltac:(lia)) as (v & cell & E & Hc & V1 & V2 & V3).
  { rewrite Ef. apply Hfact. now rewrite Hl. }
  pose proof (cell_first s d periodic ncells t a b F cell Hc) as ->.
  rewrite E. cbn [rbind]. destruct (normalise_ok v V1 ltac:(etransitivity; [exact V2 | lia])) as (w & E' & W1 & W2 & W3). rewrite E'. cbn [rbind].
  destruct (for_range_inv (fun i p => written (fun k l => done k l \/ k < i) p)
    (fun i p => for_range 0 d (fun j p => v <- aget2 w j (i + d mod 2) ;; set_element RA p i j v) p) 0 first p) as (p' & Ep' & Wp').
  - lia.
  - eapply written_weaken; [|exact W]. intros i j Hi Hj [D | D]; [now left | lia].
  - intros i q Hi Wq. destruct (orders i lower Hi) as (O1 & O2 & O3).
    assert (EM : forall j, M i j = scaled_derivative t d d h (order d i) a j).
    { intros j. unfold M, collocation. fold N first last h. now replace (i <? first) with true by lia. }
    destruct (written_loop c Hsens p0 Hp0 M Hrep (fun k l => done k l \/ k < i) q d (fun _ => i) (fun j => j) (fun j => aget2 w j (i + d mod 2)) Wq) as (q' & Eq & Wq').
    + intros j Hj. rewrite HN. pose proof N_pos. split; [lia|]. split; [lia|]. rewrite aget2_ok by lia. f_equal. rewrite W3 by lia. rewrite V3 by lia.
      rewrite EM. pose proof (scaled_kth s d periodic ncells t a b F d h (order d i) a j ltac:(lia) ltac:(lia) ltac:(lia)) as K.
      replace (d - d + j) with j in K by lia. rewrite K. unfold order. reflexivity.
    + exists q'. split; [exact Eq|]. eapply written_weaken; [|exact Wq']. rewrite HN. intros k l Hk Hl' D.
      destruct D as [D | D]; [left; left; now left|]. destruct (Z.eq_dec k i) as [-> | Nk]; [|left; left; right; lia].
      destruct (Z_lt_dec l d); [left; right; exists l; repeat split; lia|]. right. rewrite EM. unfold scaled_derivative.
      rewrite <- (f_first _ _ _ _ _ _ _ F), (deriv_begin t d d (order d i) l) by lia. ring.
  - exists p'. split; [exact Ep' | exact Wp'].
Qed.
Lemma column_eq cell r : d <= cell < d + ncells -> 0 <= r <= d ->
  u64 (modulo RA (i32 (u64_add (u64_sub (cell - d) (u64 shift)) r)) (i32 (bs_nbasis RA s))) = (cell - d + r - shift) mod N.
Proof.
  intros Hc Hr. pose proof N_pos. rewrite nbasis_N. rewrite u64_sub_r, u64_add_l, i32_u64.
  rewrite (i32_small N) by lia. rewrite i32_small by lia. rewrite modulo_R by lia.
  pose proof (Z.mod_pos_bound (cell - d - shift + r) N ltac:(lia)). rewrite u64_small by lia. f_equal. lia.
Qed.
Lemma row_eq k : 0 <= k < n -> u64_add (u64_sub (u64_add start k) (u64 (i32 start))) (u64 (s_nbe_xmin RA s lower)) = first + k.
Proof.
  intros Hk. pose proof N_pos. rewrite nbe_min. rewrite (i32_small start) by lia. unfold u64_add, u64_sub.
  rewrite (u64_small (start + k)) by lia. rewrite (u64_small start) by lia. rewrite (u64_small first) by lia.
  replace (start + k - start) with k by lia. rewrite (u64_small k) by lia. rewrite u64_small; lia.
Qed.
Lemma point_row_M k cell : 0 <= k < n -> in_cell t d ncells b (x k) cell ->
  (forall r, 0 <= r <= d -> M (first + k) ((cell - d + r - shift) mod N) = bspline_piece t cell (Z.to_nat d) (cell - d + r) (x k)) /\
  (forall j, 0 <= j < N -> (forall r, 0 <= r <= d -> j <> (cell - d + r - shift) mod N) -> M (first + k) j = 0%R).
Proof.
  intros Hk Hc. pose proof N_pos as HNp. pose proof Hc as [Hc' _].
  assert (EM : forall j, M (first + k) j = if periodic then periodic_bspline t b d ncells ((j + shift) mod ncells) (x k) else bspline t b (Z.to_nat d) j (x k)).
  { intros j. unfold M, collocation. fold N first last h. replace (first + k <? first) with false by lia. replace (first + k <? last) with true by lia.
    now replace (first + k - first) with k by lia. }
  destruct (bool_dec periodic true) as [Ep | Ep%not_true_is_false].
  - assert (EN : N = ncells) by (unfold N, unknowns; now rewrite Ep). rewrite EN. specialize (Hcells Ep).
    split.
    + intros r Hr. rewrite EM, Ep. rewrite Zplus_mod_idemp_l. replace (cell - d + r - shift + shift) with (cell - d + r) by ring.
      apply (proj1 (periodic_single s d periodic ncells t a b F (x k) cell _ Hcells Hc (Z.mod_pos_bound _ ncells ltac:(lia))) r Hr eq_refl).
    + intros j Hj Hno. rewrite EM, Ep. apply (proj2 (periodic_single s d periodic ncells t a b F (x k) cell _ Hcells Hc (Z.mod_pos_bound _ ncells ltac:(lia)))).
      intros r Hr E. apply (Hno r Hr). rewrite <- Zminus_mod_idemp_l, E, Zminus_mod_idemp_l. replace (j + shift - shift) with j by ring. symmetry. apply Z.mod_small. lia.
  - assert (EN : N = ncells + d) by (unfold N, unknowns; now rewrite Ep). rewrite (Hshift Ep). split.
    + intros r Hr. rewrite EM, Ep. rewrite Z.sub_0_r, Z.mod_small by lia. apply (cell_bspline s d periodic ncells t a b F _ _ _ _ Hc).
    + intros j Hj Hno. rewrite EM, Ep. rewrite (cell_bspline s d periodic ncells t a b F _ _ _ _ Hc). apply piece_zero.
      intros HH. apply (Hno (j - (cell - d))); [lia|]. rewrite Z.mod_small; lia.
Qed.
Lemma point_rows_ok done p : written done p ->
  exists p', point_rows RA s m lower start n coord shift p = Ok p' /\ written (fun i j => done i j \/ first <= i < last) p'.
Proof.
  intros W. pose proof N_pos as HNp. unfold point_rows. rewrite (f_deg _ _ _ _ _ _ _ F).
  destruct (for_range_inv (fun i p => written (fun k l => done k l \/ first <= k < first + i) p)
    (fun k p => let ix := u64_add start k in
      x <- coord ix ;;
      ' (values, jmin) <- bs_eval_basis RA s m x ;;
      for_range 0 (d + 1) (fun r p =>
        let j := modulo RA (i32 (u64_add (u64_sub jmin (u64 shift)) r)) (i32 (bs_nbasis RA s)) in
        v <- aget values r ;;
        set_element RA p (u64_add (u64_sub ix (u64 (i32 start))) (u64 (s_nbe_xmin RA s lower))) (u64 j) v) p) 0 n p) as (p' & Ep' & Wp').
  - lia.
  - eapply written_weaken; [|exact W]. intros i j Hi Hj [D | D]; [now left | lia].
  - intros k q Hk Wq. cbv zeta. assert (Ek : u64_add start k = start + k) by (unfold u64_add; rewrite u64_small; lia).
    destruct (Hcoord k Hk) as [Ec Hx]. rewrite <- Ek in Ec. rewrite Ec. cbn [rbind].
    destruct (f_eval _ _ _ _ _ _ _ F m (x k) Hx) as (v & cell & E & Hc & V1 & V2). rewrite E. cbn [rbind].
    destruct (point_row_M k cell Hk Hc) as [P1 P2]. pose proof Hc as [Hc' _].
    destruct (written_loop c Hsens p0 Hp0 M Hrep _ q (d + 1) (fun _ => u64_add (u64_sub (u64_add start k) (u64 (i32 start))) (u64 (s_nbe_xmin RA s lower)))
      (fun r => u64 (modulo RA (i32 (u64_add (u64_sub (cell - d) (u64 shift)) r)) (i32 (bs_nbasis RA s)))) (fun r => aget v r) Wq) as (q' & Eq & Wq').
    + intros r Hr. rewrite HN, (row_eq k Hk), (column_eq cell r Hc') by lia. pose proof (Z.mod_pos_bound (cell - d + r - shift) N ltac:(lia)).
      split; [lia|]. split; [lia|]. rewrite aget_ok by (change (num RA) with R in *; lia). f_equal. rewrite P1 by lia. apply V2. lia.
    + exists q'. split; [exact Eq|]. eapply written_weaken; [|exact Wq']. rewrite HN. intros i j Hi Hj D.
      destruct D as [D | D]; [left; left; now left|]. destruct (Z.eq_dec i (first + k)) as [-> | Ni]; [|left; left; right; lia].
      destruct (Z_le_gt_dec 0 0); [|lia].
      assert (Dec : (exists r, 0 <= r < d + 1 /\ j = (cell - d + r - shift) mod N) \/ (forall r, 0 <= r < d + 1 -> j <> (cell - d + r - shift) mod N)).
      { clear -Hd. assert (Q : forall q : nat, (exists r, 0 <= r < Z.of_nat q /\ j = (cell - d + r - shift) mod N) \/ (forall r, 0 <= r < Z.of_nat q -> j <> (cell - d + r - shift) mod N)).
        { induction q as [|q IH]; [right; intros; lia|]. destruct IH as [(r & Hr & E) | IH]; [left; exists r; split; [lia | exact E]|].
          destruct (Z.eq_dec j ((cell - d + Z.of_nat q - shift) mod N)) as [E | E]; [left; exists (Z.of_nat q); split; [lia | exact E]|].
          right. intros r Hr. destruct (Z.eq_dec r (Z.of_nat q)) as [-> | Nr]; [exact E | apply IH; lia]. }
        specialize (Q (Z.to_nat (d + 1))). rewrite Z2Nat.id in Q by lia. exact Q. }
      destruct Dec as [(r & Hr & Ej) | Dec].
      * left. right. exists r. split; [exact Hr|]. rewrite (row_eq k Hk), (column_eq cell r Hc') by lia. split; [reflexivity | exact Ej].
      * right. apply P2; [exact Hj|]. intros r Hr. apply Dec. lia.
  - exists p'. split; [exact Ep'|]. eapply written_weaken; [|exact Wp']. intros i j Hi Hj [D | D]; left; [now left | right; lia].
Qed.
Lemma upper_rows_ok done p : is_hermite upper = true -> written done p ->
  exists p', hermite_upper_rows RA s m upper h p = Ok p' /\ written (fun i j => done i j \/ last <= i) p'.
Proof.
  intros Hu W. pose proof half_d as Hh. pose proof N_pos as HNp.
  assert (Ef : equations upper d = d / 2) by (destruct upper; try discriminate; reflexivity).
  assert (Ep : periodic = false). { destruct (bool_dec periodic true) as [Ep | Ep%not_true_is_false]; [destruct (compat_periodic Ep) as [_ El]; rewrite El in Hu; discriminate | exact Ep]. }
  assert (EN : N = ncells + d) by (unfold N, unknowns; now rewrite Ep).
  unfold hermite_upper_rows. rewrite (f_rmax _ _ _ _ _ _ _ F). cbn [rbind]. rewrite nbe_max, odd_eq, nbasis_N, (f_deg _ _ _ _ _ _ _ F).
  pose proof (f_ab _ _ _ _ _ _ _ F) as Hab.
  destruct (f_derivs _ _ _ _ _ _ _ F m b (equations upper d) ltac:(lra) ltac:(lia)) as (v & cell & E & Hc & V1 & V2 & V3).
  { rewrite Ef. apply Hfact. rewrite Hu. apply orb_true_r. }
  pose proof (cell_last s d periodic ncells t a b F cell Hc) as ->.
  rewrite E. cbn [rbind]. destruct (normalise_ok v V1 ltac:(etransitivity; [exact V2 | lia])) as (w & E' & W1 & W2 & W3). rewrite E'. cbn [rbind].
  replace (i32 (u64_sub N (u64 (equations upper d)))) with last.
  2:{ unfold u64_sub. rewrite (u64_small (equations upper d)) by lia. fold last. rewrite u64_small by lia. rewrite i32_small; lia. }
  replace (i32 (u64_sub N d)) with ncells.
  2:{ unfold u64_sub. rewrite u64_small by lia. rewrite i32_small; lia. }
  assert (EM : forall i j, 0 <= i < equations upper d -> M (last + i) j = scaled_derivative t (d + ncells - 1) d h (order d i) b j).
  { intros i j Hi. unfold M, collocation. fold N first last h. replace (last + i <? first) with false by lia. replace (last + i <? last) with false by lia.
    now replace (last + i - last) with i by lia. }
  destruct (for_range_inv (fun j p => written (fun k l => done k l \/ (last <= k /\ l < ncells + j)) p)
    (fun j p => for_range 0 (equations upper d) (fun i p => v <- aget2 w (j + 1) (i + d mod 2) ;; set_element RA p (u64_add (u64 last) i) (u64_add (u64 ncells) j) v) p)
    0 d p) as (p' & Ep' & Wp').
  - lia.
  - eapply written_weaken; [|exact W]. rewrite HN. intros i j Hi Hj [D | D]; [now left|]. right.
    replace i with (last + (i - last)) by lia. rewrite EM by (unfold last in *; lia). unfold scaled_derivative.
    destruct (orders (i - last) upper) as (O1 & O2 & O3); [unfold last in *; lia|].
    replace b with (t (d + ncells - 1 + 1)) at 1 by (rewrite <- (f_last _ _ _ _ _ _ _ F); f_equal; lia).
    rewrite (deriv_end t (d + ncells - 1) d _ j) by lia. ring.
  - intros j q Hj Wq.
    destruct (written_loop c Hsens p0 Hp0 M Hrep _ q (equations upper d) (fun i => u64_add (u64 last) i) (fun _ => u64_add (u64 ncells) j) (fun i => aget2 w (j + 1) (i + d mod 2)) Wq) as (q' & Eq & Wq').
    + intros i Hi. destruct (orders i upper Hi) as (O1 & O2 & O3). rewrite HN. rewrite !u64_add_l, !u64_small by (unfold last in *; lia).
      split; [unfold last in *; lia|]. split; [lia|].
      rewrite aget2_ok by lia. f_equal. rewrite W3 by lia. rewrite V3 by lia.
      rewrite EM by lia. pose proof (scaled_kth s d periodic ncells t a b F (d + ncells - 1) h (order d i) b (j + 1) ltac:(lia) ltac:(lia) ltac:(lia)) as K.
      replace (d + ncells - 1 - d + (j + 1)) with (ncells + j) in K by lia. rewrite K. unfold order. reflexivity.
    + exists q'. split; [exact Eq|]. eapply written_weaken; [|exact Wq']. rewrite HN. intros k l Hk Hl D. left.
      destruct D as [D | D]; [left; now left|]. destruct (Z.eq_dec l (ncells + j)) as [-> | Nl]; [|left; right; lia].
      right. exists (k - last). split; [unfold last in *; lia|]. rewrite !u64_add_l, !u64_small by (unfold last in *; lia). split; lia.
  - exists p'. split; [exact Ep'|]. eapply written_weaken; [|exact Wp']. rewrite HN. intros i j Hi Hj [D | D]; left; [now left | right; lia].
Qed.
Lemma build_matrix_ok : exists p, build_matrix_system RA s m lower upper start n coord shift h p0 = Ok p /\
  exists hist, set_all RA p0 hist = Ok p /\ assignments RA (shape_of c) hist /\
    forall i j, 0 <= i < N -> 0 <= j < N -> kept 0%R (shape_of c) hist i j = M i j.
Proof.
  pose proof N_pos as HNp. unfold build_matrix_system.
  assert (L : exists p, (if is_hermite lower then hermite_lower_rows RA s m lower h p0 else Ok p0) = Ok p /\ written (fun i j => i < first) p).
  { destruct (bool_dec (is_hermite lower) true) as [El | El%not_true_is_false]; rewrite El.
    - destruct (lower_rows_ok (fun _ _ => False) p0 El (written_none c p0 M)) as (p & E & W). exists p. split; [exact E|].
      eapply written_weaken; [|exact W]. intros i j _ _ D. left. now right.
    - exists p0. split; [reflexivity|]. eapply written_weaken; [|exact (written_none c p0 M)]. intros i j Hi Hj D. exfalso.
      unfold first in D. destruct lower; try discriminate; cbn [equations] in D; lia. }
  destruct L as (p1 & -> & W1). cbn [rbind].
  destruct (point_rows_ok _ p1 W1) as (p2 & -> & W2). cbn [rbind].
  assert (U : exists p, (if is_hermite upper then hermite_upper_rows RA s m upper h p2 else Ok p2) = Ok p /\ written (fun i j => True) p).
  { destruct (bool_dec (is_hermite upper) true) as [Eu | Eu%not_true_is_false]; rewrite Eu.
    - destruct (upper_rows_ok _ p2 Eu W2) as (p & E & W). exists p. split; [exact E|].
      eapply written_weaken; [|exact W]. intros i j _ _ _. left. lia.
    - exists p2. split; [reflexivity|]. eapply written_weaken; [|exact W2]. rewrite HN. intros i j Hi Hj _. left.
      assert (last = N) by (unfold last; destruct upper; try discriminate; cbn [equations]; lia). lia. }
  destruct U as (p3 & E3 & W3). exists p3. split; [exact E3|]. rewrite <- HN. exact (written_kept c p0 M Hrep p3 W3).
Qed.
End Assembly.
