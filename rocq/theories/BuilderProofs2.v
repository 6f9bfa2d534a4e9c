(** The construction of the coefficients. *)
From Coq Require Import Bool Reals Lia Lra ZifyBool List.
From Verif Require Import BuilderSpec LoopProofs BSplineMath BSplineDeriv SamplingProofs MathProofs LinearProofs LinearProofs2 LinearProofs3 LinearLemmas EvaluatorSpace EvaluatorProofs BuilderMath BuilderProofs.
Import ListNotations.
Local Open Scope bool_scope. Local Open Scope Z_scope.

(** ** Chunks indexed from 0 *)
Section Chunks.
Context (size : Z) (Hsize : 0 <= size < 2 ^ 32).
Lemma elem_minus_0 i : 0 <= i < size -> elem_minus i 0 = i.
Proof. intros H. unfold elem_minus, u64_sub. rewrite u64_small, i64_small; lia. Qed.
Lemma get_0 (c : chunk_1d RA) i : has_coefficients c size -> 0 <= i < size -> c1_get RA c i = Ok (coefficient c i : num RA).
Proof. intros [H1 H2] Hi. unfold c1_get. rewrite H1, elem_minus_0 by lia. apply aget_ok. unfold c1_size in H2. lia. Qed.
Lemma set_0 (c : chunk_1d RA) i v : has_coefficients c size -> 0 <= i < size ->
  exists c', c1_set RA c i v = Ok c' /\ has_coefficients c' size /\ forall k, coefficient c' k = if k =? i then v else coefficient c k.
Proof.
  intros [H1 H2] Hi. unfold c1_set. rewrite H1, elem_minus_0 by lia. unfold c1_size in H2. rewrite aset_ok by lia. cbn [rbind].
  eexists. split; [reflexivity|]. split; [split; [reflexivity | exact H2]|]. intros k. reflexivity.
Qed.
(** Writing a range. *)
Lemma set_loop (c : chunk_1d RA) lo hi (body : Z -> chunk_1d RA -> res (chunk_1d RA)) (w : Z -> R) (base : Z) :
  has_coefficients c size -> lo <= hi -> (forall k, lo <= k < hi -> 0 <= base + k < size) ->
  (forall k c', lo <= k < hi -> has_coefficients c' size ->
     (forall q, coefficient c' q = if (base + lo <=? q) && (q <? base + k) then w (q - base)%Z else coefficient c q) -> body k c' = c1_set RA c' (base + k) (w k : num RA)) ->
  exists c', for_range lo hi body c = Ok c' /\ has_coefficients c' size /\
    (forall q, coefficient c' q = if (base + lo <=? q) && (q <? base + hi) then w (q - base)%Z else coefficient c q).
Proof.
  intros Hc Hlo Hpos Hval.
  destruct (for_range_inv (fun k c' => has_coefficients c' size /\ (forall q, coefficient c' q = if (base + lo <=? q) && (q <? base + k) then w (q - base)%Z else coefficient c q))
    body lo hi c Hlo) as (c' & E & H1 & H2).
  - split; [exact Hc|]. intros q. now replace ((base + lo <=? q) && (q <? base + lo)) with false by lia.
  - intros k c' Hk [H1 H2]. rewrite (Hval k c' Hk H1 H2). pose proof (Hpos k Hk) as Hp.
    destruct (set_0 c' (base + k) (w k) H1 Hp) as (c2 & E & G1 & G2). exists c2. split; [exact E|]. split; [exact G1|].
    intros q. rewrite G2. destruct (Z.eqb_spec q (base + k)) as [-> | Nq].
    + replace ((base + lo <=? base + k) && (base + k <? base + (k + 1))) with true by lia. f_equal. lia.
    + rewrite H2. now replace ((base + lo <=? q) && (q <? base + k)) with ((base + lo <=? q) && (q <? base + (k + 1))) by lia.
  - exists c'. split; [exact E|]. split; assumption.
Qed.
End Chunks.
Lemma wf_rows sh (p : problem RA) : wf_prob RA sh p -> 0 <= sh_n sh < 2 ^ 61 -> prob_size p = sh_n sh /\ sh_n sh <= required_rows p.
Proof.
  intros W Hs. destruct p as [e | bk | top bk]; cbn [wf_prob prob_size required_rows] in *.
  - destruct W as (_ & _ & W). pose proof (wf_size RA _ _ e W). lia.
  - destruct W as (_ & W). unfold wf_blocks in W. lia.
  - destruct W as (_ & H1 & H2 & W). unfold wf_blocks in W. unfold u64_add. rewrite u64_small; lia.
Qed.
(** ** One call of the builder *)
(** The derivatives expected by the closures. *)
Definition given (c : closure) (d : Z) (w : option (chunk_1d RA)) : Prop :=
  match c, w with
  | HERMITE, Some w => c1_front RA w = d mod 2 /\ c1_size RA w = equations c d
  | HERMITE, None => False
  | _, Some w => c1_size RA w = 0
  | _, None => True
  end.
Section Build.
Context (s : bspline_space RA) (d : Z) (periodic : bool) (ncells : Z) (t : Z -> R) (a b : R) (F : facts s d periodic ncells t a b).
Context (lower upper : closure) (Hcompat : compatible_closures RA s lower upper = true).
Let Hd : 1 <= d := f_d _ _ _ _ _ _ _ F.
Let Hn : 1 <= ncells := f_n _ _ _ _ _ _ _ F.
Let Hbig : ncells + 1 + 2 * d < 2 ^ 31 := f_big _ _ _ _ _ _ _ F.
Let N := unknowns periodic d ncells.
Let first := equations lower d.
Let last := N - equations upper d.
Let h := ((b - a) / IZR ncells)%R.
Let size := ncells + d.
Context (X : solvers RA) (off : Z) (p : problem RA).
Let bd := mk_builder (A := RA) off h p.

Lemma put_closure_ok cl pos dv sp : given cl d dv -> has_coefficients sp size -> 0 <= pos -> pos + equations cl d <= size ->
  exists sp', put_closure RA s bd cl pos (equations cl d) dv sp = Ok sp' /\ has_coefficients sp' size /\
    forall q, coefficient sp' q = if (pos <=? q) && (q <? pos + equations cl d) then (h ^ order d (q - pos) * asked cl dv (q - pos))%R else coefficient sp q.
Proof.
  intros G Hsp Hpos Hle. pose proof (half_d s d periodic ncells t a b F) as Hh. pose proof (equations_bound s d periodic ncells t a b F cl) as He.
  assert (Triv : equations cl d = 0 -> put_closure RA s bd cl pos (equations cl d) dv sp = Ok sp ->
    exists sp', put_closure RA s bd cl pos (equations cl d) dv sp = Ok sp' /\ has_coefficients sp' size /\
    forall q, coefficient sp' q = if (pos <=? q) && (q <? pos + equations cl d) then (h ^ order d (q - pos) * asked cl dv (q - pos))%R else coefficient sp q).
  { intros E0 E. exists sp. split; [exact E|]. split; [exact Hsp|]. intros q. rewrite E0. now replace ((pos <=? q) && (q <? pos + 0)) with false by lia. }
  destruct cl; [apply Triv; reflexivity | | | apply Triv; reflexivity]; clear Triv.
  - unfold put_closure, put_derivs. cbn [given] in G. destruct dv as [w|]; [|contradiction]. destruct G as [G1 G2]. rewrite G2, Z.eqb_refl. cbn [assert_].
    cbn [bd_dx bd]. rewrite (odd_eq s d periodic ncells t a b F).
    destruct (set_loop size ltac:(unfold size; lia) sp 0 (equations HERMITE d)
      (fun i c => v <- c1_get RA w (u64 (i + d mod 2)) ;; f <- ipow RA h (i + d mod 2) ;; c1_set RA c (u64_add pos (u64 i)) (nmul RA v f))
      (fun i => h ^ order d i * asked HERMITE (Some w) i)%R pos Hsp) as (sp' & E & H1 & H2).
    + lia.
    + intros k Hk. unfold size in *. lia.
    + intros k c' Hk _ _. rewrite (u64_small (k + d mod 2)) by lia. unfold c1_get. rewrite G1.
      replace (elem_minus (k + d mod 2) (d mod 2)) with k by (unfold elem_minus, u64_sub; rewrite u64_small, i64_small; lia).
      rewrite aget_ok by (unfold c1_size in G2; change (num RA) with R in *; lia). cbn [rbind]. rewrite ipow_nonneg by lia. cbn [rbind].
      rewrite u64_add_r, u64_small by (unfold size in *; lia). f_equal. cbn [nmul RA asked]. unfold order. change (num RA) with R. ring.
    + exists sp'. split; [exact E|]. split; [exact H1|]. intros q. rewrite H2. now rewrite Z.add_0_r.
  - unfold put_closure, fill_part, inside. destruct Hsp as [Hs1 Hs2]. rewrite Hs2. replace ((0 <=? _) && (0 <=? pos) && (pos + equations HOMOGENEOUS_HERMITE d <=? size)) with true by lia.
    cbn [assert_].
    destruct (set_loop size ltac:(unfold size; lia) sp pos (pos + equations HOMOGENEOUS_HERMITE d) (fun i c => c1_set RA c i (nofz RA 0)) (fun _ => 0%R) 0 (conj Hs1 Hs2)) as (sp' & E & H1 & H2).
    + lia.
    + intros k Hk. lia.
    + intros k c' Hk _ _. reflexivity.
    + exists sp'. split; [exact E|]. split; [exact H1|]. intros q. rewrite H2. cbn [asked]. rewrite !Z.add_0_l.
      destruct (_ && _); [destruct dv; ring | reflexivity].
Qed.

Lemma fill_part_ok sp lo n v : has_coefficients sp size -> 0 <= n -> 0 <= lo -> lo + n <= size ->
  exists sp', fill_part RA sp lo n v = Ok sp' /\ has_coefficients sp' size /\ forall q, coefficient sp' q = if (lo <=? q) && (q <? lo + n) then v else coefficient sp q.
Proof.
  intros [Hs1 Hs2] Hn' Hlo Hle. unfold fill_part, inside. rewrite Hs2. replace ((0 <=? n) && (0 <=? lo) && (lo + n <=? size)) with true by lia. cbn [assert_].
  destruct (set_loop size ltac:(unfold size; lia) sp lo (lo + n) (fun i c => c1_set RA c i v) (fun _ => v) 0 (conj Hs1 Hs2)) as (sp' & E & H1 & H2).
  + lia.
  + intros k Hk. lia.
  + intros k c' Hk _ _. reflexivity.
  + exists sp'. split; [exact E|]. split; [exact H1|]. intros q. rewrite H2. now rewrite !Z.add_0_l.
Qed.
Definition right_hand_side (v : arr R) (dl du : option (chunk_1d RA)) (i : Z) : R :=
  if i <? first then (h ^ order d i * asked lower dl i)%R
  else if i <? last then a_at v (i - first)
  else (h ^ order d (i - last) * asked upper du (i - last))%R.

Context (Hoff : 0 <= off <= d) (Hoff' : periodic = false -> off = 0) (Hreq : N <= required_rows p) (Hcells : periodic = true -> d + 1 <= ncells).
Lemma duplicate_ok sp (y : Z -> R) : periodic = true -> has_coefficients sp size -> (forall i, 0 <= i < ncells -> coefficient sp (i + off) = y i) ->
  exists c, duplicate_periodic RA s bd sp = Ok c /\ has_coefficients c size /\ forall k, 0 <= k < size -> coefficient c k = y ((k - off) mod ncells).
Proof.
  intros Ep Hsp Hy. pose proof (Hcells Ep) as Hc. unfold duplicate_periodic. rewrite (f_deg _ _ _ _ _ _ _ F), (f_nbasis _ _ _ _ _ _ _ F), Ep. cbn [bd_offset bd].
  assert (S1 : exists c1, (if off =? 0 then Ok sp
             else rbind (for_range 0 off (fun i c => v <- c1_get RA c (u64_add ncells i) ;; c1_set RA c i v) sp)
               (fun c => for_range off d (fun i c => v <- c1_get RA c i ;; c1_set RA c (u64_add ncells i) v) c)) = Ok c1 /\
             has_coefficients c1 size /\ forall k, 0 <= k < ncells -> coefficient c1 k = y ((k - off) mod ncells)).
  { destruct (Z.eqb_spec off 0) as [E0 | N0].
    - exists sp. split; [reflexivity|]. split; [exact Hsp|]. intros k Hk. rewrite E0, Z.sub_0_r, Z.mod_small by lia. rewrite <- Hy by lia. f_equal. lia.
    - destruct (set_loop size ltac:(unfold size; lia) sp 0 off (fun i c => v <- c1_get RA c (u64_add ncells i) ;; c1_set RA c i v) (fun i => coefficient sp (ncells + i)) 0 Hsp) as (c1 & E1 & A1 & A2).
      + lia.
      + intros k Hk. unfold size. lia.
      + intros k c' Hk G1 G2. unfold u64_add. rewrite u64_small by lia. rewrite (get_0 size) by (try exact G1; unfold size; lia). cbn [rbind]. rewrite Z.add_0_l. f_equal.
        rewrite G2. now replace ((0 + 0 <=? ncells + k) && (ncells + k <? 0 + k)) with false by lia.
      + rewrite E1. cbn [rbind].
        destruct (set_loop size ltac:(unfold size; lia) c1 off d (fun i c => v <- c1_get RA c i ;; c1_set RA c (u64_add ncells i) v) (fun i => coefficient c1 i) ncells A1) as (c2 & E2 & B1 & B2).
        * lia.
        * intros k Hk. unfold size. lia.
        * intros k c' Hk G1 G2. unfold u64_add. rewrite u64_small by lia. rewrite (get_0 size) by (try exact G1; unfold size; lia). cbn [rbind]. f_equal.
          rewrite G2. now replace ((ncells + off <=? k) && (k <? ncells + k)) with false by lia.
        * exists c2. split; [exact E2|]. split; [exact B1|]. intros k Hk. rewrite B2. replace ((ncells + off <=? k) && (k <? ncells + d)) with false by lia.
          rewrite A2. rewrite !Z.add_0_l. destruct ((0 <=? k) && (k <? off)) eqn:Ek.
          -- rewrite Z.sub_0_r. replace (ncells + k) with (ncells + k - off + off) by ring. rewrite Hy by lia. f_equal.
             replace (k - off) with (ncells + k - off + (-1) * ncells) by ring. rewrite Z_mod_plus_full, Z.mod_small; lia.
          -- replace k with (k - off + off) at 1 by ring. rewrite Hy by lia. f_equal. rewrite Z.mod_small; lia. }
  destruct S1 as (c1 & E1 & A1 & A2). cbn beta zeta. rewrite E1. cbn [rbind].
  destruct (set_loop size ltac:(unfold size; lia) c1 0 d (fun i c => v <- c1_get RA c i ;; c1_set RA c (u64_add ncells i) v) (fun i => coefficient c1 i) ncells A1) as (c2 & E2 & B1 & B2).
  - lia.
  - intros k Hk. unfold size. lia.
  - intros k c' Hk G1 G2. unfold u64_add. rewrite u64_small by lia. rewrite (get_0 size) by (try exact G1; unfold size; lia). cbn [rbind]. f_equal.
    rewrite G2. now replace ((ncells + 0 <=? k) && (k <? ncells + k)) with false by lia.
  - exists c2. split; [exact E2|]. split; [exact B1|]. intros k Hk. rewrite B2. unfold size in Hk. destruct (Z_lt_dec k ncells).
    + replace ((ncells + 0 <=? k) && (k <? ncells + d)) with false by lia. apply A2. lia.
    + replace ((ncells + 0 <=? k) && (k <? ncells + d)) with true by lia. rewrite A2 by lia. f_equal.
      replace (k - off) with (k - ncells - off + 1 * ncells) by ring. now rewrite Z_mod_plus_full.
Qed.
Lemma build_ok junk sp (v : arr R) dl du : given lower d dl -> given upper d du -> a_len v = last - first -> has_coefficients sp size ->
  exists rhs : arr R, a_len rhs = required_rows p /\ (forall i, 0 <= i < N -> a_at rhs i = right_hand_side v dl du i) /\
    match setup_and_solve RA X p rhs false with
    | Ok y => N <= a_len y -> exists c, build RA s lower upper X bd junk sp v dl du = Ok c /\ has_coefficients c size /\
        (forall k, 0 <= k < size -> coefficient c k = a_at y (if periodic then (k - off) mod ncells else k))
    | r => build RA s lower upper X bd junk sp v dl du = rbind r (fun _ => Undef)
    end.
Proof.
  intros Gl Gu Hv Hsp. pose proof (N_pos s d periodic ncells t a b F lower upper Hcompat) as HN. fold N first last in HN.
  assert (HNs : N + off <= size). { unfold N, unknowns, size. destruct (bool_dec periodic true) as [Ep | Ep%not_true_is_false]; rewrite Ep; [lia|]. rewrite (Hoff' Ep). lia. }
  pose proof (equations_bound s d periodic ncells t a b F lower) as Bl. pose proof (equations_bound s d periodic ncells t a b F upper) as Bu. pose proof (half_d s d periodic ncells t a b F) as Hh.
  unfold build. change (num RA) with R in *. rewrite (expected_eq s d periodic ncells t a b F lower upper Hcompat). fold N first last. rewrite Hv, Z.eqb_refl. cbn [assert_].
  rewrite (nbe_min s d periodic ncells t a b F lower), (nbe_max s d periodic ncells t a b F upper), (nbasis_N s d periodic ncells t a b F). fold N first last.
  assert (Hck : check_derivs RA s lower dl && check_derivs RA s upper du = true).
  { unfold check_derivs. rewrite (odd_eq s d periodic ncells t a b F). unfold given in Gl, Gu.
    destruct lower, dl, upper, du; try contradiction; cbn [equations] in *; lia. }
  rewrite Hck. cbn [assert_]. cbn [bd_offset bd_matrix bd].
  destruct (put_closure_ok lower 0 dl sp Gl Hsp) as (sp1 & E1 & A1 & A2); [lia | unfold size; lia|]. fold first in E1, A2. rewrite E1. cbn [rbind].
  destruct (fill_part_ok sp1 first off (nofz RA 0) A1) as (sp2 & E2 & B1 & B2); [lia | lia | lia|]. rewrite E2. cbn [rbind].
  assert (Hin : inside RA sp2 (first + off) (last - first) = true). { unfold inside. destruct B1 as [_ ->]. lia. }
  rewrite Hin. cbn [assert_].
  destruct (set_loop size ltac:(unfold size; lia) sp2 0 (last - first) (fun i c => w <- aget v i ;; c1_set RA c (u64 (first + off) + i) w) (a_at v) (first + off) B1) as (sp3 & E3 & C1 & C2).
  { lia. } { intros k Hk. unfold size in *. lia. }
  { intros k c' Hk _ _. rewrite aget_ok by lia. cbn [rbind]. now rewrite u64_small by lia. }
  rewrite E3. cbn [rbind].
  replace (u64_sub N (u64 (equations upper d))) with last.
  2:{ unfold u64_sub. rewrite (u64_small (equations upper d)) by lia. fold last. rewrite u64_small; lia. }
  destruct (put_closure_ok upper last du sp3 Gu C1) as (sp4 & E4 & D1 & D2); [lia | unfold last; lia|]. rewrite E4. cbn [rbind].
  assert (Hs4 : forall i, 0 <= i < N -> coefficient sp4 (i + off) = right_hand_side v dl du i).
  { intros i Hi. rewrite D2, C2, B2, A2. unfold right_hand_side.
    destruct (bool_dec periodic true) as [Ep | Ep%not_true_is_false].
    - destruct (compat_periodic s d periodic ncells t a b F lower upper Hcompat Ep) as [El Eu].
      assert (F0 : first = 0) by (unfold first; now rewrite El). assert (L0 : last = N) by (unfold last; rewrite Eu; cbn [equations]; lia). assert (U0 : equations upper d = 0) by now rewrite Eu.
      replace ((last <=? i + off) && (i + off <? last + equations upper d)) with false by lia.
      replace ((first + off + 0 <=? i + off) && (i + off <? first + off + (last - first))) with true by lia.
      replace (i <? first) with false by lia. replace (i <? last) with true by lia. f_equal. lia.
    - rewrite (Hoff' Ep), !Z.add_0_r. destruct (Z_lt_dec i first).
      + replace ((last <=? i) && (i <? last + equations upper d)) with false by lia.
        replace ((first <=? i) && (i <? first + (last - first))) with false by lia.
        replace ((first <=? i) && (i <? first)) with false by lia. replace ((0 <=? i) && (i <? 0 + first)) with true by lia.
        replace (i <? first) with true by lia. now rewrite Z.sub_0_r.
      + replace (i <? first) with false by lia. destruct (Z_lt_dec i last).
        * replace ((last <=? i) && (i <? last + equations upper d)) with false by lia.
          replace ((first <=? i) && (i <? first + (last - first))) with true by lia. now replace (i <? last) with true by lia.
        * replace ((last <=? i) && (i <? last + equations upper d)) with true by (unfold last in *; lia). now replace (i <? last) with false by lia. }
  destruct (for_range_inv (fun i (tr : arr R) => a_len tr = required_rows p /\ forall k, 0 <= k < i -> a_at tr k = right_hand_side v dl du k)
    (fun i (tr : arr R) => w <- c1_get RA sp4 (u64_add i (u64 off)) ;; aset tr i w) 0 N (mk_arr (required_rows p) junk)) as (rhs & E5 & R1 & R2).
  { lia. } { split; [reflexivity | intros; lia]. }
  { intros i tr Hi [T1 T2]. rewrite u64_add_r, u64_small by lia. rewrite (get_0 size) by (try exact D1; unfold size in *; lia). cbn [rbind]. rewrite aset_ok by lia.
    eexists. split; [reflexivity|]. cbn [a_len a_at]. split; [exact T1|]. intros k Hk. destruct (Z.eq_dec k i) as [-> | Nk].
    - rewrite upd_eq. now apply Hs4.
    - rewrite upd_neq by exact Nk. apply T2. lia. }
  exists rhs. split; [exact R1|]. split; [exact R2|].
  change (num RA) with R in *. rewrite E5. cbn [rbind].
  destruct (setup_and_solve RA X p rhs false) as [y| |] eqn:Es; cbn [rbind]; [|reflexivity..]. change (num RA) with R in *. intros Hy.
  destruct (set_loop size ltac:(unfold size; lia) sp4 0 N (fun i c => w <- aget y i ;; c1_set RA c (u64_add i (u64 off)) w) (a_at y) off D1) as (sp5 & E6 & G1 & G2).
  { lia. } { intros k Hk. unfold size in *. lia. }
  { intros k c' Hk _ _. change (num RA) with R in *. rewrite aget_ok by lia. cbn [rbind]. rewrite u64_add_r, u64_small by lia. now rewrite Z.add_comm. }
  change (num RA) with R in *. rewrite E6. cbn [rbind]. rewrite (f_per _ _ _ _ _ _ _ F).
  destruct (bool_dec periodic true) as [Ep | Ep%not_true_is_false]; rewrite Ep.
  - apply (duplicate_ok sp5 (a_at y) Ep G1). intros i Hi. assert (EN : N = ncells) by (unfold N, unknowns; now rewrite Ep).
    rewrite G2. replace ((off + 0 <=? i + off) && (i + off <? off + N)) with true by lia. f_equal. lia.
  - exists sp5. split; [reflexivity|]. split; [exact G1|]. intros k Hk. assert (EN : N = size) by (unfold N, unknowns; now rewrite Ep).
    rewrite G2, (Hoff' Ep). replace ((0 + 0 <=? k) && (k <? 0 + N)) with true by lia. f_equal. lia.
Qed.
End Build.
