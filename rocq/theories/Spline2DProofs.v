(** Lines of two-dimensional chunks, and sums. *)
From Coq Require Import Bool ZArith Lia Reals Lra.
From Verif Require Import Spline2DSpec LoopProofs SamplingProofs LinearProofs2 BSplineDeriv IntegralMath IntegralMath2 IntegralProofs EvaluatorSpace EvaluatorProofs.
Local Open Scope bool_scope. Local Open Scope Z_scope.

Lemma elem_of_front f k : 0 <= k < 2 ^ 62 -> elem_minus (u64_add f k) f = k.
Proof.
  intros Hk. unfold elem_minus, u64_add, u64_sub. assert (E : u64 (u64 (f + k) - f) = k).
  { transitivity (u64 k); [|apply u64_small; lia]. unfold u64. rewrite Zminus_mod_idemp_l. f_equal. lia. }
  rewrite E. apply i64_small. lia.
Qed.

Section Lines.
Notation chunk := (chunk_2d RA).
Context (get : chunk -> Z -> res (chunk_1d RA)) (put : chunk -> Z -> chunk_1d RA -> chunk).
(** the front of the lines, the number and the front of the other dimension, their lengths and elements *)
Context (lfront ofront : chunk -> Z) (count len : chunk -> Z) (elt : chunk -> Z -> Z -> R).
Hypothesis Hget : forall c j, get c j = (let k := elem_minus j (ofront c) in assert_ ((0 <=? k) && (k <? count c)) (Ok (mk_chunk_1d RA (lfront c) (mk_arr (len c) (elt c k))))).
Hypothesis Hput : forall c j l, lfront (put c j l) = lfront c /\ ofront (put c j l) = ofront c /\ count (put c j l) = count c /\ len (put c j l) = len c /\
  forall k i, elt (put c j l) k i = if k =? elem_minus j (ofront c) then a_at (c1_vals RA l) i else elt c k i.
Definition the_line (c : chunk) (k : Z) : chunk_1d RA := mk_chunk_1d RA (lfront c) (mk_arr (len c) (elt c k)).
Definition opt_the_line (c : option chunk) (k : Z) : option (chunk_1d RA) := match c with None => None | Some c => Some (the_line c k) end.
Definition same_batch (front n : Z) (c : option chunk) : Prop := match c with None => True | Some c => ofront c = front /\ count c = n end.
Lemma get_ok c front k : ofront c = front -> 0 <= k < count c -> count c < 2 ^ 62 -> get c (u64_add front k) = Ok (the_line c k).
Proof.
  intros <- Hk Hc. rewrite Hget. cbv zeta. rewrite elem_of_front by lia. replace ((0 <=? k) && (k <? count c)) with true by lia. reflexivity.
Qed.
Lemma opt_get_ok c front n k : same_batch front n c -> 0 <= k < n -> n < 2 ^ 62 -> opt_line RA get c (u64_add front k) = Ok (opt_the_line c k).
Proof.
  intros H Hk Hn. destruct c as [c|]; [|reflexivity]. destruct H as [H1 H2]. cbn [opt_line]. rewrite (get_ok c front k) by (try assumption; lia). reflexivity.
Qed.
Context (f : (Z -> R) -> chunk_1d RA -> arr R -> option (chunk_1d RA) -> option (chunk_1d RA) -> res (chunk_1d RA)).
Context (front n : Z) (junk : Z -> Z -> R) (spline vals : chunk) (dmin dmax : option chunk) (N : Z).
Hypothesis (Hn : 0 <= n < 2 ^ 62).
Hypothesis (S1 : ofront spline = front) (S2 : count spline = n) (S3 : lfront spline = 0) (S4 : len spline = N).
Hypothesis (V1 : ofront vals = front) (V2 : count vals = n).
Hypothesis (D1 : same_batch front n dmin) (D2 : same_batch front n dmax).
Definition line_done (k : Z) (r : chunk) : Prop :=
  exists l c, has_coefficients l N /\ f (junk k) l (mk_arr (len vals) (elt vals k)) (opt_the_line dmin k) (opt_the_line dmax k) = Ok c /\ forall i, elt r k i = a_at (c1_vals RA c) i.
Definition lines_inv (k : Z) (r : chunk) : Prop :=
  ofront r = front /\ count r = n /\ lfront r = 0 /\ len r = N /\ forall j, 0 <= j < k -> line_done j r.
Lemma lines_body k r : 0 <= k < n -> lines_inv k r ->
  (let j := u64_add front k in
    l <- get r j ;; v <- get vals j ;; dmin <- opt_line RA get dmin j ;; dmax <- opt_line RA get dmax j ;; l <- f (junk k) l (c1_vals RA v) dmin dmax ;; Ok (put r j l))
  = (l <- f (junk k) (the_line r k) (mk_arr (len vals) (elt vals k)) (opt_the_line dmin k) (opt_the_line dmax k) ;; Ok (put r (u64_add front k) l)).
Proof.
  intros Hk (I1 & I2 & I3 & I4 & I5). cbv zeta. rewrite (get_ok r front k) by (try assumption; lia). cbn [rbind].
  rewrite (get_ok vals front k) by (try assumption; lia). cbn [rbind]. rewrite (opt_get_ok dmin front n k) by (try assumption; lia). cbn [rbind].
  rewrite (opt_get_ok dmax front n k) by (try assumption; lia). cbn [rbind]. reflexivity.
Qed.
Lemma lines_step k r c : 0 <= k < n -> lines_inv k r ->
  f (junk k) (the_line r k) (mk_arr (len vals) (elt vals k)) (opt_the_line dmin k) (opt_the_line dmax k) = Ok c -> lines_inv (k + 1) (put r (u64_add front k) c).
Proof.
  intros Hk (I1 & I2 & I3 & I4 & I5) E. destruct (Hput r (u64_add front k) c) as (P1 & P2 & P3 & P4 & P5). rewrite I1, elem_of_front in P5 by lia.
  split; [congruence|]. split; [congruence|]. split; [congruence|]. split; [congruence|]. intros j Hj.
  destruct (Z.eq_dec j k) as [->|Nj].
  - exists (the_line r k), c. split; [split; [exact I3 | exact I4]|]. split; [exact E|]. intros i. rewrite P5, Z.eqb_refl. reflexivity.
  - destruct (I5 j ltac:(lia)) as (l & c' & L1 & L2 & L3). exists l, c'. split; [exact L1|]. split; [exact L2|]. intros i. rewrite P5.
    replace (j =? k) with false by lia. apply L3.
Qed.
Lemma lines_init : lines_inv 0 spline.
Proof. split; [exact S1|]. split; [exact S2|]. split; [exact S3|]. split; [exact S4|]. lia. Qed.
Lemma lines_sound r : build_lines RA get put f front n junk spline vals dmin dmax = Ok r -> lines_inv n r.
Proof.
  intros E. unfold build_lines in E. refine (for_range_hoare (fun k r => lines_inv k r) _ 0 n spline r _ _ _ E); [lia | exact lines_init|].
  intros k r1 r2 Hk I1 E1. apply (eq_trans (eq_sym (lines_body k r1 Hk I1))) in E1. destruct (f _ _ _ _ _) as [c| |] eqn:Ef; cbn [rbind] in E1; [|discriminate..].
  apply (lines_step k r1 c Hk I1) in Ef. congruence.
Qed.
Lemma lines_total : (forall k l, 0 <= k < n -> has_coefficients l N -> exists c, f (junk k) l (mk_arr (len vals) (elt vals k)) (opt_the_line dmin k) (opt_the_line dmax k) = Ok c) ->
  exists r, build_lines RA get put f front n junk spline vals dmin dmax = Ok r.
Proof.
  intros H. unfold build_lines. destruct (for_range_inv (fun k r => lines_inv k r) (fun k spline => let j := u64_add front k in
    l <- get spline j ;; v <- get vals j ;; dmin <- opt_line RA get dmin j ;; dmax <- opt_line RA get dmax j ;; l <- f (junk k) l (c1_vals RA v) dmin dmax ;; Ok (put spline j l)) 0 n spline) as (r & E & _).
  - lia.
  - exact lines_init.
  - intros k r Hk I. pose proof I as (_ & _ & I3 & I4 & _). destruct (H k (the_line r k) Hk (conj I3 I4)) as (c & Ec). pose proof (lines_body k r Hk I) as K. rewrite Ec in K. cbn [rbind] in K.
    eexists. split; [exact K|]. now apply lines_step.
  - exists r. exact E.
Qed.
End Lines.

(** The two directions. *)
Lemma line1_get (c : chunk_2d RA) j : line1 RA c j = (let k := elem_minus j (c2_front2 c) in assert_ ((0 <=? k) && (k <? a2_m (c2_vals c))) (Ok (mk_chunk_1d RA (c2_front1 c) (mk_arr (a2_n (c2_vals c)) (fun i => a2_at (c2_vals c) i k))))).
Proof. reflexivity. Qed.
Lemma line2_get (c : chunk_2d RA) j : line2 RA c j = (let k := elem_minus j (c2_front1 c) in assert_ ((0 <=? k) && (k <? a2_n (c2_vals c))) (Ok (mk_chunk_1d RA (c2_front2 c) (mk_arr (a2_m (c2_vals c)) (fun i => a2_at (c2_vals c) k i))))).
Proof. reflexivity. Qed.
Notation elt1 := (fun (c : chunk_2d RA) k i => a2_at (c2_vals c) i k).
Notation elt2 := (fun (c : chunk_2d RA) k i => a2_at (c2_vals c) k i).
Lemma put1_put (c : chunk_2d RA) j l : c2_front1 (put1 RA c j l) = c2_front1 c /\ c2_front2 (put1 RA c j l) = c2_front2 c /\ a2_m (c2_vals (put1 RA c j l)) = a2_m (c2_vals c) /\
  a2_n (c2_vals (put1 RA c j l)) = a2_n (c2_vals c) /\ forall k i, elt1 (put1 RA c j l) k i = if k =? elem_minus j (c2_front2 c) then a_at (c1_vals RA l) i else elt1 c k i.
Proof. repeat split. Qed.
Lemma put2_put (c : chunk_2d RA) j l : c2_front2 (put2 RA c j l) = c2_front2 c /\ c2_front1 (put2 RA c j l) = c2_front1 c /\ a2_n (c2_vals (put2 RA c j l)) = a2_n (c2_vals c) /\
  a2_m (c2_vals (put2 RA c j l)) = a2_m (c2_vals c) /\ forall k i, elt2 (put2 RA c j l) k i = if k =? elem_minus j (c2_front1 c) then a_at (c1_vals RA l) i else elt2 c k i.
Proof. repeat split. Qed.

(** Sums. *)
Lemma tensor_rows n1 n2 c f g : tensor n1 n2 c f g = sum_first (Z.to_nat n1) (fun i => sum_first (Z.to_nat n2) (fun j => c i j * g j)%R * f i)%R.
Proof.
  unfold tensor. rewrite !sum_first_zsum. apply zsum_ext. intros i _. rewrite !sum_first_zsum. rewrite Rmult_comm, <- zsum_scal. apply zsum_ext. intros j _. ring.
Qed.
Lemma tensor_columns n1 n2 c f g : 0 <= n1 -> 0 <= n2 -> tensor n1 n2 c f g = sum_first (Z.to_nat n2) (fun j => sum_first (Z.to_nat n1) (fun i => c i j * f i)%R * g j)%R.
Proof.
  intros H1 H2. unfold tensor. rewrite !sum_first_zsum.
  rewrite (zsum_ext _ _ (fun i => zsum n2 (fun j => c i j * f i * g j)%R)) by (intros i _; now rewrite sum_first_zsum).
  rewrite zsum_exchange by lia. apply zsum_ext. intros j _. rewrite sum_first_zsum. rewrite Rmult_comm, <- zsum_scal. apply zsum_ext. intros i _. ring.
Qed.
