(** The evaluators in one, two and three dimensions compute what the one in any number of dimensions does, over the reals. *)
From Coq Require Import Reals ZArith Lia Lra List.
From Verif Require Export SplineNDSpec Spline3DModel.
From Verif Require Import LoopProofs.
Import ListNotations.
Local Open Scope Z_scope.

Lemma for_n_ext {S} (f g : Z -> S -> res S) : (forall i s, f i s = g i s) -> forall n lo s, for_n n lo f s = for_n n lo g s.
Proof. intros H. induction n as [|n IH]; intros lo s; [reflexivity|]. cbn [for_n]. rewrite H. destruct (g lo s); [apply IH|reflexivity..]. Qed.
Lemma for_range_ext {S} (f g : Z -> S -> res S) lo hi s : (forall i s, f i s = g i s) -> for_range lo hi f s = for_range lo hi g s.
Proof. intros H. unfold for_range. apply for_n_ext. exact H. Qed.
Lemma rbind_ext {S T} (e : res S) (f g : S -> res T) : (forall s, f s = g s) -> rbind e f = rbind e g.
Proof. intros H. destruct e; cbn; auto. Qed.
Lemma rbind_assoc {S T U} (e : res S) (f : S -> res T) (g : T -> res U) : rbind (rbind e f) g = rbind e (fun s => rbind (f s) g).
Proof. destruct e; reflexivity. Qed.

Lemma get_1 (c : chunk_1d RA) i : cn_get RA (as_nd_1 c) [i] = c1_get RA c i.
Proof.
  unfold cn_get, c1_get, as_nd_1, aget, assert_. cbn [cn_fronts cn_sizes cn_at offsets rbind]. unfold assert_.
  destruct ((0 <=? elem_minus i (c1_front RA c)) && (elem_minus i (c1_front RA c) <? a_len (c1_vals RA c)))%bool; reflexivity.
Qed.
Lemma get_2 (c : chunk_2d RA) i j : cn_get RA (as_nd_2 c) [i; j] = c2_get RA c i j.
Proof.
  unfold cn_get, c2_get, as_nd_2, aget2, in2. cbn [cn_fronts cn_sizes cn_at offsets rbind]. unfold assert_.
  destruct (0 <=? elem_minus i (c2_front1 c)), (elem_minus i (c2_front1 c) <? a2_n (c2_vals c)), (0 <=? elem_minus j (c2_front2 c)), (elem_minus j (c2_front2 c) <? a2_m (c2_vals c)); reflexivity.
Qed.
(** * One dimension *)
Lemma no_bc_1 s m o x (c : chunk_1d RA) : eval_no_bc_nd RA [(s, m)] [o] [x] (as_nd_1 c) = EvaluatorModel.eval_no_bc RA s m o x c.
Proof.
  assert (E : EvaluatorModel.eval_no_bc RA s m o x c = rbind (basis_values RA s m o x) (fun '(vals, jmin) => spline_sum RA s jmin vals c)).
  { unfold EvaluatorModel.eval_no_bc, basis_values. destruct o as [o|]; [|reflexivity]. unfold assert_. destruct ((0 <? o) && (o <=? bs_degree RA s))%bool; [|reflexivity].
    rewrite rbind_assoc. apply rbind_ext. intros [d j]. rewrite rbind_assoc. apply rbind_ext. intros v. reflexivity. }
  rewrite E. unfold eval_no_bc_nd. cbn [bases]. rewrite rbind_assoc. apply rbind_ext. intros [vals jmin]. cbn [rbind map for_each fst snd app].
  unfold spline_sum. apply for_range_ext. intros i y. cbn [plus_nd]. rewrite get_1. apply rbind_ext. intros v. cbn [at_index]. rewrite rbind_assoc. apply rbind_ext. intros w. reflexivity.
Qed.
Theorem agree_1 s m l u l' u' x (c : chunk_1d RA) : same_rule_1 l l' -> same_rule_1 u u' -> eval_nd RA [(s, m)] [(l', u')] [x] (as_nd_1 c) = eval RA s m l u x c.
Proof.
  intros Hl Hu. unfold eval_nd, eval. cbn [update_coord_eval needs_extrapolation map]. unfold wrap, check_needs_extrapolation.
  destruct (bs_periodic RA s).
  - destruct (bs_rmin RA s) as [a| |]; [|reflexivity..]. destruct (bs_rmax RA s) as [b| |]; [|reflexivity..]. destruct (bs_length RA s) as [len| |]; [|reflexivity..].
    cbn [rbind]. apply no_bc_1.
  - cbn [rbind]. destruct (bs_rmin RA s) as [a| |]; [|reflexivity..]. destruct (bs_rmax RA s) as [b| |]; [|reflexivity..]. cbn [rbind].
    destruct (nltb RA x a); [rewrite Hl; destruct (l x c); reflexivity|]. destruct (nltb RA b x); [rewrite Hu; destruct (u x c); reflexivity|]. cbn [rbind]. apply no_bc_1.
Qed.
(** * Two dimensions *)
Lemma no_bc_2 s1 m1 s2 m2 o1 o2 x y (c : chunk_2d RA) : eval_no_bc_nd RA [(s1, m1); (s2, m2)] [o1; o2] [x; y] (as_nd_2 c) = eval_no_bc_2d RA s1 s2 m1 m2 o1 o2 x y c.
Proof.
  unfold eval_no_bc_nd, eval_no_bc_2d. cbn [bases]. rewrite rbind_assoc. apply rbind_ext. intros [v1 j1]. rewrite !rbind_assoc. apply rbind_ext. intros [v2 j2]. cbn [rbind map for_each fst snd app].
  unfold spline_sum_2d. apply for_range_ext. intros i w. apply for_range_ext. intros j w'. cbn [plus_nd]. rewrite get_2. apply rbind_ext. intros k. cbn [at_index]. rewrite !rbind_assoc.
  apply rbind_ext. intros p. rewrite !rbind_assoc. apply rbind_ext. intros q. cbn [rbind product]. f_equal. cbn. ring.
Qed.
Theorem agree_2 s1 m1 s2 m2 l1 u1 l2 u2 l1' u1' l2' u2' x y (c : chunk_2d RA) : same_rule_2 l1 l1' -> same_rule_2 u1 u1' -> same_rule_2 l2 l2' -> same_rule_2 u2 u2' ->
  eval_nd RA [(s1, m1); (s2, m2)] [(l1', u1'); (l2', u2')] [x; y] (as_nd_2 c) = eval_2d RA s1 s2 m1 m2 l1 u1 l2 u2 x y c.
Proof.
  intros Hl1 Hu1 Hl2 Hu2. unfold eval_nd, eval_2d. cbn [update_coord_eval needs_extrapolation map]. rewrite rbind_assoc. apply rbind_ext. intros x'. rewrite !rbind_assoc. apply rbind_ext. intros y'.
  cbn [rbind needs_extrapolation]. unfold check_needs_extrapolation, outside.
  assert (Snd : (r <- (if bs_periodic RA s2 then Ok None else rmin <- bs_rmin RA s2 ;; rmax <- bs_rmax RA s2 ;;
      if nltb RA y' rmin then r <- l2' [x'; y'] (as_nd_2 c) ;; Ok (Some r) else if nltb RA rmax y' then r <- u2' [x'; y'] (as_nd_2 c) ;; Ok (Some r) else Ok None) ;;
      match r with Some v => Ok v | None => eval_no_bc_nd RA [(s1, m1); (s2, m2)] [None; None] [x'; y'] (as_nd_2 c) end) =
    (r2 <- (if bs_periodic RA s2 then Ok None else rmin <- bs_rmin RA s2 ;; rmax <- bs_rmax RA s2 ;; Ok (if nltb RA y' rmin then Some l2 else if nltb RA rmax y' then Some u2 else None)) ;;
      match r2 with Some r => r x' y' c | None => eval_no_bc_2d RA s1 s2 m1 m2 None None x' y' c end)).
  { destruct (bs_periodic RA s2); [apply no_bc_2|]. destruct (bs_rmin RA s2) as [a| |]; [|reflexivity..]. destruct (bs_rmax RA s2) as [b| |]; [|reflexivity..]. cbn [rbind].
    destruct (nltb RA y' a); [rewrite Hl2; cbn [rbind]; destruct (l2 x' y' c); reflexivity|]. destruct (nltb RA b y'); [rewrite Hu2; cbn [rbind]; destruct (u2 x' y' c); reflexivity|]. cbn [rbind]. apply no_bc_2. }
  destruct (bs_periodic RA s1).
  - cbn [rbind]. rewrite <- Snd. rewrite rbind_assoc. apply rbind_ext. intros [v|]; reflexivity.
  - destruct (bs_rmin RA s1) as [a| |]; [|reflexivity..]. destruct (bs_rmax RA s1) as [b| |]; [|reflexivity..]. cbn [rbind].
    destruct (nltb RA x' a); [rewrite Hl1; cbn [rbind]; destruct (l1 x' y' c); reflexivity|]. destruct (nltb RA b x'); [rewrite Hu1; cbn [rbind]; destruct (u1 x' y' c); reflexivity|]. cbn [rbind].
    rewrite <- Snd. rewrite rbind_assoc. apply rbind_ext. intros [v|]; reflexivity.
Qed.
(** * Three dimensions *)
Lemma no_bc_3 s1 m1 s2 m2 s3 m3 o1 o2 o3 x y z (c : chunk_nd RA) :
  eval_no_bc_nd RA [(s1, m1); (s2, m2); (s3, m3)] [o1; o2; o3] [x; y; z] c = eval_no_bc_3d RA s1 s2 s3 m1 m2 m3 o1 o2 o3 x y z c.
Proof.
  unfold eval_no_bc_nd, eval_no_bc_3d. cbn [bases]. rewrite rbind_assoc. apply rbind_ext. intros [v1 j1]. rewrite !rbind_assoc. apply rbind_ext. intros [v2 j2]. rewrite !rbind_assoc. apply rbind_ext. intros [v3 j3].
  cbn [rbind map for_each fst snd app].
  unfold spline_sum_3d. apply for_range_ext. intros i w. apply for_range_ext. intros j w'. apply for_range_ext. intros k w''. cbn [plus_nd]. apply rbind_ext. intros d. cbn [at_index]. rewrite !rbind_assoc.
  apply rbind_ext. intros p. rewrite !rbind_assoc. apply rbind_ext. intros q. rewrite !rbind_assoc. apply rbind_ext. intros r. cbn [rbind product]. f_equal. cbn. ring.
Qed.
Lemma check_outside s x (l u : rule_nd RA) xs c : check_needs_extrapolation RA s x l u xs c = (r <- outside_3d RA s x l u ;; match r with Some r => v <- r xs c ;; Ok (Some v) | None => Ok None end).
Proof.
  unfold check_needs_extrapolation, outside_3d. destruct (bs_periodic RA s); [reflexivity|]. destruct (bs_rmin RA s) as [a| |]; [|reflexivity..]. destruct (bs_rmax RA s) as [b| |]; [|reflexivity..]. cbn [rbind].
  destruct (nltb RA x a); [reflexivity|]. destruct (nltb RA b x); reflexivity.
Qed.
Theorem agree_3 s1 m1 s2 m2 s3 m3 l1 u1 l2 u2 l3 u3 x y z (c : chunk_nd RA) :
  eval_nd RA [(s1, m1); (s2, m2); (s3, m3)] [(l1, u1); (l2, u2); (l3, u3)] [x; y; z] c = eval_3d RA s1 s2 s3 m1 m2 m3 l1 u1 l2 u2 l3 u3 x y z c.
Proof.
  unfold eval_nd, eval_3d. cbn [update_coord_eval map]. rewrite rbind_assoc. apply rbind_ext. intros x'. rewrite !rbind_assoc. apply rbind_ext. intros y'. rewrite !rbind_assoc. apply rbind_ext. intros z'.
  cbn [rbind needs_extrapolation]. rewrite !check_outside.
  destruct (outside_3d RA s1 x' l1 u1) as [[r|]| |]; [cbn [rbind]; destruct (r [x'; y'; z'] c); reflexivity| |reflexivity..]. cbn [rbind].
  destruct (outside_3d RA s2 y' l2 u2) as [[r|]| |]; [cbn [rbind]; destruct (r [x'; y'; z'] c); reflexivity| |reflexivity..]. cbn [rbind].
  destruct (outside_3d RA s3 z' l3 u3) as [[r|]| |]; [cbn [rbind]; destruct (r [x'; y'; z'] c); reflexivity| |reflexivity..]. cbn [rbind].
  apply no_bc_3.
Qed.
Definition as_list (p : R * R * R) : list R := let '(x, y, z) := p in [x; y; z].
Lemma batched_3 (f : R -> R -> R -> chunk_nd RA -> res R) (g : list R -> chunk_nd RA -> res R) nbatch f1 n1 f2 n2 f3 n3 coords coef out : (forall x y z c, g [x; y; z] c = f x y z c) ->
  eval_batched_nd RA g nbatch [f1; f2; f3] [n1; n2; n3] (fun j e => as_list (coords j e)) coef out = eval_batched_3d RA f nbatch f1 n1 f2 n2 f3 n3 coords coef out.
Proof.
  intros H. unfold eval_batched_nd, eval_batched_3d. apply for_range_ext. intros j o. cbn [for_each app]. apply for_range_ext. intros k1 o1. apply for_range_ext. intros k2 o2. apply for_range_ext. intros k3 o3.
  cbn [plus_nd]. destruct (coords j [u64_add f1 k1; u64_add f2 k2; u64_add f3 k3]) as [[x y] z]. cbn [as_list]. rewrite H. reflexivity.
Qed.
Theorem evaluate_3 s1 m1 s2 m2 s3 m3 l1 u1 l2 u2 l3 u3 nbatch f1 n1 f2 n2 f3 n3 coords coef out :
  evaluate_nd RA [(s1, m1); (s2, m2); (s3, m3)] [(l1, u1); (l2, u2); (l3, u3)] nbatch [f1; f2; f3] [n1; n2; n3] (fun j e => as_list (coords j e)) coef out =
  evaluate_3d RA s1 s2 s3 m1 m2 m3 l1 u1 l2 u2 l3 u3 nbatch f1 n1 f2 n2 f3 n3 coords coef out.
Proof. unfold evaluate_nd, evaluate_3d. apply batched_3. intros x y z c. apply agree_3. Qed.
Theorem deriv_3 s1 m1 s2 m2 s3 m3 o1 o2 o3 nbatch f1 n1 f2 n2 f3 n3 coords coef out :
  deriv_nd RA [(s1, m1); (s2, m2); (s3, m3)] [o1; o2; o3] nbatch [f1; f2; f3] [n1; n2; n3] (fun j e => as_list (coords j e)) coef out =
  deriv_3d RA s1 s2 s3 m1 m2 m3 o1 o2 o3 nbatch f1 n1 f2 n2 f3 n3 coords coef out.
Proof. unfold deriv_nd, deriv_3d. apply batched_3. intros x y z c. apply no_bc_3. Qed.
Theorem integrate_3 s1 m1 s2 m2 s3 m3 q1 q2 q3 k1 k2 k3 f1 n1 f2 n2 f3 n3 nbatch coef (out : arr R) :
  integrate_nd RA [(s1, m1); (s2, m2); (s3, m3)] [(q1, k1); (q2, k2); (q3, k3)] [f1; f2; f3] [n1; n2; n3] nbatch coef out =
  integrate_3d RA s1 s2 s3 m1 m2 m3 q1 q2 q3 k1 k2 k3 f1 n1 f2 n2 f3 n3 nbatch coef out.
Proof.
  unfold integrate_nd, integrate_3d. cbn [all_integrals]. rewrite rbind_assoc. apply rbind_ext. intros w1. rewrite !rbind_assoc. apply rbind_ext. intros w2. rewrite !rbind_assoc. apply rbind_ext. intros w3. cbn [rbind].
  apply for_range_ext. intros j o. apply rbind_ext. intros o0. cbn [for_each app]. apply for_range_ext. intros i1 o1. apply for_range_ext. intros i2 o2. apply for_range_ext. intros i3 o3.
  cbn [plus_nd]. apply rbind_ext. intros y. apply rbind_ext. intros c. cbn [at_elem]. rewrite !rbind_assoc. apply rbind_ext. intros p. rewrite !rbind_assoc. apply rbind_ext. intros q. rewrite !rbind_assoc.
  apply rbind_ext. intros r. cbn [rbind product]. f_equal. cbn. ring.
Qed.
