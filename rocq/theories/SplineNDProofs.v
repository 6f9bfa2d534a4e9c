(** Loops, sums and derivatives in any number of dimensions. *)
From Coq Require Import Bool ZArith Lia Reals Lra ZifyBool List.
From Verif Require Import SplineNDSpec LoopProofs SamplingProofs BSplineDeriv BSplineMath IntegralMath IntegralMath2 IntegralProofs EvaluatorSpace EvaluatorProofs EvaluatorProofs2 Spline2DProofs Spline2DMath Spline2DEval Spline2DEval2.
Import ListNotations.
Local Open Scope bool_scope. Local Open Scope Z_scope.

(** *** loops *)
Lemma for_each_inv {S} (I : S -> Prop) (done : S -> list Z -> Prop) (f : list Z -> S -> res S) : forall bounds is s,
  Forall (fun n => 0 <= n) bounds ->
  (forall idx s, in_sizes bounds idx -> I s -> exists s', f (is ++ idx) s = Ok s' /\ I s' /\ done s' (is ++ idx) /\ (forall e, done s e -> done s' e)) -> I s ->
  exists s', for_each bounds f is s = Ok s' /\ I s' /\ (forall idx, in_sizes bounds idx -> done s' (is ++ idx)) /\ (forall e, done s e -> done s' e).
Proof.
  induction bounds as [|n bounds IH]; intros is s Hb Hf Hs.
  - cbn [for_each]. destruct (Hf [] s (Forall2_nil _) Hs) as (s' & E & H1 & H2 & H3). rewrite app_nil_r in E, H2. exists s'. split; [exact E|]. split; [exact H1|]. split; [|exact H3].
    intros idx Hi. inversion Hi. now rewrite app_nil_r.
  - cbn [for_each]. inversion Hb as [|? ? Hn Hb']. subst.
    destruct (for_range_inv (fun i (s' : S) => I s' /\ (forall i' idx, 0 <= i' < i -> in_sizes bounds idx -> done s' (is ++ i' :: idx)) /\ (forall e, done s e -> done s' e))
      (fun i s => for_each bounds f (is ++ [i]) s) 0 n s) as (s' & E & H1 & H2 & H3).
    + lia.
    + split; [exact Hs|]. split; [intros; lia | auto].
    + intros i s1 Hi (H1 & H2 & H3). destruct (IH (is ++ [i]) s1 Hb') as (s2 & E & K1 & K2 & K3); [|exact H1|].
      * intros idx s2 Hidx Hs2. rewrite <- app_assoc. cbn [app]. apply Hf; [constructor; [lia | exact Hidx] | exact Hs2].
      * exists s2. split; [exact E|]. split; [exact K1|]. split; [|auto]. intros i' idx Hi' Hidx. destruct (Z.eq_dec i' i) as [->|N].
        -- specialize (K2 idx Hidx). now rewrite <- app_assoc in K2.
        -- apply K3, H2; [lia | exact Hidx].
    + exists s'. split; [exact E|]. split; [exact H1|]. split; [|exact H3]. intros idx Hidx. inversion Hidx as [|? i ? idx' Hi Hidx']. subst. now apply H2.
Qed.
(** The sum on all indices. *)
Fixpoint nsum (bounds : list Z) (h : list Z -> R) : R :=
  match bounds with [] => h [] | n :: bounds => zsum n (fun i => nsum bounds (fun idx => h (i :: idx))) end.
Lemma nsum_ext : forall bounds h h', (forall idx, in_sizes bounds idx -> h idx = h' idx) -> nsum bounds h = nsum bounds h'.
Proof.
  induction bounds as [|n bounds IH]; intros h h' E; cbn [nsum]; [apply E; constructor|]. apply zsum_ext. intros i Hi. apply IH. intros idx Hidx. apply E. constructor; [lia | exact Hidx].
Qed.
Lemma nsum_scal : forall bounds k h, nsum bounds (fun idx => k * h idx)%R = (k * nsum bounds h)%R.
Proof. induction bounds as [|n bounds IH]; intros k h; cbn [nsum]; [reflexivity|]. rewrite <- zsum_scal. apply zsum_ext. intros i _. apply IH. Qed.
Lemma for_each_sum {S} (I : S -> Prop) (val : S -> R) (h : list Z -> R) (f : list Z -> S -> res S) : forall bounds is s,
  Forall (fun n => 0 <= n) bounds ->
  (forall idx s, in_sizes bounds idx -> I s -> exists s', f (is ++ idx) s = Ok s' /\ I s' /\ val s' = (val s + h (is ++ idx))%R) -> I s ->
  exists s', for_each bounds f is s = Ok s' /\ I s' /\ val s' = (val s + nsum bounds (fun idx => h (is ++ idx)))%R.
Proof.
  induction bounds as [|n bounds IH]; intros is s Hb Hf Hs.
  - cbn [for_each nsum]. destruct (Hf [] s (Forall2_nil _) Hs) as (s' & E & H1 & H2). rewrite app_nil_r in *. eauto.
  - cbn [for_each nsum]. inversion Hb as [|? ? Hn Hb']. subst.
    destruct (for_range_inv (fun k (s' : S) => I s' /\ val s' = (val s + zsum k (fun i => nsum bounds (fun idx => h (is ++ i :: idx))))%R)
      (fun i s => for_each bounds f (is ++ [i]) s) 0 n s) as (s' & E & H1 & H2).
    + lia.
    + split; [exact Hs|]. change (zsum 0 _) with 0%R. ring.
    + intros i s1 Hi (H1 & H2). destruct (IH (is ++ [i]) s1 Hb') as (s2 & E & K1 & K2); [|exact H1|].
      * intros idx s2 Hidx Hs2. rewrite <- app_assoc. cbn [app]. apply Hf; [constructor; [lia | exact Hidx] | exact Hs2].
      * exists s2. split; [exact E|]. split; [exact K1|]. rewrite K2, H2, (zsum_S i) by lia. rewrite Rplus_assoc. do 2 f_equal. apply nsum_ext. intros idx _. now rewrite <- app_assoc.
    + eauto.
Qed.

(** *** the sum of one dimension after the others *)
Lemma tensor_ext : forall fs c c', (forall is, in_sizes (map fst fs) is -> c is = c' is) -> tensor_nd fs c = tensor_nd fs c'.
Proof.
  induction fs as [|[n f] fs IH]; intros c c' E; cbn [tensor_nd]; [apply E; constructor|]. rewrite !sum_first_zsum. apply zsum_ext. intros i Hi. f_equal. apply IH.
  intros is Hi'. apply E. constructor; [cbn [fst] in *; lia | exact Hi'].
Qed.
Lemma spline_nd_cons A As c x xs : spline_nd (A :: As) c (x :: xs) = spline_1d A (fun i => spline_nd As (fun is => c (i :: is)) xs) x.
Proof. unfold spline_nd. cbn [combine map tensor_nd]. symmetry. apply spline_1d_sum. Qed.
Lemma piece_nd_cons A As k ks c x xs : piece_nd (A :: As) (k :: ks) c (x :: xs) = piece_1d A k (fun i => piece_nd As ks (fun is => c (i :: is)) xs) x.
Proof. unfold piece_nd. cbn [combine map tensor_nd]. symmetry. apply piece_1d_sum. Qed.
Lemma spline_nd_ext : forall As c c' xs, length xs = length As -> (forall is, in_sizes (map ax_size As) is -> c is = c' is) -> spline_nd As c xs = spline_nd As c' xs.
Proof.
  intros As c c' xs Hl E. apply tensor_ext. intros is Hi. apply E. clear E. revert xs Hl is Hi. induction As as [|A As IH]; intros [|x xs] Hl is Hi; try discriminate; cbn in *; [exact Hi|].
  inversion Hi. subst. constructor; [assumption|]. apply (IH xs); [lia | assumption].
Qed.

(** *** derivatives *)
Lemma md_ext : forall os F G xs v, (forall ys, length ys = length os -> F ys = G ys) -> mixed_derivative_nd os F xs v -> mixed_derivative_nd os G xs v.
Proof.
  induction os as [|o os IH]; intros F G [|x xs] v E; cbn [mixed_derivative_nd]; try tauto.
  - intros <-. symmetry. now apply E.
  - intros (H & g & H1 & H2 & H3). exists H, g. split; [|split; assumption]. intros x'. apply (IH (fun ys => F (x' :: ys))); [|apply H1]. intros ys Hl. apply E. cbn. lia.
Qed.
Lemma md_value : forall os F xs v v', v = v' -> mixed_derivative_nd os F xs v -> mixed_derivative_nd os F xs v'.
Proof. now intros os F xs v v' ->. Qed.
Lemma md_plus : forall os F G xs v w, mixed_derivative_nd os F xs v -> mixed_derivative_nd os G xs w -> mixed_derivative_nd os (fun ys => F ys + G ys)%R xs (v + w)%R.
Proof.
  induction os as [|o os IH]; intros F G [|x xs] v w; cbn [mixed_derivative_nd]; try tauto.
  - now intros <- <-.
  - intros (H & g & H1 & H2 & H3) (K & k & K1 & K2 & K3). exists (fun x => H x + K x)%R, (fun x => g x + k x)%R. split; [|split].
    + intros x'. apply (IH (fun ys => F (x' :: ys)) (fun ys => G (x' :: ys))); auto.
    + now apply nd_plus.
    + now subst.
Qed.
Lemma md_scal : forall os F xs v a, mixed_derivative_nd os F xs v -> mixed_derivative_nd os (fun ys => F ys * a)%R xs (v * a)%R.
Proof.
  induction os as [|o os IH]; intros F [|x xs] v a; cbn [mixed_derivative_nd]; try tauto.
  - now intros <-.
  - intros (H & g & H1 & H2 & H3). exists (fun x => H x * a)%R, (fun x => g x * a)%R. split; [|split].
    + intros x'. now apply (IH (fun ys => F (x' :: ys))).
    + eapply nth_derivative_ext; [| |exact (nd_scal o a _ _ H2)]; intros; cbn beta; ring.
    + now subst.
Qed.
Lemma md_zero : forall os xs, length xs = length os -> mixed_derivative_nd os (fun _ => 0%R) xs 0%R.
Proof.
  induction os as [|o os IH]; intros [|x xs] E; try discriminate; cbn [mixed_derivative_nd]; [reflexivity|].
  exists (fun _ => 0%R), (fun _ => 0%R). split; [|split; [apply nd_zero | reflexivity]]. intros _. apply IH. cbn in E. lia.
Qed.
Lemma md_zsum : forall os n (F : Z -> list R -> R) (a v : Z -> R) xs, length xs = length os -> 0 <= n ->
  (forall i, 0 <= i < n -> mixed_derivative_nd os (F i) xs (v i)) -> mixed_derivative_nd os (fun ys => zsum n (fun i => F i ys * a i)%R) xs (zsum n (fun i => v i * a i)%R).
Proof.
  intros os n F a v xs Hl Hn. revert n Hn. apply (natlike_ind (fun n => (forall i, 0 <= i < n -> mixed_derivative_nd os (F i) xs (v i)) ->
    mixed_derivative_nd os (fun ys => zsum n (fun i => F i ys * a i)%R) xs (zsum n (fun i => v i * a i)%R))).
  - intros _. change (zsum 0 _) with 0%R. eapply md_ext; [|exact (md_zero os xs Hl)]. intros ys _. reflexivity.
  - intros n Hn IH Hi. unfold Z.succ. rewrite zsum_S by lia. eapply md_ext; [|apply (md_plus os (fun ys => zsum n (fun i => F i ys * a i)%R) (fun ys => F n ys * a n)%R); [apply IH; intros; apply Hi; lia | apply md_scal; apply Hi; lia]].
    intros ys _. cbn beta. now rewrite zsum_S by lia.
Qed.
