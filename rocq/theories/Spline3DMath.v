(** Mixed derivatives of tensor products at points and ends. *)
From Coq Require Import Reals ZArith Lia Lra List.
From Verif Require Export Spline3DSpec.
From Verif Require Import LoopProofs BSplineDeriv BSplineMath IntegralMath IntegralMath2 IntegralProofs EvaluatorSpace EvaluatorProofs EvaluatorProofs2 Spline2DProofs Spline2DMath SplineNDProofs.
Import ListNotations.
Local Open Scope Z_scope.

(** What a site reads of a spline of one dimension. *)
Definition functional (A : axis) (t : site) (c : Z -> R) : R :=
  match t with
  | AtPoint i => spline_1d A c (ax_point A i)
  | AtEdge e l => deriv_sum (ax_degree A) (ax_knots A) (edge_cell A e) (l + ax_degree A mod 2) c (edge_point A e)
  end.
Definition of_site (v : Z -> R) (w : side -> Z -> R) (t : site) : R := match t with AtPoint i => v i | AtEdge e l => w e l end.

Section One.
Context (A : axis) (s : bspline_space RA) (Sp : space_of s A).
Let F := space_facts _ _ _ _ _ _ _ Sp.
Lemma interp_functional v w c t : interp A v w c -> valid_site A t -> functional A t c = of_site v w t.
Proof.
  intros (Hv & Hw & _) Ht. destruct t as [i|e l]; cbn [functional of_site]; [exact (Hv i Ht)|].
  exact (derivatives_D2 A s Sp e c (w e) l (Hw e) Ht).
Qed.
Lemma functional_ext t c c' : valid_site A t -> (forall i, 0 <= i < ax_size A -> c i = c' i) -> functional A t c = functional A t c'.
Proof.
  intros Ht H. destruct t as [i|e l]; cbn [functional]; [exact (spline_1d_ext A c c' _ H)|].
  pose proof (f_n _ _ _ _ _ _ _ F) as Hn. pose proof (f_d _ _ _ _ _ _ _ F) as Hd. pose proof (edge_cell_in A e Hn) as Hc.
  unfold deriv_sum. apply zsum_ext. intros r Hr. rewrite H; [reflexivity|]. unfold ax_size. lia.
Qed.
End One.

Fixpoint functional_nd (As : list axis) (ts : list site) (c : list Z -> R) : R :=
  match As, ts with
  | A :: As, t :: ts => functional A t (fun i => functional_nd As ts (fun is => c (i :: is)))
  | _, _ => c []
  end.
Lemma takes_functional : forall As, Forall (fun A => exists s, space_of s A) As -> forall ts, Forall2 valid_site As ts -> forall c, takes As ts c (functional_nd As ts c).
Proof.
  induction As as [|A As IH]; intros HA ts Ht c; inversion Ht as [|? t ? ts' Ht1 Ht2]; subst; [reflexivity|].
  inversion HA as [|? ? [s Sp] HA']; subst. specialize (IH HA' ts' Ht2). pose proof (space_facts _ _ _ _ _ _ _ Sp) as F.
  pose proof (f_n _ _ _ _ _ _ _ F) as Hn. pose proof (f_d _ _ _ _ _ _ _ F) as Hd.
  assert (Hl : length ts' = length As) by (clear -Ht2; induction Ht2; cbn; congruence).
  unfold takes. cbn [combine map mixed_derivative_nd tensor_nd functional_nd].
  pose (H := fun x' => zsum (ax_size A) (fun i => functional_nd As ts' (fun is => c (i :: is)) * site_basis A t i x')%R).
  exists H. destruct t as [i|e l]; cbn [site_order site_position functional].
  - exists H. split; [|split].
    + intros x'. apply (md_zsum _ (ax_size A) (fun i ys => tensor_nd (map (fun '(A0, t0, x) => (ax_size A0, fun i0 => site_basis A0 t0 i0 x)) (combine (combine As ts') ys)) (fun is => c (i :: is)))).
      * now rewrite !map_length.
      * unfold ax_size; lia.
      * intros j _. apply IH.
    + intro x; reflexivity.
    + reflexivity.
  - exists (deriv_sum (ax_degree A) (ax_knots A) (edge_cell A e) (l + ax_degree A mod 2) (fun i => functional_nd As ts' (fun is => c (i :: is)))). split; [|split].
    + intros x'. apply (md_zsum _ (ax_size A) (fun i ys => tensor_nd (map (fun '(A0, t0, x) => (ax_size A0, fun i0 => site_basis A0 t0 i0 x)) (combine (combine As ts') ys)) (fun is => c (i :: is)))).
      * now rewrite !map_length.
      * unfold ax_size; lia.
      * intros j _. apply IH.
    + cbn in Ht1. destruct (order_le A e l Hd Ht1) as [Ho Eo]. rewrite Eo.
      exact (deriv_sum_nd _ _ _ _ _ _ _ F (edge_cell A e) (l + ax_degree A mod 2) (fun i => functional_nd As ts' (fun is => c (i :: is))) (edge_cell_in A e Hn) Ho).
    + reflexivity.
Qed.
