(** Specification for splines in any number of dimensions, independent of the definitions of the builder and of the evaluator.  See Spline2DSpec for [axis],
    one dimension, and what is said of it. *)
From Coq Require Import Reals ZArith List.
From Verif Require Export Spline2DSpec SplineNDModel.
Import ListNotations.
Local Open Scope Z_scope.

(** The sum on all indices of c [i1; ...; in] * f1(i1) * ... * fn(in), with n1, ..., nn values of the indices. *)
Fixpoint tensor_nd (fs : list (Z * (Z -> R))) (c : list Z -> R) : R :=
  match fs with
  | [] => c []
  | (n, f) :: fs => sum_first (Z.to_nat n) (fun i => tensor_nd fs (fun is => c (i :: is)) * f i)%R
  end.
(** The spline with coefficients c; and the polynomial it is on a product of cells. *)
Definition spline_nd (As : list axis) (c : list Z -> R) (xs : list R) : R :=
  tensor_nd (map (fun '(A, x) => (ax_size A, fun i => basis A i x)) (combine As xs)) c.
Definition piece_nd (As : list axis) (ks : list Z) (c : list Z -> R) (xs : list R) : R :=
  tensor_nd (map (fun '(A, k, x) => (ax_size A, fun i => basis_piece A k i x)) (combine (combine As ks) xs)) c.
(** The derivative of orders os of F is v at the point xs. *)
Fixpoint mixed_derivative_nd (os : list nat) (F : list R -> R) (xs : list R) (v : R) : Prop :=
  match os, xs with
  | [], [] => F [] = v
  | o :: os, x :: xs => exists H G, (forall x', mixed_derivative_nd os (fun ys => F (x' :: ys)) xs (H x')) /\ nth_derivative o H G /\ G x = v
  | _, _ => False
  end.
(** The iterated integral of F on a product of intervals is v. *)
Fixpoint integral_nd (bounds : list (R * R)) (F : list R -> R) (v : R) : Prop :=
  match bounds with
  | [] => F [] = v
  | (a, b) :: bounds => exists G, (forall x, integral_nd bounds (fun ys => F (x :: ys)) (G x)) /\ integral G a b v
  end.
(** P holds of the elements of three lists, taken together. *)
Fixpoint all3 {X Y Z} (P : X -> Y -> Z -> Prop) (l1 : list X) (l2 : list Y) (l3 : list Z) : Prop :=
  match l1, l2, l3 with
  | [], [], [] => True
  | x :: l1, y :: l2, z :: l3 => P x y z /\ all3 P l1 l2 l3
  | _, _, _ => False
  end.
(** An index for each of the dimensions of the given sizes. *)
Definition in_sizes (ns is : list Z) : Prop := Forall2 (fun n i => 0 <= i < n) ns is.
Definition inside (A : axis) (x : R) : Prop := (ax_min A <= x <= ax_max A)%R.
(** The coefficients of a spline: one for each tuple of B-splines. *)
Definition has_coefficients_nd (c : chunk_nd RA) (ns : list Z) : Prop := cn_fronts c = map (fun _ => 0) ns /\ cn_sizes c = ns.
Definition coefficient_nd (c : chunk_nd RA) (is : list Z) : R := cn_at c is.
(** Periodicity of the coefficients, in the dimensions that are periodic. *)
Fixpoint periodic_nd (As : list axis) (c : list Z -> R) : Prop :=
  match As with
  | [] => True
  | A :: As =>
      (ax_periodic A = true -> forall is, in_sizes (map ax_size As) is -> periodic_coefficients (fun i => c (i :: is)) (ax_degree A) (ax_cells A)) /\
      (forall i, 0 <= i < ax_size A -> periodic_nd As (fun is => c (i :: is)))
  end.
(** The spaces of the dimensions. *)
Definition spaces_of (dims : list (dim RA)) (As : list axis) : Prop := Forall2 (fun d A => space_of (fst d) A) dims As.
(** What becomes of a coordinate before extrapolation. *)
Definition reduced (A : axis) (x x' : R) : Prop := if ax_periodic A then lands A x x' else x' = x.
(** The element of index idx of a mesh; a mesh whose elements are representable. *)
Definition element_at (fronts idx : list Z) : list Z := map (fun '(f, i) => f + i) (combine fronts idx).
Definition mesh (fronts sizes : list Z) : Prop := Forall2 (fun f n => 0 <= f /\ 0 <= n < 2 ^ 63 /\ f + n <= 2 ^ 64) fronts sizes.
Definition on_mesh (c : chunk_nd RA) (fronts sizes : list Z) : Prop := cn_fronts c = fronts /\ cn_sizes c = sizes.
(** Chunks over one and two dimensions as chunks over a list of dimensions, and rules that do the same. *)
Definition as_nd_1 (c : chunk_1d RA) : chunk_nd RA := mk_chunk_nd [c1_front RA c] [a_len (c1_vals RA c)] (fun is => a_at (c1_vals RA c) (nth 0 is 0)).
Definition as_nd_2 (c : chunk_2d RA) : chunk_nd RA := mk_chunk_nd [c2_front1 c; c2_front2 c] [a2_n (c2_vals c); a2_m (c2_vals c)] (fun is => a2_at (c2_vals c) (nth 0 is 0) (nth 1 is 0)).
Definition same_rule_1 (r : rule RA) (r' : rule_nd RA) : Prop := forall x c, r' [x] (as_nd_1 c) = r x c.
Definition same_rule_2 (r : rule_2d RA) (r' : rule_nd RA) : Prop := forall x y c, r' [x; y] (as_nd_2 c) = r x y c.
