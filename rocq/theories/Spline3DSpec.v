(** Specification for the construction of splines in three dimensions, independent of the definitions of the builder.  See Spline2DSpec for [axis] and SplineNDSpec for
    the splines in n dimensions. *)
From Coq Require Import Bool Reals ZArith List.
From Verif Require Export SplineNDSpec Spline3DModel.
Import ListNotations.
Local Open Scope Z_scope.

(** What is imposed on a spline of one dimension: its value at a point, or one of its derivatives at an end. *)
Inductive site := AtPoint (i : Z) | AtEdge (e : side) (l : Z).
Definition valid_site (A : axis) (t : site) : Prop := match t with AtPoint i => 0 <= i < ax_points A | AtEdge e l => 0 <= l < edge_equations A e end.
(** The order of the derivative, where it is taken, and the functions whose derivative is taken: the B-splines, or the polynomials they are on the cell of the end. *)
Definition site_order (A : axis) (t : site) : nat := match t with AtPoint _ => 0%nat | AtEdge _ l => BuilderSpec.order (ax_degree A) l end.
Definition site_position (A : axis) (t : site) : R := match t with AtPoint i => ax_point A i | AtEdge e _ => edge_point A e end.
Definition site_basis (A : axis) (t : site) (i : Z) (x : R) : R := match t with AtPoint _ => basis A i x | AtEdge e _ => basis_piece A (edge_cell A e) i x end.
(** The mixed derivative, in all dimensions, of the spline of coefficients c is v at the sites ts. *)
Definition takes (As : list axis) (ts : list site) (c : list Z -> R) (v : R) : Prop :=
  mixed_derivative_nd (map (fun '(A, t) => site_order A t) (combine As ts))
    (fun xs => tensor_nd (map (fun '(A, t, x) => (ax_size A, fun i => site_basis A t i x)) (combine (combine As ts) xs)) c)
    (map (fun '(A, t) => site_position A t) (combine As ts)) v.

(** The data: values ([Inside] in all dimensions), derivatives at the ends of some of the dimensions. *)
Inductive kind := Inside | At (e : side).
Definition data_3d : Type := kind -> kind -> kind -> option (chunk_nd RA).
Definition kind_of (t : site) : kind := match t with AtPoint _ => Inside | AtEdge e _ => At e end.
Definition index_of (t : site) : Z := match t with AtPoint i => i | AtEdge _ l => l end.
Definition hermite (A : axis) (k : kind) : bool := match k with Inside => true | At e => match edge_closure A e with HERMITE => true | _ => false end end.
(** What is asked for: what is given, or 0 at the ends of closure HOMOGENEOUS_HERMITE. *)
Definition asked_3d (A1 A2 A3 : axis) (D : data_3d) (t1 t2 t3 : site) : R :=
  if hermite A1 (kind_of t1) && hermite A2 (kind_of t2) && hermite A3 (kind_of t3) then
    match D (kind_of t1) (kind_of t2) (kind_of t3) with Some w => cn_at w [index_of t1; index_of t2; index_of t3] | None => 0%R end
  else 0%R.
Definition interpolates_3d (A1 A2 A3 : axis) (D : data_3d) (c : list Z -> R) : Prop :=
  forall t1 t2 t3, valid_site A1 t1 -> valid_site A2 t2 -> valid_site A3 t3 -> takes [A1; A2; A3] [t1; t2; t3] c (asked_3d A1 A2 A3 D t1 t2 t3).

(** The shape of the data: all points, or degree/2 derivatives from the order degree mod 2 on. *)
Definition front_of (A : axis) (f : Z) (k : kind) : Z := match k with Inside => f | At _ => ax_degree A mod 2 end.
Definition extent_of (A : axis) (k : kind) : Z := match k with Inside => ax_points A | At _ => ax_degree A / 2 end.
Definition shaped (w : option (chunk_nd RA)) (fronts sizes : list Z) : Prop := match w with Some w => on_mesh w fronts sizes | None => False end.
(** The derivatives in the second and third dimensions that the builder reads.  Mixed ones are read if one of the two closures is HERMITE. *)
Definition read (A2 A3 : axis) (k2 k3 : kind) : bool := match k2, k3 with At _, At _ => hermite A2 k2 || hermite A3 k3 | _, _ => hermite A2 k2 && hermite A3 k3 end.
Definition data_given_3d (A1 A2 A3 : axis) (D : data_3d) : Prop :=
  exists f2 f3, 0 <= f2 < 2 ^ 64 /\ 0 <= f3 < 2 ^ 64 /\
  forall k2 k3, read A2 A3 k2 k3 = true ->
    (exists f1, shaped (D Inside k2 k3) [f1; front_of A2 f2 k2; front_of A3 f3 k3] [ax_points A1; extent_of A2 k2; extent_of A3 k3]) /\
    forall e1, if hermite A1 (At e1)
      then shaped (D (At e1) k2 k3) [ax_degree A1 mod 2; front_of A2 f2 k2; front_of A3 f3 k3] [ax_degree A1 / 2; extent_of A2 k2; extent_of A3 k3]
      else D (At e1) k2 k3 = None.
(** The closures that the builder supports: HERMITE in the third dimension only if the second one is HERMITE. *)
Definition supported (A2 A3 : axis) : Prop := forall e2 e3, edge_closure A3 e3 = HERMITE -> edge_closure A2 e2 = HERMITE.
(** The builder, on these data. *)
Definition arguments_of (D : data_3d) : derivs_3d RA :=
  let l := At Lower in let u := At Upper in let o := Inside in
  mk_derivs_3d (D l o o) (D u o o) (D o l o) (D o u o) (D o o l) (D o o u)
    (D l l o) (D u l o) (D l u o) (D u u o) (D o l l) (D o u l) (D o l u) (D o u u) (D l o l) (D u o l) (D l o u) (D u o u)
    (D l l l) (D u l l) (D l u l) (D u u l) (D l l u) (D u l u) (D l u u) (D u u u).
Definition run_3d (s1 s2 s3 : bspline_space RA) (A1 A2 A3 : axis) (X : solvers RA) (bd1 bd2 bd3 : builder RA) (junk : nat -> list Z -> R) (work work23 : nat -> Z -> Z -> Z -> R)
  (sp : chunk_nd RA) (D : data_3d) : res (chunk_nd RA) :=
  match D Inside Inside Inside with
  | Some vals => build_3d RA s1 s2 s3 (ax_lower A1) (ax_upper A1) (ax_lower A2) (ax_upper A2) (ax_lower A3) (ax_upper A3) X bd1 bd2 bd3 junk work work23 sp vals (arguments_of D)
  | None => Undef
  end.
