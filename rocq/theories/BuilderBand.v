(** The matrices of interpolation problems fit in the storage chosen for them. *)
From Coq Require Import Bool Reals Lia Lra ZifyBool List.
From Coquelicot Require Import Coquelicot.
From Verif Require Import BuilderSpec BSplineMath BSplineDeriv IntegralProofs IntegralMath EvaluatorSpace EvaluatorProofs BuilderMath BuilderProofs.
Import ListNotations.
Local Open Scope bool_scope. Local Open Scope Z_scope.

(** A sparse matrix keeps everything. *)
Lemma sparse_representable uniform periodic d ncells lower upper M : representable (shape_of (problem_of GINKGO uniform periodic d ncells lower upper)) M.
Proof.
  split; cbn [problem_of shape_of sh_kind].
  - intros i j _ _. unfold in_shape. cbn [sh_kind]. destruct (_ && _); discriminate.
  - discriminate.
Qed.
Lemma sparse_negligible uniform periodic d ncells lower upper M : none_negligible (shape_of (problem_of GINKGO uniform periodic d ncells lower upper)) M.
Proof. split; cbn [problem_of shape_of sh_n]; unfold in_main; cbn [sh_top sh_main sh_n]; intros; lia. Qed.

Lemma band_cases n kl ku symmetric kd : (band_kind n kl ku symmetric = Symmetric kd -> symmetric = true /\ kd = kl) /\
  (forall kl' ku', band_kind n kl ku symmetric = Banded kl' ku' -> kl' = kl /\ ku' = ku).
Proof. unfold band_kind. destruct (symmetric && (kl =? ku)) eqn:E; [|destruct (_ <=? _)]; split; intros; try discriminate; inversion H; subst; split; try reflexivity; lia. Qed.
(** If the entries of the main block far from the diagonal are zero, and the main block is symmetric when the storage is. *)
Lemma general_representable sh (M : Z -> Z -> R) : sh_kind sh = General -> representable sh M.
Proof. intros E. split; [|intros i j kd H; rewrite E in H; discriminate]. intros i j _ _. unfold in_shape. rewrite E. destruct (_ && _); discriminate. Qed.
Lemma band_representable sh w symmetric n' (M : Z -> Z -> R) : sh_kind sh = General \/ sh_kind sh = band_kind n' w w symmetric ->
  (forall i j, 0 <= i < sh_n sh -> 0 <= j < sh_n sh -> in_main sh i = true -> in_main sh j = true -> w < Z.abs (i - j) -> M i j = 0%R) ->
  (symmetric = true -> forall i j, in_main sh i = true -> in_main sh j = true -> M i j = M j i) -> representable sh M.
Proof.
  intros Hk Hz Hs. split.
  - intros i j Hi Hj. unfold in_shape. destruct (in_main sh i) eqn:Mi, (in_main sh j) eqn:Mj; cbn [andb]; try discriminate. intros E.
    apply Hz; try assumption. destruct Hk as [Hk | Hk]; rewrite Hk in E; [discriminate|].
    destruct (band_kind n' w w symmetric) as [|kl ku|kd] eqn:B; [discriminate| |].
    + destruct (proj2 (band_cases n' w w symmetric 0) kl ku B). lia.
    + destruct (proj1 (band_cases n' w w symmetric kd) B). lia.
  - intros i j kd E Mi Mj. apply Hs; try assumption. destruct Hk as [Hk | Hk]; rewrite Hk in E; [discriminate|]. now destruct (proj1 (band_cases n' w w symmetric kd) E).
Qed.

Section Bands.
Context (s : bspline_space RA) (d : Z) (periodic : bool) (ncells : Z) (t : Z -> R) (a b : R) (F : facts s d periodic ncells t a b).
Context (lower upper : closure) (Hcompat : compatible_closures RA s lower upper = true).
Let Hd : 1 <= d := f_d _ _ _ _ _ _ _ F.
Let Hn : 1 <= ncells := f_n _ _ _ _ _ _ _ F.
Let N := unknowns periodic d ncells.
Let first := equations lower d.
Let last := N - equations upper d.
Let h := ((b - a) / IZR ncells)%R.

(** ** B-splines are zero at the ends of their supports *)
Lemma far_right j x : (a <= x <= b)%R -> (t j < t (j + 1)%Z)%R -> (x <= t j)%R -> bspline t b (Z.to_nat d) j x = 0%R.
Proof.
  intros Hx Hs Hj. destruct (exists_cell s d periodic ncells t a b F x Hx) as (c & Hc). rewrite (cell_bspline s d periodic ncells t a b F _ x c j Hc).
  destruct (Z_lt_dec c j). { apply (piece_outside s d periodic ncells t a b F). lia. }
  pose proof (cell_closed s d periodic ncells t a b F x c Hc) as [C1 C2]. pose proof (f_mono _ _ _ _ _ _ _ F j c ltac:(lia)) as C3.
  destruct (Z.eq_dec c j) as [-> | Nc].
  - replace x with (t j) by lra. destruct (piece_last t j (Z.to_nat d)) as (K & ->). replace (t j - t j)%R with 0%R by ring. rewrite pow_i by lia. ring.
  - pose proof (f_mono _ _ _ _ _ _ _ F (j + 1) c ltac:(lia)). lra.
Qed.
Lemma far_left j x : (a <= x <= b)%R -> j < ncells \/ (b < t (j + d + 1)%Z)%R -> (t (j + d + 1)%Z <= x)%R -> bspline t b (Z.to_nat d) j x = 0%R.
Proof.
  intros Hx Hj Hs. assert (Hj' : j < ncells) by (destruct Hj as [Hj | Hj]; [exact Hj | lra]). clear Hj.
  destruct (exists_cell s d periodic ncells t a b F x Hx) as (c & Hc). rewrite (cell_bspline s d periodic ncells t a b F _ x c j Hc).
  destruct (Z_lt_dec (j + d) c). { apply (piece_outside s d periodic ncells t a b F). lia. }
  pose proof (f_mono _ _ _ _ _ _ _ F (c + 1) (j + d + 1) ltac:(lia)) as C3. destruct Hc as [Hc1 [Hc2 | [Hc2 Hc3]]]; [lra|].
  assert (j = c - d) as -> by lia. destruct (piece_first t c (Z.to_nat d)) as (K & HK). rewrite Z2Nat.id in HK by lia. rewrite HK.
  replace (c + 1) with (d + ncells) by lia. rewrite (f_last _ _ _ _ _ _ _ F), Hc2. replace (b - b)%R with 0%R by ring. rewrite pow_i by lia. ring.
Qed.

(** ** Non-uniform B-splines, not periodic: each point between the second and the last but one knot of its B-spline *)
Lemma blocks_representable (x : Z -> R) : periodic = false ->
  (forall i, 0 <= i < last - first -> (a <= x i <= b)%R) ->
  (forall i, border false lower d <= i < N - border false upper d -> (t (i + 1)%Z <= x (i - first)%Z <= t (i + d)%Z)%R) ->
  representable (shape_of (problem_of LAPACK false periodic d ncells lower upper)) (collocation periodic t a b d ncells lower upper x 0).
Proof.
  intros Ep Hx Hnear.
  assert (Esh : problem_of LAPACK false periodic d ncells lower upper = Some_blocks N (d - 1) (d - 1) false (border false upper d) (border false lower d)).
  { unfold problem_of. fold N. now rewrite Ep. }
  rewrite Esh. cbn [shape_of].
  pose proof (half_d s d periodic ncells t a b F) as Hh.
  assert (Hb : forall cl, equations cl d <= border false cl d). { intros [ | | | ]; cbn [equations border]; lia. }
  pose proof (Hb lower) as Hl. pose proof (Hb upper) as Hu. fold first in Hl.
  assert (EN : N = ncells + d) by (unfold N, unknowns; now rewrite Ep).
  assert (H0 : 0 <= first). { unfold first. destruct lower; cbn [equations]; lia. }
  eapply band_representable; [right; reflexivity | | discriminate].
  unfold in_main. cbn [sh_n sh_top sh_main]. intros i j Hi Hj Mi Mj Hw. unfold collocation. fold N first last. rewrite Ep.
  replace (i <? first) with false by lia. replace (i <? last) with true by (unfold last; lia).
  pose proof (Hnear i ltac:(lia)) as [H1 H2]. pose proof (Hx (i - first) ltac:(unfold last; lia)) as H3.
  destruct (Z_lt_dec i j).
  - apply far_right; [exact H3 | apply (f_cell _ _ _ _ _ _ _ F); lia |]. pose proof (f_mono _ _ _ _ _ _ _ F (i + d) j ltac:(lia)). lra.
  - apply far_left; [exact H3 | lia |]. pose proof (f_mono _ _ _ _ _ _ _ F (j + d + 1) (i + 1) ltac:(lia)). lra.
Qed.

(** ** Periodic non-uniform B-splines *)
Lemma strict_periodic k : periodic = true -> (t k < t (k + 1)%Z)%R.
Proof.
  intros Ep. pose proof (f_period _ _ _ _ _ _ _ F Ep) as P.
  assert (P' : forall e : nat, forall k, t (k + Z.of_nat e * ncells) = (t k + INR e * (b - a))%R).
  { induction e as [|e IH]; intros k0; [rewrite Z.add_0_r; cbn [INR]; ring|].
    replace (k0 + Z.of_nat (S e) * ncells) with (k0 + Z.of_nat e * ncells + ncells) by lia. rewrite P, IH, S_INR. ring. }
  assert (P2 : forall z k, t (k + z * ncells) = (t k + IZR z * (b - a))%R).
  { intros z k0. destruct (Z_le_dec 0 z).
    - rewrite <- (Z2Nat.id z) at 1 by lia. rewrite P', INR_IZR_INZ, Z2Nat.id by lia. reflexivity.
    - pose proof (P' (Z.to_nat (- z)) (k0 + z * ncells)) as H. rewrite INR_IZR_INZ, Z2Nat.id, opp_IZR in H by lia. replace (k0 + z * ncells + - z * ncells) with k0 in H by ring. lra. }
  pose proof (Z.div_mod (k - d) ncells ltac:(lia)) as E. pose proof (Z.mod_pos_bound (k - d) ncells ltac:(lia)) as Hr.
  set (q := (k - d) / ncells) in *. set (r := (k - d) mod ncells) in *.
  replace (k + 1) with (d + r + 1 + q * ncells) by lia. replace k with (d + r + q * ncells) by lia. rewrite !P2.
  pose proof (f_cell _ _ _ _ _ _ _ F (d + r) ltac:(lia)). lra.
Qed.
(** The values at x of the B-splines that are translations of each other by periods. *)
Lemma periodic_value x shift j : (a <= x <= b)%R -> 0 <= shift <= d -> 0 <= j < ncells ->
  (forall q, q <> j + shift -> (q - (j + shift)) mod ncells = 0 -> 0 <= q < ncells + d -> bspline t b (Z.to_nat d) q x = 0%R) ->
  periodic_bspline t b d ncells ((j + shift) mod ncells) x = bspline t b (Z.to_nat d) (j + shift) x.
Proof.
  intros Hx Hs Hj Hz. unfold periodic_bspline. rewrite sum_first_zsum.
  rewrite (zsum_ext _ _ (fun q => if q =? j + shift then bspline t b (Z.to_nat d) (j + shift) x else 0%R)).
  - rewrite zsum_delta; [reflexivity | lia].
  - intros q Hq. destruct (Z.eqb_spec q (j + shift)) as [-> | Nq]; [now rewrite Z.eqb_refl|].
    destruct (Z.eqb_spec (q mod ncells) ((j + shift) mod ncells)) as [E | _]; [|reflexivity].
    apply Hz; [exact Nq | | lia]. rewrite Zminus_mod, E, Z.sub_diag. reflexivity.
Qed.
Lemma periodic_representable (x : Z -> R) shift : periodic = true -> d + 1 <= ncells -> 0 <= shift <= d ->
  (forall i, 0 <= i < ncells -> (a <= x i <= b)%R) ->
  (forall i, 0 <= i < ncells - (d - 1) -> (t (i + shift + 1)%Z <= x i <= t (i + shift + d)%Z)%R) ->
  representable (shape_of (problem_of LAPACK false periodic d ncells lower upper)) (collocation periodic t a b d ncells lower upper x shift).
Proof.
  intros Ep Hcells Hshift Hx Hnear.
  assert (Esh : problem_of LAPACK false periodic d ncells lower upper = A_periodic_band N (d - 1) (d - 1) false).
  { unfold problem_of. fold N. now rewrite Ep. }
  rewrite Esh. cbn [shape_of].
  assert (EN : N = ncells) by (unfold N, unknowns; now rewrite Ep).
  destruct (compat_periodic s d periodic ncells t a b F lower upper Hcompat Ep) as [El Eu].
  assert (F0 : first = 0) by (unfold first; now rewrite El). assert (L0 : last = ncells) by (unfold last; rewrite Eu; cbn [equations]; lia).
  unfold periodic_shape. destruct (N * N <=? _).
  { now apply general_representable. }
  eapply band_representable; [right; reflexivity | | discriminate].
  unfold in_main. cbn [sh_n sh_top sh_main]. intros i j Hi Hj Mi Mj Hw. unfold collocation. fold N first last. rewrite Ep.
  replace (i <? first) with false by lia. replace (i <? last) with true by lia. replace (i - first) with i by lia.
  pose proof (Hnear i ltac:(lia)) as [H1 H2]. pose proof (Hx i ltac:(lia)) as H3.
  assert (Hzero : forall q, d <= Z.abs (q - (i + shift)) -> bspline t b (Z.to_nat d) q (x i) = 0%R).
  { intros q Hq. destruct (Z_lt_dec (i + shift) q).
    - apply far_right; [exact H3 | now apply strict_periodic |]. pose proof (f_mono _ _ _ _ _ _ _ F (i + shift + d) q ltac:(lia)). lra.
    - apply far_left; [exact H3 | | pose proof (f_mono _ _ _ _ _ _ _ F (q + d + 1) (i + shift + 1) ltac:(lia)); lra].
      left. lia. }
  rewrite (periodic_value (x i) shift j H3 Hshift ltac:(lia)).
  - apply Hzero. lia.
  - intros q Nq Hmod _. apply Hzero. apply Z.mod_divide in Hmod; [|lia]. destruct Hmod as (e & He). assert (e <> 0) by nia. assert (ncells <= Z.abs (e * ncells)) by nia. lia.
Qed.
End Bands.

(** ** Uniform B-splines: points at the centres of their B-splines *)
Section UniformBands.
Context (s : bspline_space RA) (d : Z) (periodic : bool) (ncells : Z) (a b : R).
Let t := uniform_knots d a b ncells.
Context (F : facts s d periodic ncells t a b).
Context (lower upper : closure) (Hcompat : compatible_closures RA s lower upper = true).
Let Hd : 1 <= d := f_d _ _ _ _ _ _ _ F.
Let Hn : 1 <= ncells := f_n _ _ _ _ _ _ _ F.
Let N := unknowns periodic d ncells.
Let first := equations lower d.
Let last := N - equations upper d.
Let h := ((b - a) / IZR ncells)%R.
Definition centre (i : Z) : R := (t i + (IZR d + 1) / 2 * h)%R.

Lemma t_eq k : t k = (a + IZR (k - d) * h)%R. Proof. reflexivity. Qed.
Lemma h_positive : (0 < h)%R.
Proof. pose proof (f_ab _ _ _ _ _ _ _ F). pose proof (IZR_lt 0 ncells ltac:(lia)). unfold h. apply Rdiv_lt_0_compat; lra. Qed.
Lemma t_strict k : (t k < t (k + 1)%Z)%R.
Proof. pose proof h_positive. rewrite !t_eq. replace (k + 1 - d) with (k - d + 1) by ring. rewrite plus_IZR. lra. Qed.
Lemma t_step k m : t (k + m) = (t k + IZR m * h)%R.
Proof. rewrite !t_eq. replace (k + m - d) with (k - d + m) by ring. rewrite plus_IZR. ring. Qed.
Let half := d / 2.
Let c0 := d - half.
Lemma centre_cell i : centre i = t (c0 + i) \/ (centre i = (t (c0 + i) + h / 2)%R /\ d = 2 * half).
Proof.
  pose proof (half_d s d periodic ncells t a b F) as (_ & Hr & E). unfold centre. rewrite (Z.add_comm c0 i), t_step. unfold c0. fold half in E.
  destruct (Z.eq_dec (d mod 2) 0) as [E0 | E0].
  - right. split; [|lia]. replace (d - half) with half by lia. assert (D : IZR d = (2 * IZR half)%R) by (rewrite <- mult_IZR; f_equal; lia). rewrite D. field.
  - left. replace (d - half) with (half + 1) by lia. assert (D : IZR d = (2 * IZR half + 1)%R) by (rewrite <- mult_IZR, <- plus_IZR; f_equal; lia). rewrite D, plus_IZR. field.
Qed.
(** The value at the centre of a B-spline of the k-th next B-spline. *)
Definition neighbour (k : Z) : R := bspline_piece t c0 (Z.to_nat d) k (centre 0).
Lemma centre_step i : centre i = (centre 0 + IZR i * h)%R.
Proof. unfold centre. replace i with (0 + i) at 1 by ring. rewrite t_step. ring. Qed.
Lemma simple_knot c j : bspline_piece t (c - 1) (Z.to_nat d) j (t c) = bspline_piece t c (Z.to_nat d) j (t c).
Proof. replace (Z.to_nat d) with (S (Z.to_nat (d - 1))) by lia. apply piece_simple; [|apply t_strict]. pose proof (t_strict (c - 1)) as H. now replace (c - 1 + 1) with c in H by ring. Qed.
Lemma neighbour_value i j : (a <= centre i <= b)%R -> bspline t b (Z.to_nat d) j (centre i) = neighbour (j - i).
Proof.
  intros Hx. assert (E : neighbour (j - i) = bspline_piece t (c0 + i) (Z.to_nat d) j (centre i)).
  { unfold neighbour. rewrite (centre_step i). rewrite <- (piece_translate t i (IZR i * h) c0 (Z.to_nat d) (j - i) (centre 0)) by (intros; apply t_step). f_equal. ring. }
  rewrite E. destruct (exists_cell s d periodic ncells t a b F _ Hx) as (c & Hc). rewrite (cell_bspline s d periodic ncells t a b F _ _ c j Hc).
  pose proof (cell_closed s d periodic ncells t a b F _ c Hc) as [C1 C2]. pose proof h_positive as Hh.
  assert (Hlow : (t (c0 + i) <= centre i < t (c0 + i + 1)%Z)%R).
  { rewrite (t_step (c0 + i) 1). destruct (centre_cell i) as [-> | [-> _]]; lra. }
  assert (Hc1 : c <= c0 + i). { destruct (Z_le_dec c (c0 + i)) as [|Nc]; [assumption|]. pose proof (f_mono _ _ _ _ _ _ _ F (c0 + i + 1) c ltac:(lia)). lra. }
  destruct (Z.eq_dec c (c0 + i)) as [-> | Nc]; [reflexivity|].
  assert (c = c0 + i - 1) as ->. { pose proof (f_mono _ _ _ _ _ _ _ F (c + 1) (c0 + i) ltac:(lia)). destruct (Z.eq_dec (c + 1) (c0 + i)) as [|Ne]; [lia|]. pose proof (t_strict (c + 1)). pose proof (f_mono _ _ _ _ _ _ _ F (c + 1 + 1) (c0 + i) ltac:(lia)). lra. }
  replace (centre i) with (t (c0 + i)). - apply simple_knot. - replace (c0 + i - 1 + 1) with (c0 + i) in C2 by ring. lra.
Qed.
Lemma neighbour_zero k : half < Z.abs k -> neighbour k = 0%R.
Proof.
  intros Hk. unfold neighbour. pose proof (half_d s d periodic ncells t a b F) as (_ & Hr & E). fold half in E.
  destruct (Z.eq_dec k c0) as [-> | Nk].
  - destruct (centre_cell 0) as [Ec | [_ Ev]]; [|unfold c0 in *; lia]. rewrite Ec, Z.add_0_r. replace (Z.to_nat d) with (S (Z.to_nat (d - 1))) by lia. apply piece_at_start, t_strict.
  - apply (piece_outside s d periodic ncells t a b F). unfold c0 in *. lia.
Qed.
Lemma neighbour_symmetric k : neighbour (- k) = neighbour k.
Proof.
  pose proof (half_d s d periodic ncells t a b F) as (_ & Hr & E). fold half in E.
  assert (R1 : neighbour k = bspline_piece t (d - c0) (Z.to_nat d) (- k) (centre 0)).
  { unfold neighbour, bspline_piece.
    rewrite (cdb_reflect t _ (fun j => if Z.eq_dec j (d - c0) then 1%R else 0%R) t (d + 1) (2 * centre 0)%R (Z.to_nat d)).
    - f_equal; [lia | ring].
    - intros q. unfold centre. rewrite !t_eq. rewrite !minus_IZR, plus_IZR. field.
    - intros q. destruct (Z.eq_dec q c0), (Z.eq_dec (d + 1 - 1 - q) (d - c0)); try lia; reflexivity. }
  rewrite R1. unfold neighbour. destruct (centre_cell 0) as [Ec | [_ Ev]].
  - destruct (Z.eq_dec (d mod 2) 0) as [E0 | E0]; [replace (d - c0) with c0 by (unfold c0; lia); reflexivity|].
    rewrite Ec, Z.add_0_r. replace (d - c0) with (c0 - 1) by (unfold c0; lia). symmetry. apply simple_knot.
  - replace (d - c0) with c0 by (unfold c0; lia). reflexivity.
Qed.

Lemma uniform_blocks_representable (x : Z -> R) : periodic = false ->
  (forall i, 0 <= i < last - first -> (a <= x i <= b)%R) ->
  (forall i, border true lower d <= i < N - border true upper d -> x (i - first)%Z = centre i) ->
  representable (shape_of (problem_of LAPACK true periodic d ncells lower upper)) (collocation periodic t a b d ncells lower upper x 0).
Proof.
  intros Ep Hx Hnear.
  assert (Esh : problem_of LAPACK true periodic d ncells lower upper = Some_blocks N half half true (border true upper d) (border true lower d)).
  { unfold problem_of. fold N. now rewrite Ep. }
  rewrite Esh. cbn [shape_of].
  pose proof (half_d s d periodic ncells t a b F) as Hh.
  assert (Hb : forall cl, equations cl d <= border true cl d). { intros [ | | | ]; cbn [equations border]; lia. }
  pose proof (Hb lower) as Hl. pose proof (Hb upper) as Hu. fold first in Hl.
  assert (H0 : 0 <= first). { unfold first. destruct lower; cbn [equations]; lia. }
  assert (V : forall i j, border true lower d <= i < N - border true upper d -> collocation periodic t a b d ncells lower upper x 0 i j = neighbour (j - i)).
  { intros i j Mi. unfold collocation. fold N first last. rewrite Ep.
    replace (i <? first) with false by lia. replace (i <? last) with true by (unfold last; lia).
    pose proof (Hx (i - first) ltac:(unfold last; lia)) as H3. rewrite (Hnear i Mi) in *. now apply neighbour_value. }
  eapply band_representable; [right; reflexivity | |].
  - unfold in_main. cbn [sh_n sh_top sh_main]. intros i j Hi Hj Mi Mj Hw. rewrite V by lia. apply neighbour_zero. lia.
  - unfold in_main. cbn [sh_n sh_top sh_main]. intros _ i j Mi Mj. rewrite !V by lia. rewrite <- neighbour_symmetric. f_equal. ring.
Qed.
Lemma uniform_periodic_representable (x : Z -> R) shift : periodic = true -> d + 1 <= ncells -> 0 <= shift <= d ->
  (forall i, 0 <= i < ncells -> (a <= x i <= b)%R) ->
  (forall i, 0 <= i < ncells - half -> x i = centre (i + shift)) ->
  representable (shape_of (problem_of LAPACK true periodic d ncells lower upper)) (collocation periodic t a b d ncells lower upper x shift).
Proof.
  intros Ep Hcells Hshift Hx Hnear.
  assert (Esh : problem_of LAPACK true periodic d ncells lower upper = A_periodic_band N half half true).
  { unfold problem_of. fold N. now rewrite Ep. }
  rewrite Esh. cbn [shape_of].
  pose proof (half_d s d periodic ncells t a b F) as Hh. fold half in Hh.
  assert (EN : N = ncells) by (unfold N, unknowns; now rewrite Ep).
  destruct (compat_periodic s d periodic ncells t a b F lower upper Hcompat Ep) as [El Eu].
  assert (F0 : first = 0) by (unfold first; now rewrite El). assert (L0 : last = ncells) by (unfold last; rewrite Eu; cbn [equations]; lia).
  unfold periodic_shape. destruct (N * N <=? _).
  { now apply general_representable. }
  assert (V : forall i j, 0 <= i < ncells - half -> 0 <= j < ncells - half -> collocation periodic t a b d ncells lower upper x shift i j = neighbour (j - i)).
  { intros i j Mi Mj. unfold collocation. fold N first last. rewrite Ep.
    replace (i <? first) with false by lia. replace (i <? last) with true by lia. replace (i - first) with i by lia.
    pose proof (Hx i ltac:(lia)) as H3. rewrite (Hnear i Mi) in *.
    rewrite (periodic_value s d periodic ncells t a b F lower upper Hcompat (centre (i + shift)) shift j H3 Hshift ltac:(lia)).
    - rewrite neighbour_value by exact H3. f_equal. ring.
    - intros q Nq Hmod _. rewrite neighbour_value by exact H3. apply neighbour_zero. apply Z.mod_divide in Hmod; [|lia]. destruct Hmod as (e & He). assert (e <> 0) by nia. assert (ncells <= Z.abs (e * ncells)) by nia. lia. }
  eapply band_representable; [right; reflexivity | |].
  - unfold in_main. cbn [sh_n sh_top sh_main]. intros i j Hi Hj Mi Mj Hw. rewrite V by lia. apply neighbour_zero. lia.
  - unfold in_main. cbn [sh_n sh_top sh_main]. intros _ i j Mi Mj. rewrite !V by lia. rewrite <- neighbour_symmetric. f_equal. ring.
Qed.
End UniformBands.
