(** C43: the quadrature coefficients. *)
From Coq Require Import Bool Reals Lia Lra ZifyBool List.
From Coquelicot Require Import Coquelicot.
From Verif Require Import BuilderSpec LoopModel LoopProofs BSplineMath BSplineDeriv IntegralMath IntegralMath2 IntegralProofs SamplingProofs MathProofs LinearProofs LinearProofs2 LinearProofs3 LinearLemmas UniformProofs.
From Verif Require Import EvaluatorSpace EvaluatorProofs EvaluatorProofs2 BuilderMath BuilderProofs BuilderProofs2 BuilderProofs3 BuilderProofs4 BuilderLemmas.
Import ListNotations.
Local Open Scope bool_scope. Local Open Scope Z_scope.

Lemma asked_zero cl d dv i : given_derivatives cl d <= i < equations cl d -> asked cl dv i = 0%R.
Proof. destruct cl; cbn [given_derivatives equations asked]; try reflexivity. lia. Qed.
Lemma given_all cl d i : 0 <= i < given_derivatives cl d -> equations cl d = given_derivatives cl d.
Proof. destruct cl; cbn [given_derivatives equations]; lia. Qed.

Section Quadrature.
Context (solver : spline_solver) (s : bspline_space RA) (d : Z) (periodic : bool) (ncells : Z) (t : Z -> R) (a b : R) (lower upper : closure)
  (start n : Z) (coord : Z -> res R) (x : Z -> R).
Context (IP : interpolation solver s d periodic ncells t a b lower upper start n coord x).
Context (m : scratch RA) (bd : builder RA) (Hbd : builder_construct RA s m solver lower upper start n coord = Ok bd).
Let F : facts s d periodic ncells t a b := space_facts _ _ _ _ _ _ _ (i_space _ _ _ _ _ _ _ _ _ _ _ _ _ _ IP).
Let Hcompat : compatible_closures RA s lower upper = true := proj1 (closures_compat s periodic lower upper (f_per _ _ _ _ _ _ _ F)) (i_closures _ _ _ _ _ _ _ _ _ _ _ _ _ _ IP).
Let N := unknowns periodic d ncells.
Let first := equations lower d.
Let last := N - equations upper d.
Let h := ((b - a) / IZR ncells)%R.
Let cr := problem_of solver (bs_uniform RA s) periodic d ncells lower upper.
Let M := collocation periodic t a b d ncells lower upper x (bd_offset bd).
Context (Hr : representable (shape_of cr) M).
Context (Hfew : bs_uniform RA s = true -> periodic = false -> d <= ncells).

Lemma nbv_eq cl : s_nbv RA s cl = given_derivatives cl d.
Proof.
  pose proof (half_d s d periodic ncells t a b F) as Hh. pose proof (f_big _ _ _ _ _ _ _ F). pose proof (f_n _ _ _ _ _ _ _ F).
  unfold s_nbv, n_boundary_equations, given_derivatives. rewrite (f_deg _ _ _ _ _ _ _ F). destruct cl; try reflexivity. apply i32_small. lia.
Qed.
(** The unknowns of the matrix, from the coefficients of the spline. *)
Definition of_spline (c : Z -> R) (j : Z) : R := c (if periodic then (j + bd_offset bd) mod ncells else j).
Lemma of_spline_inv c : (periodic = true -> periodic_coefficients c d ncells) ->
  forall k, 0 <= k < ncells + d -> c k = of_spline c (if periodic then (k - bd_offset bd) mod ncells else k).
Proof.
  intros Hc k Hk. unfold of_spline. destruct (bool_dec periodic true) as [Ep | Ep%not_true_is_false]; rewrite ?Ep; [|reflexivity].
  pose proof (f_n _ _ _ _ _ _ _ F). rewrite Zplus_mod_idemp_l. replace (k - bd_offset bd + bd_offset bd) with k by ring.
  apply (coef_mod s d periodic ncells t a b F c (Hc Ep) (Z.to_nat (k + 1)) k); nia.
Qed.
Definition equation_value (v : Z -> R) (dl du : option (chunk_1d RA)) (i : Z) : R :=
  if i <? first then (h ^ order d i * asked lower dl i)%R else if i <? last then v (i - first)%Z else (h ^ order d (i - last) * asked upper du (i - last))%R.
Lemma interpolates_solves v dl du c : interpolates periodic t a b d ncells n lower upper x v dl du c ->
  forall i, 0 <= i < N -> rsum N (fun j => M i j * of_spline c j)%R = equation_value v dl du i.
Proof.
  intros (I1 & I2 & I3 & I4) i Hi. destruct (construct_facts solver s d periodic ncells t a b lower upper start n coord x IP m bd Hbd Hr) as (En & _). fold N first last in En.
  destruct (row_meaning s d periodic ncells t a b F lower upper Hcompat x (of_spline c) c (bd_offset bd) (of_spline_inv c I4)) as (P1 & P2 & P3 & _).
  fold N first last in P1, P2, P3. fold h M in P1, P2, P3. unfold equation_value.
  destruct (Z.ltb_spec i first) as [L|L].
  - destruct (P2 i ltac:(lia)) as (g & G1 & G2). etransitivity; [exact G2|]. destruct (I2 i ltac:(fold first; lia)) as (g' & G3 & G4). rewrite (nd_unique _ _ _ _ _ (fun _ => eq_refl) G1 G3), G4. reflexivity.
  - destruct (Z.ltb_spec i last) as [L'|L'].
    + assert (K : 0 <= i - first < last - first) by lia. apply P1 in K. replace (first + (i - first)) with i in K by ring. etransitivity; [exact K|]. apply I1. unfold last in *. lia.
    + destruct (P3 (i - last) ltac:(lia)) as (g & G1 & G2). replace (last + (i - last)) with i in G2 by ring. etransitivity; [exact G2|].
      destruct (I3 (i - last) ltac:(unfold last in *; lia)) as (g' & G3 & G4). rewrite (nd_unique _ _ _ _ _ (fun _ => eq_refl) G1 G3), G4. reflexivity.
Qed.
Lemma equations_given cl : 0 <= given_derivatives cl d <= equations cl d.
Proof. pose proof (half_d s d periodic ncells t a b F). destruct cl; cbn [given_derivatives equations]; lia. Qed.

Context (X : solvers RA) (q : tag) (junk junk_rows : Z -> R).
(** The solution of the transposed system, of which the result is a part. *)
Lemma quadrature_run : exists w0 (rhs : arr R), (forall i, 0 <= i < N -> integral (if periodic then periodic_bspline t b d ncells i else bspline t b (Z.to_nat d) i) a b (w0 i)) /\
  a_len rhs = required_rows (bd_matrix bd) /\ (forall i, 0 <= i < N -> a_at rhs i = w0 i) /\
  match setup_and_solve RA X (bd_matrix bd) rhs true with
  | Ok y => N <= a_len y -> exists wl w wu : arr R, quadrature_coefficients RA s m lower upper X bd q junk junk_rows = Ok (wl, w, wu) /\
      a_len wl = given_derivatives lower d /\ a_len w = N - given_derivatives lower d - given_derivatives upper d /\ a_len wu = given_derivatives upper d /\
      (forall i, 0 <= i < a_len wl -> a_at wl i = (a_at y i * h ^ order d i)%R) /\
      (forall i, 0 <= i < a_len w -> a_at w i = a_at y (given_derivatives lower d + i)) /\
      (forall i, 0 <= i < a_len wu -> a_at wu i = (a_at y (N - given_derivatives upper d + i)%Z * h ^ order d i)%R)
  | r => quadrature_coefficients RA s m lower upper X bd q junk junk_rows = rbind r (fun _ => Undef)
  end.
Proof.
  destruct (construct_facts solver s d periodic ncells t a b lower upper start n coord x IP m bd Hbd Hr) as (En & O1 & Ebd & p0 & hist & H1 & H2 & H3 & W & H4).
  pose proof (rows_enough solver s d periodic ncells t a b lower upper start n coord x IP m bd Hbd Hr) as Hreq. fold N in Hreq.
  pose proof (shape_N s d periodic ncells lower upper solver) as EN. fold cr N in EN.
  pose proof (N_pos s d periodic ncells t a b F lower upper Hcompat) as HN. fold N first last in HN. pose proof (f_big _ _ _ _ _ _ _ F). pose proof (f_d _ _ _ _ _ _ _ F). pose proof (f_n _ _ _ _ _ _ _ F).
  destruct (wf_rows _ _ W ltac:(fold cr; rewrite EN; lia)) as [Hsz _]. fold cr in Hsz. rewrite EN in Hsz.
  pose proof (equations_given lower) as Gl. pose proof (equations_given upper) as Gu. fold first in Gl.
  destruct (f_integrals _ _ _ _ _ _ _ F q m (mk_chunk_1d RA 0 (mk_arr (ncells + d) junk)) eq_refl) as (c & E & C1 & C2 & C3 & C4).
  { unfold c1_size. cbn [c1_vals a_len]. destruct periodic; [right; split; reflexivity | left; reflexivity]. }
  { exact Hfew. }
  change (c1_size RA (mk_chunk_1d RA 0 (mk_arr (ncells + d) junk))) with (ncells + d) in C2, C4. fold (unknowns periodic d ncells) in C3, C4. fold N in C3, C4. unfold c1_size in C2.
  change (num RA) with R in *.
  destruct (for_range_inv (fun k (o : arr R) => a_len o = required_rows (bd_matrix bd) /\ forall i, 0 <= i < k -> a_at o i = a_at (c1_vals RA c) i)
    (fun i (mirror : arr R) => v <- aget (c1_vals RA c) i ;; aset mirror i v) 0 N (mk_arr (required_rows (bd_matrix bd)) junk_rows)) as (rhs & E' & R1 & R2).
  - lia.
  - cbn [a_len]. split; [reflexivity | lia].
  - intros i o Hi [O2 O3]. change (num RA) with R in *. rewrite aget_ok by lia. cbn [rbind]. rewrite aset_ok by lia. eexists. split; [reflexivity|]. cbn [a_len a_at]. split; [exact O2|].
    intros k Hk. destruct (Z.eq_dec k i) as [->|Hne]; [apply upd_eq | rewrite upd_neq by lia; apply O3; lia].
  - exists (a_at (c1_vals RA c)), rhs. split; [exact C3|]. split; [exact R1|]. split; [exact R2|].
    assert (Q : quadrature_coefficients RA s m lower upper X bd q junk junk_rows = (y <- setup_and_solve RA X (bd_matrix bd) rhs true ;;
       let nv_min := given_derivatives lower d in let nv_max := given_derivatives upper d in let n := N - nv_min - nv_max in
       wl <- rows RA y 0 nv_min ;; w <- rows RA y nv_min (nv_min + n) ;; wu <- rows RA y (nv_min + n) (nv_min + n + nv_max) ;;
       let scale w := mk_arr (a_len w) (fun i => nmul RA (a_at w i) (ipow_size RA h (Z.to_nat (i + d mod 2)))) in Ok (scale wl, w, scale wu))).
    { unfold quadrature_coefficients. rewrite (f_size _ _ _ _ _ _ _ F). change (num RA) with R in *. etransitivity; [apply (f_equal (fun r => rbind r _) E)|]. cbn [rbind].
      rewrite Hsz. cbv zeta. replace (N <=? ncells + d) with true by (unfold N, unknowns in *; lia). cbn [assert_]. etransitivity; [apply (f_equal (fun r => rbind r _) E')|]. cbn [rbind].
      rewrite !nbv_eq, (nbasis_N s d periodic ncells t a b F). fold N. rewrite odd_eq with (d := d) (periodic := periodic) (ncells := ncells) (t := t) (a := a) (b := b) by exact F.
      replace (u64_sub (u64_sub N (u64 (given_derivatives lower d))) (u64 (given_derivatives upper d))) with (N - given_derivatives lower d - given_derivatives upper d)
        by (unfold u64_sub; rewrite (u64_small (given_derivatives lower d)), (u64_small (given_derivatives upper d)) by lia; rewrite (u64_small (N - given_derivatives lower d)) by lia; now rewrite u64_small by lia).
      assert (Edx : bd_dx bd = h) by (rewrite Ebd; reflexivity). rewrite Edx. reflexivity. }
    rewrite Q. change (num RA) with R in *. destruct (setup_and_solve RA X (bd_matrix bd) rhs true) as [y| |]; [|reflexivity|reflexivity].
    intros Hy. cbn [rbind]. cbv zeta. rewrite !rows_ok by lia. cbn [rbind]. eexists _, _, _. split; [reflexivity|]. cbn [a_len a_at].
    split; [lia|]. split; [lia|]. split; [lia|]. split; [|split].
    + intros i Hi. rewrite ipow_size_ok. reflexivity.
    + intros i Hi. reflexivity.
    + intros i Hi. rewrite ipow_size_ok. cbn [nmul RA]. unfold order. f_equal. f_equal. lia.
Qed.
Lemma quadrature_total : total_solvers X -> 1 <= sh_main (shape_of cr) \/ sh_kind (shape_of cr) = General ->
  exists wl w wu, quadrature_coefficients RA s m lower upper X bd q junk junk_rows = Ok (wl, w, wu).
Proof.
  intros HX Hm. destruct quadrature_run as (w0 & rhs & _ & R1 & _ & R3).
  destruct (construct_facts solver s d periodic ncells t a b lower upper start n coord x IP m bd Hbd Hr) as (En & O1 & Ebd & p0 & hist & H1 & H2 & H3 & _).
  pose proof (rows_enough solver s d periodic ncells t a b lower upper start n coord x IP m bd Hbd Hr) as Hreq.
  destruct (st_total X cr hist p0 (bd_matrix bd) true rhs HX (i_matrix _ _ _ _ _ _ _ _ _ _ _ _ _ _ IP) H3 H1 H2 Hm R1) as (y & Ey & Ly).
  change (num RA) with R in *. rewrite Ey in R3. destruct R3 as (wl & w & wu & E & _); [rewrite Ly, R1; exact Hreq|]. exists wl, w, wu. exact E.
Qed.
Lemma rsum_exchange k l (f : Z -> Z -> R) : 0 <= k -> 0 <= l -> rsum k (fun i => rsum l (fun j => f i j)) = rsum l (fun j => rsum k (fun i => f i j)).
Proof.
  intros Hk Hl. rewrite !rsum_zsum. rewrite (zsum_ext k _ (fun i => zsum l (fun j => f i j))) by (intros; apply rsum_zsum). rewrite IntegralMath2.zsum_exchange by assumption.
  apply zsum_ext. intros. symmetry. apply rsum_zsum.
Qed.
Lemma rsum_ext k (f g : Z -> R) : (forall i, 0 <= i < k -> f i = g i) -> rsum k f = rsum k g.
Proof. intros. rewrite !rsum_zsum. now apply zsum_ext. Qed.
(** The weights applied to the equations satisfied by a spline. *)
Lemma quadrature_pairing (wl w wu : arr R) : exact_solvers X -> none_negligible (shape_of cr) M ->
  quadrature_coefficients RA s m lower upper X bd q junk junk_rows = Ok (wl, w, wu) ->
  a_len wl = given_derivatives lower d /\ a_len w = N - given_derivatives lower d - given_derivatives upper d /\ a_len wu = given_derivatives upper d /\
  exists w0, (forall i, 0 <= i < N -> integral (if periodic then periodic_bspline t b d ncells i else bspline t b (Z.to_nat d) i) a b (w0 i)) /\
  forall v dl du c, interpolates periodic t a b d ncells n lower upper x v dl du c ->
    rsum N (fun j => w0 j * of_spline c j)%R =
    weighted (given_derivatives lower d) n (given_derivatives upper d) (a_at wl) (fun i => a_at w (i + (first - given_derivatives lower d))) (a_at wu) (asked lower dl) v (asked upper du).
Proof.
  intros HX Hneg Eq. destruct quadrature_run as (w0 & rhs & Hw0 & R1 & R2 & R3).
  destruct (construct_facts solver s d periodic ncells t a b lower upper start n coord x IP m bd Hbd Hr) as (En & O1 & Ebd & p0 & hist & H1 & H2 & H3 & _ & H4). fold N first last in En. fold cr in H1, H3, H4. fold N M in H4.
  pose proof (rows_enough solver s d periodic ncells t a b lower upper start n coord x IP m bd Hbd Hr) as Hreq. fold N in Hreq.
  pose proof (i_matrix _ _ _ _ _ _ _ _ _ _ _ _ _ _ IP) as Hsens. fold cr in Hsens. destruct (shape_bounds cr Hsens) as (S1 & S2 & S3).
  pose proof (shape_N s d periodic ncells lower upper solver) as EN. fold cr N in EN.
  pose proof (N_pos s d periodic ncells t a b F lower upper Hcompat) as HN. fold N first last in HN. pose proof (equations_given lower) as Gl. pose proof (equations_given upper) as Gu. fold first in Gl.
  assert (Hneg' : none_negligible (shape_of cr) (kept 0%R (shape_of cr) hist)).
  { apply (negligible_ext _ M); [exact S1 | exact S3 | | exact Hneg]. rewrite EN. exact H4. }
  change (num RA) with R in *. destruct (setup_and_solve RA X (bd_matrix bd) rhs true) as [y| |] eqn:Ey.
  2:{ pose proof (eq_trans (eq_sym Eq) R3). discriminate. }
  2:{ pose proof (eq_trans (eq_sym Eq) R3). discriminate. }
  destruct (st_exact X cr hist p0 (bd_matrix bd) true rhs y HX Hsens H3 H1 H2 Hneg' Ey) as (_ & L2 & L3). rewrite EN in L3. change (num RA) with R in *.
  destruct (R3 ltac:(rewrite L2, R1; exact Hreq)) as (wl' & w' & wu' & E' & A1 & A2 & A3 & B1 & B2 & B3).
  pose proof (eq_trans (eq_sym Eq) E') as K. assert (wl' = wl /\ w' = w /\ wu' = wu) as (-> & -> & ->) by (assert (Hinj : forall u v : arr R * arr R * arr R, Ok u = Ok v -> u = v) by congruence; apply Hinj in K; repeat split; congruence).
  clear K E' R3. split; [exact A1|]. split; [exact A2|]. split; [exact A3|]. exists w0. split; [exact Hw0|]. intros v dl du c HI.
  pose proof (interpolates_solves v dl du c HI) as HS.
  transitivity (rsum N (fun i => a_at y i * equation_value v dl du i)%R).
  { rewrite (rsum_ext N _ (fun j => rsum N (fun i => a_at y i * (M i j * of_spline c j)))%R).
    - rewrite rsum_exchange by lia. apply rsum_ext. intros i Hi. rewrite <- (HS i Hi). rewrite !rsum_zsum, <- zsum_scal. reflexivity.
    - intros j Hj. rewrite <- (R2 j Hj), <- (L3 j Hj). cbn iota. rewrite !rsum_zsum. rewrite Rmult_comm, <- zsum_scal. apply zsum_ext. intros i Hi. rewrite H4 by assumption. ring. }
  pose proof (f_n _ _ _ _ _ _ _ F) as Hnc. unfold weighted. rewrite !rsum_zsum. replace N with (first + (n + equations upper d)) by (unfold last in *; lia). rewrite (zsum_split first), (zsum_split n) by (unfold last in *; lia).
  rewrite <- Rplus_assoc. f_equal; [f_equal|].
  - rewrite (zsum_part first 0 (given_derivatives lower d)) by (try lia; intros i Hi Ho; unfold equation_value; replace (i <? first) with true by lia; rewrite (asked_zero lower d) by (fold first; lia); ring).
    cbn beta. apply zsum_ext. intros i Hi. unfold equation_value. replace (0 + i) with i by ring. replace (i <? first) with true by lia. rewrite B1 by lia. ring.
  - apply zsum_ext. intros i Hi. unfold equation_value. replace (first + i <? first) with false by lia. replace (first + i <? last) with true by (unfold last; lia). rewrite B2 by (unfold last in *; lia).
    f_equal; f_equal; ring.
  - rewrite (zsum_part (equations upper d) 0 (given_derivatives upper d)).
    + apply zsum_ext. intros i Hi. unfold equation_value. replace (first + (n + (0 + i))) with (last + i) by lia. replace (last + i <? first) with false by lia. replace (last + i <? last) with false by lia. rewrite B3 by lia.
      replace (last + i - last) with i by ring.
      pose proof (given_all upper d i Hi) as Eu. unfold last. rewrite Eu. ring.
    + lia. + lia. + lia.
    + intros i Hi Ho. unfold equation_value. replace (first + (n + i)) with (last + i) by lia. replace (last + i <? first) with false by lia. replace (last + i <? last) with false by lia.
      rewrite (asked_zero upper d) by lia. ring.
Qed.
End Quadrature.

Lemma zsum_rotate n k (c : Z -> R) : 1 <= n -> zsum n (fun j => c ((j + k) mod n)) = zsum n c.
Proof.
  intros Hn. rewrite (zsum_ext n (fun j => c ((j + k) mod n)) (fun j => zsum n (fun i => if i =? (j + k) mod n then c i else 0%R))).
  - rewrite IntegralMath2.zsum_exchange by lia. apply zsum_ext. intros i Hi. rewrite (zsum_ext n _ (fun j => if j =? (i - k) mod n then c i else 0%R)).
    + pose proof (Z.mod_pos_bound (i - k) n ltac:(lia)). rewrite (zsum_delta n ((i - k) mod n) (c i)) by lia. reflexivity.
    + intros j Hj. destruct (Z.eqb_spec i ((j + k) mod n)) as [E|E], (Z.eqb_spec j ((i - k) mod n)) as [E'|E']; try reflexivity; exfalso.
      * apply E'. rewrite E, Zminus_mod_idemp_l. replace (j + k - k) with j by ring. symmetry. apply Z.mod_small. lia.
      * apply E. rewrite E', Zplus_mod_idemp_l. replace (i - k + k) with i by ring. symmetry. apply Z.mod_small. lia.
  - intros j Hj. pose proof (Z.mod_pos_bound (j + k) n ltac:(lia)). symmetry.
    rewrite (zsum_ext n _ (fun i => if i =? (j + k) mod n then c ((j + k) mod n) else 0%R)) by (intros i _; destruct (Z.eqb_spec i ((j + k) mod n)) as [->|]; reflexivity).
    rewrite (zsum_delta n ((j + k) mod n) (c ((j + k) mod n))) by lia. reflexivity.
Qed.
Lemma uniform_weights s d ncells t a b : spline_space s d true ncells t a b -> bs_uniform RA s = true ->
  forall i, 0 <= i < ncells -> integral (periodic_bspline t b d ncells i) a b ((b - a) / IZR ncells).
Proof.
  intros HS Hu i Hi. inversion HS as [q d' per a' b' n' u Hd Hn Hab Hbig E | ]; subst; [|discriminate].
  destruct (ub_construct_ok q a b ncells d true Hd Hn Hbig Hab) as (u' & E' & Hu'). assert (u' = u) as -> by congruence.
  destruct (u_values d true a b ncells Hd Hn Hab Hbig q u (fun _ => 0%R) (mk_chunk_1d RA 0 (mk_arr ncells (fun _ => 0%R))) Hu' eq_refl (or_introl eq_refl) ltac:(discriminate)) as (c & E1 & _ & _ & V & _).
  destruct (u_integrals_space d true a b ncells Hd Hn Hab Hbig q u (fun _ => 0%R) (mk_chunk_1d RA 0 (mk_arr ncells (fun _ => 0%R))) Hu' eq_refl (or_introl eq_refl) ltac:(discriminate)) as (c' & E2 & _ & _ & V' & _).
  assert (c' = c) as -> by congruence. specialize (V i Hi). specialize (V' i Hi). cbn iota in V, V'. rewrite V in V'. exact V'.
Qed.

Section Exact.
Context (solver : spline_solver) (s : bspline_space RA) (d : Z) (periodic : bool) (ncells : Z) (t : Z -> R) (a b : R) (lower upper : closure)
  (start n : Z) (coord : Z -> res R) (x : Z -> R).
Context (IP : interpolation solver s d periodic ncells t a b lower upper start n coord x).
Context (m : scratch RA) (bd : builder RA) (Hbd : builder_construct RA s m solver lower upper start n coord = Ok bd).
Context (Hsuit : suited solver (bs_uniform RA s) periodic t a b d ncells lower upper x (bd_offset bd)).
Context (Hfew : bs_uniform RA s = true -> periodic = false -> d <= ncells).
Context (Hoff : periodic = true -> bs_uniform RA s = true \/ bd_offset bd = 0).
Context (Hneg : none_negligible (shape_of (problem_of solver (bs_uniform RA s) periodic d ncells lower upper)) (collocation periodic t a b d ncells lower upper x (bd_offset bd))).
Theorem quadrature_exact X q junk junk_rows (wl w wu : arr R) : exact_solvers X ->
  quadrature_coefficients RA s m lower upper X bd q junk junk_rows = Ok (wl, w, wu) ->
  a_len wl = given_derivatives lower d /\ a_len wu = given_derivatives upper d /\
  a_len w = n + (equations lower d - given_derivatives lower d) + (equations upper d - given_derivatives upper d) /\
  forall v dl du c, interpolates periodic t a b d ncells n lower upper x v dl du c ->
    integral (spline t b d ncells c) a b
      (weighted (given_derivatives lower d) n (given_derivatives upper d) (a_at wl) (fun i => a_at w (i + (equations lower d - given_derivatives lower d))) (a_at wu) (asked lower dl) v (asked upper du)).
Proof.
  intros HX Eq. pose proof (i_space _ _ _ _ _ _ _ _ _ _ _ _ _ _ IP) as HS. pose proof (space_facts _ _ _ _ _ _ _ HS) as F.
  destruct (constructed_points _ _ _ _ _ _ _ _ _ _ _ _ _ _ IP m bd Hbd) as [En Eo]. unfold points_expected in En.
  pose proof (suited_representable _ _ _ _ _ _ _ _ _ _ _ _ _ _ IP En _ Eo Hsuit) as Hr.
  destruct (quadrature_pairing solver s d periodic ncells t a b lower upper start n coord x IP m bd Hbd Hr Hfew X q junk junk_rows wl w wu HX Hneg Eq) as (A1 & A2 & A3 & w0 & W & P).
  split; [exact A1|]. split; [exact A3|]. split; [lia|]. intros v dl du c HI. rewrite <- (P v dl du c HI). clear P.
  pose proof HI as (_ & _ & _ & Hper). unfold unknowns in W. pose proof (f_n _ _ _ _ _ _ _ F) as Hn.
  pose proof (spline_integral s d periodic ncells t a b F c w0 Hper W) as K. unfold integral in *. rewrite rsum_zsum. unfold of_spline, unknowns.
  destruct (bool_dec periodic true) as [Ep | Ep%not_true_is_false]; rewrite Ep in *.
  2:{ rewrite (zsum_ext _ _ (fun i => c i * w0 i)%R) by (intros; ring). exact K. }
  replace (zsum ncells (fun j => w0 j * c ((j + bd_offset bd) mod ncells)%Z)%R) with (zsum ncells (fun i => c i * w0 i)%R); [exact K|].
  destruct (Hoff eq_refl) as [Hu | Ho].
  - assert (Ew : forall i, 0 <= i < ncells -> w0 i = ((b - a) / IZR ncells)%R).
    { intros i Hi. pose proof (uniform_weights s d ncells t a b HS Hu i Hi) as K1. pose proof (W i Hi) as K2. unfold integral in K1. cbn iota in K2.
      exact (eq_trans (eq_sym (is_RInt_unique (V := R_CompleteNormedModule) _ _ _ _ K2)) (is_RInt_unique (V := R_CompleteNormedModule) _ _ _ _ K1)). }
    rewrite (zsum_ext _ _ (fun i => (b - a) / IZR ncells * c i)%R) by (intros i Hi; rewrite (Ew i Hi); ring).
    rewrite (zsum_ext _ (fun j => w0 j * _)%R (fun j => (b - a) / IZR ncells * c ((j + bd_offset bd) mod ncells)%Z)%R) by (intros i Hi; rewrite (Ew i Hi); ring).
    rewrite !zsum_scal. f_equal. symmetry. apply zsum_rotate. lia.
  - apply zsum_ext. intros i Hi. rewrite Ho, Z.add_0_r, Z.mod_small by lia. ring.
Qed.
End Exact.
