(** The recursion of the uniform B-splines in binary64: how far its results are from the exact values. *)
From Coq Require Import Bool Reals Lia Lra Psatz ZifyBool Floats.SpecFloat.
From Flocq Require Import Core.
From Verif Require Import BSplineModel BSplineSpec LoopProofs BSplineMath BSplineDeriv BSplineProofs BSplineUniform SamplingProofs FloatLink FloatCell2 FloatCell3.
Local Open Scope bool_scope. Local Open Scope R_scope.

Definition E : R := bpow radix2 (-1075).
Lemma E_pos : 0 < E.
Proof. apply bpow_gt_0. Qed.
Lemma U_pos : 0 < U.
Proof. unfold U. apply Rinv_0_lt_compat, IZR_lt. lia. Qed.
Lemma U_small : U <= / IZR (2 ^ 53).
Proof. unfold U. lra. Qed.
Lemma E_small : E <= U * / IZR (2 ^ 100).
Proof.
  unfold E, U. rewrite <- Rinv_mult, <- mult_IZR. change (2 ^ 53 * 2 ^ 100)%Z with (2 ^ 153)%Z.
  rewrite <- (bpowN 153) by lia. apply bpow_le. lia.
Qed.
Lemma rnd_error x : Rabs (rnd x - x) <= U * Rabs x + E.
Proof. exact (rnd_err x). Qed.
Lemma rnd_pos x : 0 <= x -> 0 <= rnd x.
Proof. intros H. replace 0 with (rnd 0) by (apply (rnd_int 0); lia). now apply rnd_le. Qed.
Lemma rnd_upto x z : (0 <= z <= 2 ^ 53)%Z -> x <= IZR z -> rnd x <= IZR z.
Proof. intros Hz H. rewrite <- (rnd_int z) by lia. now apply rnd_le. Qed.
Lemma rnd_from x z : (0 <= z <= 2 ^ 53)%Z -> IZR z <= x -> IZR z <= rnd x.
Proof. intros Hz H. rewrite <- (rnd_int z) by lia. now apply rnd_le. Qed.

Lemma prod_abs a b c d : Rabs a <= c -> Rabs b <= d -> Rabs (a * b) <= c * d.
Proof. intros. rewrite Rabs_mult. apply Rmult_le_compat; auto using Rabs_pos. Qed.

(** One turn of the inner loop, on the numbers. *)
Section Step.
Context (j : Z) (X a xx vh v sh s : R).
Let J := IZR j.
Hypotheses (Hj : (1 <= j <= 1000)%Z) (HX : 0 <= X <= J) (Hxx : 0 <= xx <= J) (Ha : Rabs (xx - X) <= a)
  (Hv : 0 <= vh <= 2) (Hs : 0 <= sh).
Let th := rnd (vh / J).
Let ph := rnd (xx * th).
Let dh := rnd (J - xx).
Let qh := rnd (dh * th).
Let nh := rnd (sh + ph).
Lemma step_J : 1 <= J <= 1000.
Proof. unfold J. split; apply IZR_le; lia. Qed.
Lemma step_th : 0 <= th <= 2.
Proof.
  pose proof step_J. assert (0 <= vh / J <= 2).
  { split; [apply Rmult_le_pos; [lra | left; apply Rinv_0_lt_compat; lra]|]. apply Rmult_le_reg_r with J; [lra|]. unfold Rdiv. rewrite Rmult_assoc, Rinv_l by lra. nra. }
  split; [apply rnd_pos; lra|]. apply (rnd_upto _ 2); [lia | lra].
Qed.
Lemma step_dh : 0 <= dh <= J.
Proof. split; [apply rnd_pos; lra|]. apply (rnd_upto _ j); [lia | unfold J in *; lra]. Qed.
Lemma step_ph : 0 <= ph <= 2000.
Proof.
  pose proof step_th. pose proof step_J. assert (0 <= xx * th) by (apply Rmult_le_pos; lra). assert (xx * th <= J * 2) by (apply Rmult_le_compat; lra).
  split; [apply rnd_pos; lra|]. apply (rnd_upto _ 2000); [lia | lra].
Qed.
Lemma step_qh : 0 <= qh <= 2000.
Proof.
  pose proof step_th. pose proof step_J. pose proof step_dh. assert (0 <= dh * th) by (apply Rmult_le_pos; lra). assert (dh * th <= J * 2) by (apply Rmult_le_compat; lra).
  split; [apply rnd_pos; lra|]. apply (rnd_upto _ 2000); [lia | lra].
Qed.
Lemma step_error : Rabs (nh - (s + X * (v / J))) + Rabs (qh - (J - X) * (v / J)) + U * qh
  <= Rabs (sh - s) + U * sh + Rabs (vh - v) + vh * (2 * a / J + 8 * U) + 8 * J * E.
Proof.
  pose proof step_J as HJ. pose proof step_th as Hth. pose proof step_dh as Hdh. pose proof step_ph as Hph. pose proof step_qh as Hqh.
  pose proof U_pos as HU. pose proof E_pos as HE. pose proof E_small as HEU.
  assert (U100 : U <= / 1000000) by (eapply Rle_trans; [exact U_small|]; apply Rinv_le_contravar; [lra | apply IZR_le; lia]).
  assert (EU : E <= U * / 1000000).
  { eapply Rle_trans; [exact HEU|]. apply Rmult_le_compat_l; [lra|]. apply Rinv_le_contravar; [lra | apply IZR_le; lia]. }
  assert (a0 : 0 <= a) by (eapply Rle_trans; [apply Rabs_pos | exact Ha]).
  set (w := vh / J) in *. assert (Ew : vh = J * w) by (unfold w; field; lra).
  assert (w0 : 0 <= w) by (unfold w; apply Rmult_le_pos; [lra | left; apply Rinv_0_lt_compat; lra]).
  pose proof (rnd_error w) as D1. fold th in D1. rewrite (Rabs_pos_eq w w0) in D1. set (d1 := th - w) in *.
  assert (Eth : th = w + d1) by (unfold d1; ring).
  pose proof (rnd_error (xx * th)) as D2. fold ph in D2. rewrite (Rabs_pos_eq (xx * th)) in D2 by (apply Rmult_le_pos; lra). set (d2 := ph - xx * th) in *.
  pose proof (rnd_error (J - xx)) as D3. fold dh in D3. rewrite (Rabs_pos_eq (J - xx)) in D3 by lra. set (d3 := dh - (J - xx)) in *.
  pose proof (rnd_error (dh * th)) as D4. fold qh in D4. rewrite (Rabs_pos_eq (dh * th)) in D4 by (apply Rmult_le_pos; lra). set (d4 := qh - dh * th) in *.
  pose proof (rnd_error (sh + ph)) as D5. fold nh in D5. rewrite (Rabs_pos_eq (sh + ph)) in D5 by lra. set (d5 := nh - (sh + ph)) in *.
  set (T := w + (U * w + E)). assert (HT : th <= T) by (unfold T; apply Rabs_le_inv in D1; lra). assert (T0 : 0 <= T) by (unfold T; nra).
  assert (Txx : xx * th <= J * T) by (apply Rmult_le_compat; lra). assert (Tdh : dh * th <= J * T) by (apply Rmult_le_compat; lra).
  assert (JT0 : 0 <= J * T) by (apply Rmult_le_pos; lra).
  assert (D2' : Rabs d2 <= U * (J * T) + E) by (eapply Rle_trans; [exact D2|]; apply Rplus_le_compat_r, Rmult_le_compat_l; lra).
  assert (D4' : Rabs d4 <= U * (J * T) + E) by (eapply Rle_trans; [exact D4|]; apply Rplus_le_compat_r, Rmult_le_compat_l; lra).
  assert (D3' : Rabs d3 <= U * J + E) by (eapply Rle_trans; [exact D3|]; apply Rplus_le_compat_r, Rmult_le_compat_l; lra).
  (* the two products *)
  assert (P : Rabs (ph - X * w) <= a * w + J * (U * w + E) + (U * (J * T) + E)).
  { replace (ph - X * w) with ((xx - X) * w + xx * d1 + d2) by (unfold d2; rewrite Eth; ring).
    assert (Rabs ((xx - X) * w) <= a * w) by (apply prod_abs; [exact Ha | rewrite Rabs_pos_eq; lra]).
    assert (Rabs (xx * d1) <= J * (U * w + E)) by (apply prod_abs; [rewrite Rabs_pos_eq; lra | exact D1]).
    eapply Rle_trans; [apply Rabs_triang|]. eapply Rle_trans; [apply Rplus_le_compat_r, Rabs_triang|]. lra. }
  assert (Q : Rabs (qh - (J - X) * w) <= (a + (U * J + E)) * w + J * (U * w + E) + (U * (J * T) + E)).
  { replace (qh - (J - X) * w) with ((d3 - (xx - X)) * w + dh * d1 + d4) by (unfold d4, d3; rewrite Eth; ring).
    assert (Rabs ((d3 - (xx - X)) * w) <= (a + (U * J + E)) * w).
    { apply prod_abs; [|rewrite Rabs_pos_eq; lra]. eapply Rle_trans; [apply Rabs_triang|]. rewrite Rabs_Ropp. lra. }
    assert (Rabs (dh * d1) <= J * (U * w + E)) by (apply prod_abs; [rewrite Rabs_pos_eq; lra | exact D1]).
    eapply Rle_trans; [apply Rabs_triang|]. eapply Rle_trans; [apply Rplus_le_compat_r, Rabs_triang|]. lra. }
  assert (P' : ph <= J * T + (U * (J * T) + E)) by (apply Rabs_le_inv in D2'; unfold d2 in D2'; lra).
  assert (Q' : qh <= J * T + (U * (J * T) + E)) by (apply Rabs_le_inv in D4'; unfold d4 in D4'; lra).
  (* the sum *)
  assert (N : Rabs (nh - (s + X * (v / J))) <= Rabs (sh - s) + Rabs (ph - X * w) + X * Rabs (w - v / J) + (U * (sh + ph) + E)).
  { replace (nh - (s + X * (v / J))) with ((sh - s) + (ph - X * w) + X * (w - v / J) + d5) by (unfold d5; ring).
    assert (Rabs (X * (w - v / J)) <= X * Rabs (w - v / J)) by (rewrite Rabs_mult, (Rabs_pos_eq X) by lra; lra).
    eapply Rle_trans; [apply Rabs_triang|]. eapply Rle_trans; [apply Rplus_le_compat_r, Rabs_triang|].
    eapply Rle_trans; [apply Rplus_le_compat_r, Rplus_le_compat_r, Rabs_triang|]. lra. }
  assert (M : Rabs (qh - (J - X) * (v / J)) <= Rabs (qh - (J - X) * w) + (J - X) * Rabs (w - v / J)).
  { replace (qh - (J - X) * (v / J)) with ((qh - (J - X) * w) + (J - X) * (w - v / J)) by ring.
    eapply Rle_trans; [apply Rabs_triang|]. rewrite (Rabs_mult (J - X)), (Rabs_pos_eq (J - X)) by lra. lra. }
  assert (W : J * Rabs (w - v / J) = Rabs (vh - v)).
  { rewrite <- (Rabs_pos_eq J) at 1 by lra. rewrite <- Rabs_mult. f_equal. rewrite Ew. field. lra. }
  assert (Up : U * ph <= U * (J * T + (U * (J * T) + E))) by (apply Rmult_le_compat_l; lra).
  assert (Uq : U * qh <= U * (J * T + (U * (J * T) + E))) by (apply Rmult_le_compat_l; lra).
  assert (Ea : vh * (2 * a / J) = 2 * a * w) by (rewrite Ew; field; lra).
  rewrite Rmult_plus_distr_l, Ea.
  apply Rle_trans with (Rabs (sh - s) + U * sh + Rabs (vh - v) + (2 * a * w + (U * J + E) * w + 2 * J * (U * w + E) + 2 * (U * (J * T) + E) + E + 2 * (U * (J * T + (U * (J * T) + E))))).
  { rewrite <- W. lra. }
  assert (K : (U * J + E) * w + 2 * J * (U * w + E) + 2 * (U * (J * T) + E) + E + 2 * (U * (J * T + (U * (J * T) + E))) <= vh * (8 * U) + 8 * J * E); [|lra].
  rewrite Ew. unfold T.
  assert (Jw : 0 <= J * w) by (apply Rmult_le_pos; lra).
  assert (UJw : 0 <= U * (J * w)) by (apply Rmult_le_pos; lra).
  assert (JE : E <= J * E) by (rewrite <- (Rmult_1_l E) at 1; apply Rmult_le_compat_r; lra).
  assert (UJE : 0 <= U * (J * E) <= / 1000000 * (J * E)) by (split; [apply Rmult_le_pos; lra | apply Rmult_le_compat_r; lra]).
  assert (UUJw : 0 <= U * (U * (J * w)) <= / 1000000 * (U * (J * w))) by (split; [apply Rmult_le_pos; lra | apply Rmult_le_compat_r; lra]).
  assert (UUUJw : 0 <= U * (U * (U * (J * w))) <= / 1000000 * (U * (U * (J * w)))) by (split; [apply Rmult_le_pos; lra | apply Rmult_le_compat_r; lra]).
  assert (UUJE : 0 <= U * (U * (J * E)) <= / 1000000 * (U * (J * E))) by (split; [apply Rmult_le_pos; lra | apply Rmult_le_compat_r; lra]).
  assert (UE : 0 <= U * E <= U * (J * E)) by (split; [apply Rmult_le_pos; lra | apply Rmult_le_compat_l; lra]).
  assert (Ewb : E * w <= / 1000000 * (U * (J * w))).
  { apply Rle_trans with (U * / 1000000 * (J * w)); [|lra]. apply Rmult_le_compat; try lra. rewrite <- (Rmult_1_l w) at 1. apply Rmult_le_compat_r; lra. }
  replace ((U * J + E) * w + 2 * J * (U * w + E) + 2 * (U * (J * (w + (U * w + E))) + E) + E + 2 * (U * (J * (w + (U * w + E)) + (U * (J * (w + (U * w + E))) + E))))
    with (7 * (U * (J * w)) + E * w + 2 * (J * E) + 6 * (U * (U * (J * w))) + 4 * (U * (J * E)) + 3 * E + 2 * (U * (U * (U * (J * w)))) + 2 * (U * (U * (J * E))) + 2 * (U * E)) by ring.
  lra.
Qed.
End Step.

Local Open Scope Z_scope.
Lemma zsum_le n f g : (forall m, 0 <= m < n -> (f m <= g m)%R) -> (zsum n f <= zsum n g)%R.
Proof.
  intros H. unfold zsum. assert (G : forall k, (k <= Z.to_nat n)%nat -> (nsum k f <= nsum k g)%R); [|apply G; lia].
  induction k as [|k IH]; intros Hk; cbn [nsum]; [lra|]. specialize (IH ltac:(lia)). specialize (H (Z.of_nat k) ltac:(lia)). lra.
Qed.
Lemma zsum_nonneg n f : (forall m, 0 <= m < n -> (0 <= f m)%R) -> (0 <= zsum n f)%R.
Proof. intros H. rewrite <- (zsum_zero n (fun _ => 0%R)) by reflexivity. now apply zsum_le. Qed.
Lemma zsum_elem n f k : (forall m, 0 <= m < n -> (0 <= f m)%R) -> 0 <= k < n -> (f k <= zsum n f)%R.
Proof.
  intros H Hk. rewrite <- (Rplus_0_l (f k)). assert (G : forall m : Z, 0 <= m -> k < m <= n -> (f k <= zsum m f)%R); [|rewrite Rplus_0_l; apply G; lia].
  intros m Hm. pattern m. apply natlike_ind; [lia| |exact Hm]. clear m Hm. intros m Hm IH Hb. rewrite <- Z.add_1_r in *. rewrite zsum_S by lia.
  destruct (Z.eq_dec k m) as [->|].
  - assert (0 <= zsum m f)%R by (apply zsum_nonneg; intros; apply H; lia). lra.
  - specialize (IH ltac:(lia)). pose proof (H m ltac:(lia)). lra.
Qed.
Lemma zsum_mono k n f : 0 <= k <= n -> (forall m, 0 <= m < n -> (0 <= f m)%R) -> (zsum k f <= zsum n f)%R.
Proof.
  intros Hk. replace n with (k + (n - k)) by ring. assert (Hm : 0 <= n - k) by lia. revert Hm. generalize (n - k). intros m Hm. pattern m.
  apply natlike_ind; [rewrite Z.add_0_r; lra| |exact Hm]. clear m Hm. intros m Hm IH H. rewrite <- Z.add_1_r, Z.add_assoc, zsum_S by lia.
  specialize (IH ltac:(intros; apply H; lia)). pose proof (H (k + m) ltac:(lia)). lra.
Qed.
Lemma zsum_const n c : 0 <= n -> zsum n (fun _ => c) = (IZR n * c)%R.
Proof.
  intros Hn. pattern n. apply natlike_ind; [rewrite zsum_0; ring| |exact Hn]. clear n Hn. intros n Hn IH. rewrite <- Z.add_1_r, zsum_S, IH, plus_IZR by lia. ring.
Qed.
Lemma zsum_abs n f : (Rabs (zsum n f) <= zsum n (fun k => Rabs (f k)))%R.
Proof.
  unfold zsum. induction (Z.to_nat n) as [|k IH]; cbn [nsum]; [rewrite Rabs_R0; lra|]. eapply Rle_trans; [apply Rabs_triang|]. lra.
Qed.

(** The bound of the error of the values of degree [d]. *)
Definition eps (d : Z) : R := (U * (IZR (d * (d + 21)) / 2))%R.
Lemma eps_S j : (eps (j + 1) = eps j + U * IZR (j + 11))%R.
Proof. unfold eps. rewrite !mult_IZR, !plus_IZR. field. Qed.
Lemma eps_nonneg j : 0 <= j -> (0 <= eps j)%R.
Proof. intros H. unfold eps. pose proof U_pos. assert (0 <= IZR (j * (j + 21)))%R by (apply IZR_le; nia). apply Rmult_le_pos; lra. Qed.
Lemma eps_small j : 0 <= j <= 1000 -> (eps j <= / 1000000)%R.
Proof.
  intros H. unfold eps. pose proof U_pos. assert (IZR (j * (j + 21)) <= IZR 2000000)%R by (apply IZR_le; nia). assert (0 <= IZR (j * (j + 21)))%R by (apply IZR_le; nia).
  apply Rle_trans with (/ IZR (2 ^ 53) * (IZR 2000000 / 2))%R; [apply Rmult_le_compat; [lra | lra | exact U_small | lra]|].
  apply Rle_trans with (/ IZR (2 * 10 ^ 12) * (IZR 2000000 / 2))%R; [apply Rmult_le_compat_r; [lra|]; apply Rinv_le_contravar; [apply IZR_lt | apply IZR_le]; lia|].
  change (2 * 10 ^ 12) with 2000000000000. lra.
Qed.

Section Loops.
Context (t : Z -> R) (h : R) (c : Z) (off : spec_float) (x : R).
Hypothesis Hoff : fok off.
Hypothesis Ho : (0 <= fval off <= 1)%R.
Hypothesis Hh : (0 < h)%R.
Hypothesis Ht : forall a b, (t b - t a = IZR (b - a) * h)%R.
Hypothesis Hx : (x - t c = fval off * h)%R.
Notation V p r := (V t c p r x).
Notation Lp p r := (Lp t c p r x).
Notation Rp p r := (Rp t c p r x).
Definition drift (j r : Z) : R := (U * (IZR (r * (r + 1)) / 2) + IZR r * E)%R.
Lemma drift_S j r : (drift j (r + 1) = drift j r + (U * IZR (r + 1) + E))%R.
Proof. unfold drift. rewrite !mult_IZR, !plus_IZR. field. Qed.
Lemma drift_le j r : 0 <= r <= j -> 1 <= j -> (2 * drift j r / IZR j <= U * IZR (j + 1) + 2 * E)%R.
Proof.
  intros Hr Hj. assert (0 < IZR j)%R by (apply IZR_lt; lia). pose proof U_pos. pose proof E_pos. apply Rmult_le_reg_r with (IZR j); [lra|].
  unfold Rdiv. rewrite Rmult_assoc, Rinv_l, Rmult_1_r by lra. unfold drift.
  assert (IZR (r * (r + 1)) <= IZR (j * (j + 1)))%R by (apply IZR_le; nia). rewrite (mult_IZR j) in *. assert (IZR r <= IZR j)%R by (apply IZR_le; lia).
  assert (U * IZR (r * (r + 1)) <= U * (IZR j * IZR (j + 1)))%R by (apply Rmult_le_compat_l; lra). assert (IZR r * E <= IZR j * E)%R by (apply Rmult_le_compat_r; lra). lra.
Qed.
Lemma small_ok z : (Rabs z <= 10000)%R -> (Rabs (rnd z) < bpow radix2 1024)%R.
Proof. intros H. apply (rnd_small _ 10000); [lia | exact H]. Qed.
Definition part (j : Z) (v : arr spec_float) (k : Z) : R :=
  (Rabs (fval (a_at v k) - V (j - 1) k) + fval (a_at v k) * (U * IZR (j + 9) + 2 * E) + 8 * IZR j * E)%R.

Lemma f_inner_loop (v : arr spec_float) j : 1 <= j <= 1000 -> j <= a_len v -> (forall k, 0 <= k < j -> fok (a_at v k) /\ (0 <= fval (a_at v k) <= 2)%R) ->
  exists xx sv v', for_range 0 j (ub_inner FA aget aset j) (nopp FA off, nofz FA 0, v) = Ok (xx : num FA, sv : num FA, v') /\ fok sv /\ (0 <= fval sv)%R /\
    a_len v' = a_len v /\ (forall k, 0 <= k < j -> fok (a_at v' k) /\ (0 <= fval (a_at v' k))%R) /\
    (zsum j (fun k => Rabs (fval (a_at v' k) - V j k)) + Rabs (fval sv - V j j) <= zsum j (part j v))%R.
Proof.
  intros Hj Lv Hv. destruct (fofz_exact j ltac:(lia)) as (J1 & J2). destruct (fofz_exact 1 ltac:(lia)) as (O1 & O2). destruct (fofz_exact 0 ltac:(lia)) as (Z1 & Z2).
  destruct (fopp_ok off Hoff) as (N1 & N2). change (num FA) with spec_float in *.
  set (fj := nofz FA j) in *. set (f1 := nofz FA 1) in *. set (f0 := nofz FA 0) in *.
  pose proof U_pos as HU. pose proof E_pos as HE.
  destruct (for_range_inv
    (fun r (st : num FA * num FA * arr (num FA)) => let xx := fst (fst st) in let sv := snd (fst st) in let w := snd st in
       fok xx /\ (IZR (r - 1) <= fval xx <= IZR r)%R /\ (Rabs (fval xx - (IZR r - fval off)) <= drift j r)%R /\
       fok sv /\ (0 <= fval sv <= 2000)%R /\ a_len w = a_len v /\
       (forall k, 0 <= k < r -> fok (a_at w k) /\ (0 <= fval (a_at w k))%R) /\ (forall k, r <= k < j -> a_at w k = a_at v k) /\
       (zsum r (fun k => Rabs (fval (a_at w k) - V j k)) + Rabs (fval sv - Lp (j - 1) r) + U * fval sv <= zsum r (part j v))%R)
    (ub_inner FA aget aset j) 0 j (nopp FA off, f0, v)) as (((xx & sv) & v') & EQ & A1 & A2 & A3 & A4 & A5 & A6 & A7 & A8 & A9).
  - lia.
  - change (num FA) with spec_float. cbn [fst snd nopp FA]. cbv zeta. split; [exact N1|]. split; [rewrite N2; cbn; lra|]. split.
    { rewrite N2. unfold drift. replace (- fval off - (0 - fval off))%R with 0%R by ring. rewrite Rabs_R0. cbn. lra. }
    split; [exact Z1|]. split; [lra|]. split; [reflexivity|]. split; [intros; lia|]. split; [reflexivity|].
    rewrite !zsum_0, Z2. unfold BSplineMath.Lp. cbn [Z.eqb]. rewrite Rminus_0_r, Rabs_R0. lra.
  - intros r ((xx, sv), w) Hr (A1 & A2 & A3 & A4 & A5 & A6 & A7 & A8 & A9). cbn [fst snd] in *. change (num FA) with spec_float in *. unfold ub_inner. fold fj f1.
    change (@aget spec_float) with (@aget (num FA)). rewrite (aget_ok w) by lia. cbn [rbind]. cbv zeta. rewrite (aset_ok w) by lia. cbn [rbind]. eexists. split; [reflexivity|].
    cbn [fst snd a_len a_at nadd nmul ndiv nsub FA]. rewrite (A8 r) by lia. destruct (Hv r ltac:(lia)) as (V1 & V2). set (fv := a_at v r) in *.
    assert (HJ : (1 <= IZR j <= 1000)%R) by (split; apply IZR_le; lia). assert (rJ : (IZR r + 1 <= IZR j)%R) by (rewrite <- plus_IZR; apply IZR_le; lia).
    assert (r0 : (0 <= IZR r)%R) by (apply IZR_le; lia). rewrite minus_IZR in A2.
    (* xx *)
    destruct (fadd_ok xx f1 A1 O1) as (X1 & X2). { rewrite O2. apply small_ok, Rabs_le. lra. }
    set (x1 := SFadd 53 1024 xx f1) in *. rewrite O2 in X2.
    assert (X3 : (IZR r <= fval x1 <= IZR (r + 1))%R).
    { rewrite X2. split; [apply rnd_from; [lia | lra] | apply rnd_upto; [lia | rewrite plus_IZR; lra]]. }
    assert (X4 : (Rabs (fval x1 - (IZR (r + 1) - fval off)) <= drift j (r + 1))%R).
    { rewrite drift_S. pose proof (rnd_error (fval xx + 1)) as D. rewrite <- X2 in D. rewrite (Rabs_pos_eq (fval xx + 1)) in D by lra.
      replace (fval x1 - (IZR (r + 1) - fval off))%R with ((fval xx - (IZR r - fval off)) + (fval x1 - (fval xx + 1)))%R by (rewrite plus_IZR; ring).
      eapply Rle_trans; [apply Rabs_triang|]. assert (U * (fval xx + 1) <= U * IZR (r + 1))%R by (apply Rmult_le_compat_l; [lra | rewrite plus_IZR; lra]). lra. }
    assert (X5 : (0 <= fval x1 <= IZR j)%R) by (rewrite plus_IZR in X3; lra).
    assert (X6 : (0 <= IZR (r + 1) - fval off <= IZR j)%R) by (rewrite plus_IZR; lra).
    (* temp *)
    assert (T0 : (0 <= fval fv / IZR j <= 2)%R).
    { split; [apply Rmult_le_pos; [lra | left; apply Rinv_0_lt_compat; lra]|]. apply Rmult_le_reg_r with (IZR j); [lra|]. unfold Rdiv. rewrite Rmult_assoc, Rinv_l by lra. nra. }
    destruct (fdiv_ok fv fj V1 J1) as (T1 & T2). { rewrite J2. lra. } { rewrite J2. apply small_ok, Rabs_le. lra. }
    set (tm := SFdiv 53 1024 fv fj) in *. rewrite J2 in T2.
    pose proof (step_th j (fval fv) Hj V2) as T3. rewrite <- T2 in T3.
    (* the products and the sum *)
    pose proof (step_ph j (fval x1) (fval fv) Hj X5 V2) as P3. rewrite <- T2 in P3.
    pose proof (step_dh j (fval x1) Hj X5) as D3.
    pose proof (step_qh j (fval x1) (fval fv) Hj X5 V2) as Q3. rewrite <- T2 in Q3.
    assert (B1 : (0 <= fval x1 * fval tm <= 2000)%R).
    { split; [apply Rmult_le_pos; lra|]. apply Rle_trans with (1000 * 2)%R; [apply Rmult_le_compat; lra | lra]. }
    destruct (fmul_ok x1 tm X1 T1) as (P1 & P2). { apply small_ok, Rabs_le. lra. } rewrite <- P2 in P3.
    set (p1 := SFmul 53 1024 x1 tm) in *.
    destruct (fadd_ok sv p1 A4 P1) as (S1 & S2). { apply small_ok, Rabs_le. lra. }
    set (s1 := SFadd 53 1024 sv p1) in *.
    destruct (fsub_ok fj x1 J1 X1) as (D1 & D2). { rewrite J2. apply small_ok, Rabs_le. lra. }
    set (d1 := SFsub 53 1024 fj x1) in *. rewrite J2 in D2. rewrite <- D2 in D3, Q3.
    assert (B2 : (0 <= fval d1 * fval tm <= 2000)%R).
    { split; [apply Rmult_le_pos; lra|]. apply Rle_trans with (1000 * 2)%R; [apply Rmult_le_compat; lra | lra]. }
    destruct (fmul_ok d1 tm D1 T1) as (Q1 & Q2). { apply small_ok, Rabs_le. lra. } rewrite <- Q2 in Q3.
    set (q1 := SFmul 53 1024 d1 tm) in *.
    assert (S3 : (0 <= fval s1)%R) by (rewrite S2; apply rnd_pos; lra).
    split; [exact X1|]. split; [replace (r + 1 - 1) with r by ring; exact X3|]. split; [exact X4|]. split; [exact Q1|]. split; [exact Q3|]. split; [exact A6|]. split.
    { intros k Hk. destruct (Z.eq_dec k r) as [->|]; [rewrite upd_eq; now split | rewrite upd_neq by lia; apply A7; lia]. }
    split; [intros k Hk; rewrite upd_neq by lia; apply A8; lia|].
    rewrite !zsum_S by lia. rewrite upd_eq. rewrite (zsum_ext r _ (fun k => Rabs (fval (a_at w k) - V j k))) by (intros k Hk; cbv beta; rewrite upd_neq by lia; reflexivity).
    pose proof (step_error j (IZR (r + 1) - fval off) (drift j (r + 1)) (fval x1) (fval fv) (V (j - 1) r) (fval sv) (Lp (j - 1) r) Hj X6 X5 X4 V2 (proj1 A5)) as SE.
    rewrite <- T2, <- P2, <- D2, <- Q2, <- S2 in SE.
    pose proof (u_Lp t h c (fval off) x Hh Ht Hx (j - 1) r ltac:(lia)) as EL. replace (j - 1 + 1) with j in EL by ring.
    pose proof (u_step t h c x Hh Ht (j - 1) r ltac:(lia) ltac:(lia)) as EV. replace (j - 1 + 1) with j in EV by ring.
    rewrite (u_Rp t h c (fval off) x Hh Ht Hx (j - 1) r ltac:(lia)) in EV. replace (j - 1 + 1) with j in EV by ring.
    assert (EX : (IZR r + 1 - fval off)%R = (IZR (r + 1) - fval off)%R) by (rewrite plus_IZR; ring). rewrite EX in EL, EV.
    rewrite <- EL, <- EV in SE.
    pose proof (drift_le j (r + 1) ltac:(lia) ltac:(lia)) as DL.
    assert (ST : (fval fv * (2 * drift j (r + 1) / IZR j + 8 * U) <= fval fv * (U * IZR (j + 9) + 2 * E))%R).
    { apply Rmult_le_compat_l; [lra|]. replace (IZR (j + 9)) with (IZR (j + 1) + 8)%R by (rewrite <- plus_IZR; f_equal; lia). lra. }
    unfold part at 2. fold fv. lra.
  - cbn [fst snd] in *. exists xx, sv, v'. split; [exact EQ|]. split; [exact A4|]. split; [lra|]. split; [exact A6|]. split; [intros k Hk; apply A7; lia|].
    pose proof (u_last t h c x Hh Ht (j - 1) ltac:(lia)) as EL. replace (j - 1 + 1) with j in EL by ring. rewrite EL in A9.
    change (num FA) with spec_float in *. assert (0 <= U * fval sv)%R by (apply Rmult_le_pos; lra). lra.
Qed.

Lemma u_V_bounds p k : 0 <= p -> 0 <= k <= p -> (0 <= V p k <= 1)%R.
Proof.
  intros Hp Hk. assert (Hc : (t c <= x <= t (c + 1)%Z)%R).
  { pose proof (Ht c (c + 1)) as H1. replace (c + 1 - c) with 1 in H1 by ring. nra. }
  assert (N : forall k, (0 <= V p k)%R).
  { intros i. apply (V_nonneg t c p (u_monos t h c Hh Ht p) (u_cell t h c Hh Ht)); try lia. exact Hc. }
  split; [apply N|]. pose proof (V_sum t c p (u_monos t h c Hh Ht p) (u_cell t h c Hh Ht) p Hp ltac:(lia) x) as S. rewrite (sum_f_R0_zsum (fun k => V p k)) in S.
  rewrite Z2Nat.id in S by lia. rewrite <- S. apply (zsum_elem (p + 1) (fun k => V p k)); [intros; apply N | lia].
Qed.
Lemma u_V_sum p : 0 <= p -> zsum (p + 1) (fun k => V p k) = 1%R.
Proof.
  intros Hp. pose proof (V_sum t c p (u_monos t h c Hh Ht p) (u_cell t h c Hh Ht) p Hp ltac:(lia) x) as S. rewrite (sum_f_R0_zsum (fun k => V p k)) in S.
  rewrite Z2Nat.id in S by lia. exact S.
Qed.
(** From the errors of degree j - 1 to those of degree j. *)
Lemma part_bound (v : arr spec_float) j : 1 <= j <= 1000 -> (forall k, 0 <= k < j -> (0 <= fval (a_at v k))%R) ->
  (zsum j (fun k => Rabs (fval (a_at v k) - V (j - 1) k)) <= eps (j - 1))%R -> (zsum j (part j v) <= eps j)%R.
Proof.
  intros Hj Hv He. pose proof U_pos as HU. pose proof E_pos as HE.
  assert (J0 : (1 <= IZR j <= 1000)%R) by (split; apply IZR_le; lia).
  assert (EU : (E <= U * / IZR (10 ^ 8))%R).
  { eapply Rle_trans; [exact E_small|]. apply Rmult_le_compat_l; [lra|]. apply Rinv_le_contravar; [apply IZR_lt | apply IZR_le]; lia. }
  change (10 ^ 8) with 100000000 in EU.
  unfold part. rewrite !zsum_plus. rewrite zsum_const by lia.
  rewrite (zsum_ext j (fun m => fval (a_at v m) * (U * IZR (j + 9) + 2 * E))%R (fun m => (U * IZR (j + 9) + 2 * E) * fval (a_at v m))%R) by (intros; ring).
  rewrite zsum_scal. set (e := zsum j (fun m => Rabs (fval (a_at v m) - V (j - 1) m))) in *.
  assert (S1 : (zsum j (fun m => fval (a_at v m)) <= 1 + e)%R).
  { pose proof (u_V_sum (j - 1) ltac:(lia)) as S. replace (j - 1 + 1) with j in S by ring. rewrite <- S. unfold e. rewrite <- zsum_plus. apply zsum_le.
    intros m Hm. pose proof (Rle_abs (fval (a_at v m) - V (j - 1) m)). lra. }
  assert (S0 : (0 <= zsum j (fun m => fval (a_at v m)))%R) by (apply zsum_nonneg; exact Hv).
  pose proof (eps_S (j - 1)) as ES. replace (j - 1 + 1) with j in ES by ring. replace (j - 1 + 11) with (j + 10) in ES by ring. rewrite ES.
  pose proof (eps_small (j - 1) ltac:(lia)) as EB. rewrite !plus_IZR.
  assert (e1 : (0 <= e)%R) by (apply zsum_nonneg; intros; apply Rabs_pos).
  assert (S2 : ((U * (IZR j + 9) + 2 * E) * zsum j (fun m => fval (a_at v m)) <= (U * (IZR j + 9) + 2 * E) * (1 + / 1000000))%R).
  { apply Rmult_le_compat_l; [|lra]. assert (0 <= U * (IZR j + 9))%R by (apply Rmult_le_pos; lra). lra. }
  assert (S3 : (U * (IZR j + 9) * / 1000000 <= U * / 2)%R) by (rewrite Rmult_assoc; apply Rmult_le_compat_l; lra).
  assert (S4 : (IZR j * (8 * IZR j * E) <= 8000000 * E)%R).
  { replace (IZR j * (8 * IZR j * E))%R with (8 * (IZR j * IZR j) * E)%R by ring. apply Rmult_le_compat_r; [lra|]. assert (IZR j * IZR j <= 1000 * 1000)%R by (apply Rmult_le_compat; lra). lra. }
  lra.
Qed.
Lemma f_triangle n (v : arr spec_float) : 1 <= n <= 1001 -> n <= a_len v -> fok (a_at v 0) -> fval (a_at v 0) = 1%R ->
  exists v', ub_triangle FA off n v = Ok v' /\ a_len v' = a_len v /\ (forall k, 0 <= k < n -> fok (a_at v' k) /\ (0 <= fval (a_at v' k))%R) /\
    (zsum n (fun k => Rabs (fval (a_at v' k) - V (n - 1) k)) <= eps (n - 1))%R.
Proof.
  intros Hn Ln Hv0 Hv1. unfold ub_triangle.
  destruct (for_range_inv
    (fun j (w : arr (num FA)) => a_len w = a_len v /\ (forall k, 0 <= k < j -> fok (a_at w k) /\ (0 <= fval (a_at w k))%R) /\
      (zsum j (fun k => Rabs (fval (a_at w k) - V (j - 1) k)) <= eps (j - 1))%R)
    (fun j values => ' (_, saved, values) <- for_range 0 j (ub_inner FA aget aset j) ((nopp FA off)%N_, nofz FA 0, values) ;; aset values j saved)
    1 n v) as (v' & EQ & H1 & H2 & H3).
  - lia.
  - change (num FA) with spec_float. split; [reflexivity|]. split.
    + intros k Hk. replace k with 0 by lia. split; [exact Hv0 | rewrite Hv1; lra].
    + change 1 with (0 + 1) at 1. rewrite zsum_S, zsum_0 by lia. replace (1 - 1) with 0 by ring. rewrite Hv1, V_0. unfold eps. cbn. rewrite Rminus_eq_0, Rabs_R0. lra.
  - intros j w Hj (H1 & H2 & H3). change (num FA) with spec_float in *.
    assert (Hw : forall k, 0 <= k < j -> fok (a_at w k) /\ (0 <= fval (a_at w k) <= 2)%R).
    { intros k Hk. destruct (H2 k Hk) as (G1 & G2). split; [exact G1|]. split; [exact G2|].
      pose proof (zsum_elem j (fun k => Rabs (fval (a_at w k) - V (j - 1) k)) k (fun _ _ => Rabs_pos _) Hk) as G3. cbv beta in G3.
      pose proof (eps_small (j - 1) ltac:(lia)) as G4. pose proof (u_V_bounds (j - 1) k ltac:(lia) ltac:(lia)) as G5.
      pose proof (Rle_abs (fval (a_at w k) - V (j - 1) k)) as G6. lra. }
    destruct (f_inner_loop w j ltac:(lia) ltac:(lia) Hw) as (xx & sv & w' & EQ & S1 & S2 & L & G1 & G2). change (num FA) with spec_float in *.
    rewrite EQ. cbn [rbind]. rewrite (aset_ok w') by lia. eexists. split; [reflexivity|]. cbn [a_len a_at]. split; [lia|].
    replace (j + 1 - 1) with j by ring. split.
    + intros k Hk. destruct (Z.eq_dec k j) as [->|]; [rewrite upd_eq; now split | rewrite upd_neq by lia; apply G1; lia].
    + rewrite zsum_S by lia. rewrite upd_eq. rewrite (zsum_ext j _ (fun k => Rabs (fval (a_at w' k) - V j k))) by (intros k Hk; cbv beta; rewrite upd_neq by lia; reflexivity).
      eapply Rle_trans; [exact G2|]. apply part_bound; [lia | intros k Hk; apply (H2 k Hk) | exact H3].
  - change (num FA) with spec_float in *. exists v'. split; [exact EQ|]. split; [exact H1|]. split; [exact H2 | exact H3].
Qed.
End Loops.
