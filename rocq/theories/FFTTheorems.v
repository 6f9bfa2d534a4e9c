(** The Fourier mesh, its coordinates, an exact library, and findings. *)
From Coq Require Import Reals Lra Lia.
From Verif Require Import TaggedSpec DomainSpec DomainProofs DomainProofs2 TaggedProofs FFTSpec FFTMath SamplingProofs FFTProofs.
Local Open Scope Z_scope.

(** * The mesh *)
Lemma mesh_wf d shape : mesh d shape -> dom_wf d.
Proof.
  intros (Hnd & _ & H). split; [exact Hnd|]. induction H as [|p n d shape Hp H IH]; constructor.
  - destruct p as [q [b e]]. cbn [fst snd] in *. lia.
  - apply IH. inversion Hnd; assumption.
Qed.
Lemma mesh_extents d shape : mesh d shape -> extents d = Ok (combine (ddims d) shape).
Proof.
  intros Hm. pose proof (mesh_wf d shape Hm) as Hd. destruct (extents_spec d Hd) as (ex & E & Hdx & Hwx & Hvx). rewrite E. f_equal.
  transitivity (map (fun p => (fst p, snd (snd p) - fst (snd p))) d).
  - symmetry. apply tagged_eq_list.
    + unfold dims at 1. rewrite map_map. symmetry. exact Hdx.
    + unfold dims. rewrite map_map. apply Hm.
    + intros q x Hx. unfold val_of in Hx. apply in_map_iff in Hx as ([t [b f]] & E' & Hi). cbn [fst snd] in E'. injection E' as <- <-. now apply Hvx.
  - destruct Hm as (_ & _ & H). clear -H. induction H as [|p n d shape Hp H IH]; [reflexivity|]. cbn [map ddims combine]. unfold ddims in *. rewrite IH. f_equal. f_equal. lia.
Qed.
Lemma half_last_ok ts shape : length ts = length shape -> Forall (fun n => 1 <= n) shape -> half_last (combine ts shape) = combine ts (half shape).
Proof.
  intros Hl H. revert ts Hl. induction H as [|n shape Hn H IH]; intros [|t ts] Hl; try discriminate; [reflexivity|]. destruct shape as [|m shape], ts as [|t' ts]; try discriminate.
  - cbn [combine half_last half]. rewrite Z.quot_div_nonneg by lia. reflexivity.
  - change (half (n :: m :: shape)) with (n :: half (m :: shape)). change (combine (t :: t' :: ts) (n :: half (m :: shape))) with ((t, n) :: combine (t' :: ts) (half (m :: shape))).
    rewrite <- IH by (cbn [length] in *; lia). reflexivity.
Qed.
Definition fourier_of (fourier : tag -> tag) (ts : type_seq) (shape : list Z) : domain := map (fun p => (fourier (fst p), (0, snd p))) (combine ts shape).
Lemma fourier_domain_ok fourier ts shape : Forall (fun n => 0 <= n < 2 ^ 63) shape -> fourier_domain fourier (combine ts shape) = Ok (fourier_of fourier ts shape).
Proof.
  intros H. revert ts. induction H as [|n shape Hn H IH]; intros [|t ts]; try reflexivity. unfold fourier_of. cbn [combine fourier_domain map fst snd].
  rewrite mk_domain_1' by lia. cbn [rbind]. rewrite IH. cbn [rbind app]. reflexivity.
Qed.
Lemma half_length shape : length (half shape) = length shape.
Proof. induction shape as [|n [|m s] IH]; [reflexivity..|]. change (half (n :: m :: s)) with (n :: half (m :: s)). cbn [length] in *. congruence. Qed.
Lemma half_bounds shape : Forall (fun n => 1 <= n < 2 ^ 63) shape -> Forall (fun n => 1 <= n < 2 ^ 63) (half shape).
Proof.
  intros H. induction H as [|n s Hn H IH]; [constructor|]. destruct s as [|m s].
  - constructor; [|constructor]. pose proof (Z.div_mod n 2 ltac:(lia)). pose proof (Z.mod_pos_bound n 2 ltac:(lia)). assert (n / 2 + 1 <= n) by lia. lia.
  - change (half (n :: m :: s)) with (n :: half (m :: s)). constructor; assumption.
Qed.
Lemma fourier_of_mesh fourier ts shape : ts <> [] -> length ts = length shape -> NoDup (map fourier ts) -> Forall (fun n => 1 <= n < 2 ^ 63) shape -> mesh (fourier_of fourier ts shape) shape.
Proof.
  intros Hne Hl Hnd H.
  assert (E : forall shape, length ts = length shape -> map fst (fourier_of fourier ts shape) = map fourier ts).
  { clear. unfold fourier_of. induction ts as [|t ts IH]; intros [|n shape] Hl; try discriminate; [reflexivity|]. cbn [combine map fst]. f_equal. apply IH. cbn [length] in Hl. lia. }
  split; [now rewrite E|]. split; [destruct ts, shape; cbn in *; congruence|]. clear E Hnd Hne. revert ts Hl. induction H as [|n shape Hn H IH]; intros [|t ts] Hl; try discriminate; [constructor|].
  unfold fourier_of in *. cbn [combine map fst snd]. constructor; [cbn [fst snd]; lia|]. apply IH. cbn [length] in Hl. lia.
Qed.
Lemma mesh_bounds d shape : mesh d shape -> Forall (fun n => 1 <= n < 2 ^ 63) shape.
Proof. intros (_ & _ & H). induction H as [|p n d shape Hp H IH]; constructor; [lia | exact IH]. Qed.
Lemma mesh_lengths d shape : mesh d shape -> length (ddims d) = length shape.
Proof. intros (_ & _ & H). unfold ddims. rewrite map_length. induction H; cbn [length]; congruence. Qed.
Theorem fourier_mesh_ok fourier d shape c2c : mesh d shape -> NoDup (map fourier (ddims d)) ->
  let kshape := if c2c : bool then shape else half shape in
  exists kd, fourier_mesh fourier d c2c = Ok kd /\ mesh kd kshape /\ kd = map (fun p => (fourier (fst p), (0, snd p))) (combine (ddims d) kshape).
Proof.
  intros Hm Hnd kshape. pose proof (mesh_bounds d shape Hm) as Hb. pose proof (mesh_lengths d shape Hm) as Hl.
  assert (Hb1 : Forall (fun n => 1 <= n) shape) by (eapply Forall_impl; [|exact Hb]; cbn; lia).
  assert (Hkb : Forall (fun n => 1 <= n < 2 ^ 63) kshape) by (unfold kshape; destruct c2c; [exact Hb | now apply half_bounds]).
  assert (Hkl : length (ddims d) = length kshape) by (unfold kshape; destruct c2c; [exact Hl | now rewrite half_length]).
  exists (fourier_of fourier (ddims d) kshape). unfold fourier_mesh. rewrite (mesh_extents d shape Hm). cbn [rbind]. split; [|split; [|reflexivity]].
  - rewrite <- (fourier_domain_ok fourier (ddims d) kshape) by (eapply Forall_impl; [|exact Hkb]; cbn; lia). unfold kshape. destruct c2c; [reflexivity|]. now rewrite half_last_ok.
  - apply fourier_of_mesh; auto. destruct Hm as (_ & Hne & _). destruct d; [now destruct Hne | discriminate].
Qed.

(** * The frequencies *)
Lemma smul_small a b : - 2 ^ 63 <= a * b < 2 ^ 63 -> smul a b = Ok (a * b).
Proof. intros H. unfold smul, of_i64, i64_mul, i64_ret, is_i64b. change two63 with (2 ^ 63). destruct (_ && _) eqn:E; auto. lia. Qed.
Section Frequencies.
Context (S : tag -> uniform_sampling RA) (q : tag) (p : tag * (Z * Z)) (n : Z).
Hypothesis (Hp : one_mesh p n) (Hn : 2 <= n <= 2 ^ 31) (Hf : us_front RA (S (fst p)) = 0) (Hs : (0 < us_step RA (S (fst p)))%R).
Theorem init_fourier_ok : exists s, init_fourier_space RA PI S q p = Ok s /\ ps_front RA s = 0 /\ ps_n_period RA s = n /\ ps_origin RA s = 0%R /\ ps_step RA s = frequency_step S p.
Proof.
  unfold init_fourier_space. rewrite (one_extent_ok S p n Hp). cbn [rbind]. rewrite (mesh_length_ok S p n Hp Hf). cbn [rbind]. rewrite ssub_small by lia. cbn [rbind].
  rewrite smul_small by lia. cbn [rbind]. rewrite smul_small by nia. cbn [rbind].
  set (b := nmul RA _ _). assert (Eb : b = (IZR (n - 1) * frequency_step S p)%R).
  { unfold b. cbn [nmul ndiv nofz RA]. unfold frequency_step, mesh_step. destruct Hp as (_ & Hb & He & _). rewrite He. replace (fst (snd p) + n - fst (snd p)) with n by lia. rewrite !mult_IZR. to_R. field.
    repeat split; try lra; apply not_0_IZR; lia. }
  assert (Hfs : (0 < frequency_step S p)%R).
  { unfold frequency_step, mesh_step. destruct Hp as (_ & Hb & He & _). rewrite He. replace (fst (snd p) + n - fst (snd p)) with n by lia. pose proof PI_RGT_0.
    apply Rmult_lt_0_compat; [lra|]. apply Rinv_0_lt_compat. apply Rmult_lt_0_compat; [apply IZR_lt; lia | exact Hs]. }
  assert (Hb : (0 < b)%R) by (rewrite Eb; apply Rmult_lt_0_compat; [apply IZR_lt; lia | exact Hfs]).
  unfold ps_init. cbn [nltb nofz RA]. rewrite R_ltb_true by exact Hb. replace (1 <? n) with true by lia. rewrite ssub_small by lia. cbn [rbind]. unfold ps_construct. cbn [nltb nofz nsub ndiv num RA].
  assert (Est : ((b - 0) / IZR (n - 1) = frequency_step S p)%R) by (rewrite Eb; field; apply not_0_IZR; lia). rewrite Est.
  rewrite R_ltb_true by exact Hfs. rewrite u64_small by lia. replace (0 <? n) with true by lia. cbn [rbind ps_front]. unfold reference_element. rewrite mk_domain_1. cbn [rbind fst].
  eexists. split; [reflexivity|]. cbn [ps_front ps_n_period ps_step ps_origin]. repeat split; reflexivity.
Qed.
(** dx dk n = 2 pi *)
Theorem steps_product : (us_step RA (S (fst p)) * frequency_step S p * IZR n = 2 * PI)%R.
Proof.
  unfold frequency_step, mesh_step. destruct Hp as (_ & Hb & He & _). rewrite He. replace (fst (snd p) + n - fst (snd p)) with n by lia. field. split; [lra | apply not_0_IZR; lia].
Qed.
(** The coordinate of an element of the Fourier mesh: k dk, up to n dk, in [-n/2 dk, (n - n/2) dk). *)
Theorem fourier_coordinate s k : init_fourier_space RA PI S q p = Ok s -> 0 <= k < n ->
  ps_coordinate RA s k = Ok (IZR (if k <? n - n / 2 then k else k - n) * frequency_step S p)%R.
Proof.
  intros E Hk. destruct init_fourier_ok as (s' & E' & F1 & F2 & F3 & F4). rewrite E in E'. assert (s' = s) by congruence. subst s'. clear E'.
  assert (Hh : 0 <= n / 2 < n) by (split; [apply Z.div_pos | apply Z.div_lt]; lia).
  rewrite ps_coordinate_eq; [|exact F1 | rewrite F2; lia | lia | rewrite F2; lia]. rewrite F2, F3, F4. f_equal. rewrite Rplus_0_l. f_equal. f_equal.
  destruct (Z.ltb_spec k (n - n / 2)).
  - rewrite Z.mod_small by lia. lia.
  - replace (k + n / 2) with (k + n / 2 - n + 1 * n) by lia. rewrite Z.mod_add by lia. rewrite Z.mod_small by lia. lia.
Qed.
End Frequencies.

(** With these coordinates, the terms of the sums are those of the Fourier transform. *)
Theorem phases (S : tag -> uniform_sampling RA) (space : tag -> periodic_sampling RA) (frequency : tag -> Z -> R) d shape : mesh d shape -> sampled S d shape -> Forall (fun n => n <= 2 ^ 31) shape ->
  Forall2 (fun p n => (exists q, init_fourier_space RA PI S q p = Ok (space (fst p))) /\ forall k, 0 <= k < n -> ps_coordinate RA (space (fst p)) k = Ok (frequency (fst p) k : num RA)) d shape ->
  forall j k, in_box shape j -> in_box shape k -> cis (angle shape j k) = cis (phase S frequency d j k).
Proof.
  intros (_ & _ & Hm) [H2 H3] H31 HF. revert H2 H3 H31 HF. induction Hm as [|p n d shape Hp Hm IH]; intros H2 H3 H31 HF j k Hj Hk; inversion Hj as [|? j0 ? js Hj0 Hjs]; subst; inversion Hk as [|? k0 ? ks Hk0 Hks]; subst.
  - reflexivity.
  - inversion H2 as [|? ? Hn H2']; inversion H3 as [|? ? [Hs Hf] H3']; inversion H31 as [|? ? H31a H31b]; inversion HF as [|? ? ? ? [[q Eq] Hq] HF']; subst.
    cbn [angle phase]. rewrite !cis_add. f_equal; [|apply IH; assumption].
    pose proof (fourier_coordinate S q p n Hp ltac:(lia) Hf Hs _ k0 Eq Hk0) as C1. rewrite (Hq k0 Hk0) in C1.
    assert (Hinj : forall x y : R, Ok x = Ok y -> x = y) by congruence. apply Hinj in C1. rewrite C1. clear Hinj.
    assert (X : (us_coordinate RA (S (fst p)) (fst (snd p) + j0)%Z - us_coordinate RA (S (fst p)) (fst (snd p)) = IZR j0 * us_step RA (S (fst p)))%R).
    { destruct Hp as (Hp1 & Hp2 & Hp3 & Hp4). unfold us_coordinate, elem_minus, u64_sub. rewrite Hf, !Z.sub_0_r. rewrite !u64_small, !i64_small by lia. cbn [nadd nmul nofz RA]. rewrite plus_IZR. to_R. ring. }
    etransitivity; [|apply f_equal; apply f_equal; symmetry; exact X].
    pose proof (steps_product S p n Hp ltac:(lia) Hs) as SP. assert (Nz : IZR n <> 0%R) by (apply not_0_IZR; lia).
    assert (E : forall m, (IZR m * frequency_step S p * (IZR j0 * us_step RA (S (fst p))) = 2 * PI * IZR (j0 * m) / IZR n)%R).
    { intros m. rewrite mult_IZR. rewrite <- SP. field. exact Nz. }
    destruct (k0 <? n - n / 2); rewrite E; [reflexivity|].
    rewrite <- (cis_period (2 * PI * IZR (j0 * (k0 - n)) / IZR n) j0). f_equal. rewrite !mult_IZR, minus_IZR. field. exact Nz.
Qed.
(** The transform, in terms of the coordinates. *)
Theorem fourier_sum (S : tag -> uniform_sampling RA) (space : tag -> periodic_sampling RA) (frequency : tag -> Z -> R) d shape (f : list Z -> C) : mesh d shape -> sampled S d shape -> Forall (fun n => n <= 2 ^ 31) shape ->
  Forall2 (fun p n => (exists q, init_fourier_space RA PI S q p = Ok (space (fst p))) /\ forall k, 0 <= k < n -> ps_coordinate RA (space (fst p)) k = Ok (frequency (fst p) k : num RA)) d shape ->
  forall k, in_box shape k -> dft shape f k = box_sum shape (fun j => f j * cis (- phase S frequency d j k))%C.
Proof.
  intros Hm Hs H31 HF k Hk. apply box_ext. intros j Hj. f_equal. rewrite <- !cis_conj. f_equal. now apply (phases S space frequency d shape).
Qed.

(** * A library *)
Definition full_spectrum (shape : list Z) (f : list Z -> C) (k : list Z) : C := if last k 0 <? last (half shape) 0 then f k else Cconj (f (opposite shape k)).
Definition sums : fft_library := mk_library
  (fun k _ s _ f => Ok (fun i => RtoC (library_factor true k s) * dft s f i)%C)
  (fun k _ s _ f => Ok (fun i => RtoC (library_factor false k s) * inverse_dft s f i)%C)
  (fun k _ s _ f => Ok (fun i => RtoC (library_factor true k s) * dft s (fun j => RtoC (f j)) i)%C)
  (fun k _ _ s f => Ok (fun i => (library_factor false k s * Re (inverse_dft s (full_spectrum s f) i))%R)).
Lemma csum_first n f : csum (S n) f = (f 0 + csum n (fun i => f (i + 1)%Z))%C.
Proof.
  induction n as [|n IH]; [cbn [csum]; change (Z.of_nat 0) with 0; ring|]. change (csum (S (S n)) f) with (csum (S n) f + f (Z.of_nat (S n)))%C. rewrite IH. cbn [csum]. replace (Z.of_nat n + 1)%Z with (Z.of_nat (S n)) by lia. ring.
Qed.
Lemma csum_reverse n f : csum n (fun i => f (Z.of_nat n - 1 - i)%Z) = csum n f.
Proof.
  revert f. induction n as [|n IH]; intros f; [reflexivity|]. rewrite csum_first. cbn [csum]. rewrite <- IH. rewrite (Cplus_comm (csum _ _)). f_equal; [f_equal; lia|].
  apply csum_ext. intros i Hi. f_equal. lia.
Qed.
Lemma csum_opposite n f : 1 <= n -> csum (Z.to_nat n) (fun i => f ((- i) mod n)%Z) = csum (Z.to_nat n) f.
Proof.
  intros Hn. destruct (Z.to_nat n) as [|m] eqn:E; [reflexivity|]. rewrite !csum_first. f_equal.
  etransitivity; [|apply csum_reverse]. apply csum_ext. intros i Hi. f_equal. replace (- (i + 1)) with (Z.of_nat m - 1 - i + 1 + (-1) * n) by lia. rewrite Z.mod_add by lia. apply Z.mod_small. lia.
Qed.
Lemma box_opposite s f : Forall (fun n => 1 <= n) s -> box_sum s (fun k => f (opposite s k)) = box_sum s f.
Proof.
  intros H. revert f. induction H as [|n s Hn H IH]; intros f; [reflexivity|]. cbn [box_sum opposite]. rewrite <- (csum_opposite n (fun i => box_sum s (fun l => f (i :: l)))) by exact Hn.
  apply csum_ext. intros i _. apply (IH (fun l => f ((- i) mod n :: l))).
Qed.
Lemma hermitian_real s F j : Forall (fun n => 1 <= n) s -> hermitian s F -> in_box s j -> Cconj (inverse_dft s F j) = inverse_dft s F j.
Proof.
  intros Hs HF Hj. unfold inverse_dft. rewrite box_conj. rewrite <- (box_opposite s (fun k => F k * cis (angle s j k))%C) by exact Hs. apply box_ext. intros k Hk. rewrite conj_mult, cis_conj, HF by exact Hk. f_equal.
  destruct (angle_opposite s Hs j k Hj Hk) as [m ->]. now rewrite cis_period.
Qed.
Lemma real_part z : Cconj z = z -> RtoC (Re z) = z.
Proof. destruct z as [a b]. unfold Cconj, Re, RtoC. cbn [fst snd]. intros E. injection E as E. f_equal. lra. Qed.
Lemma half_last_index s : forall k, s <> [] -> in_box s k -> (last k 0 < last (half s) 0 <-> in_box (half s) k).
Proof.
  induction s as [|n s IH]; intros k Hs Hk; [congruence|]. inversion Hk as [|? i ? l Hi Hl]; subst. destruct s as [|m s].
  - inversion Hl; subst. cbn [last half]. split; [intros H; constructor; [lia | constructor] | intros H; inversion H; subst; lia].
  - inversion Hl as [|? i' ? l' Hi' Hl']; subst. change (half (n :: m :: s)) with (n :: half (m :: s)).
    assert (E : last (n :: half (m :: s)) 0 = last (half (m :: s)) 0) by (destruct s; reflexivity). rewrite E. change (last (i :: i' :: l') 0) with (last (i' :: l') 0).
    rewrite (IH (i' :: l')) by (congruence || assumption). unfold in_box. split; [intros H; constructor; [lia | exact H] | intros H; inversion H; assumption].
Qed.
Lemma full_spectrum_ok s f F : positive s -> hermitian s F -> (forall i, in_box (half s) i -> f i = F i) -> forall k, in_box s k -> full_spectrum s f k = F k.
Proof.
  intros [Hne Hp] HF Hf k Hk. unfold full_spectrum. destruct (Z.ltb_spec (last k 0) (last (half s) 0)) as [Hlt | Hge].
  - apply Hf. apply half_last_index; assumption.
  - destruct (half_or_opposite s Hp k Hk) as [Hh | Hh]; [apply (half_last_index s k Hne Hk) in Hh; lia|]. rewrite Hf by exact Hh. rewrite HF by exact Hk. apply conj_conj.
Qed.
Theorem sums_exact : exact_library sums.
Proof.
  split.
  - intros k s f _. eexists. split; [reflexivity|]. reflexivity.
  - intros k s f _. eexists. split; [reflexivity|]. reflexivity.
  - intros k s f _. eexists. split; [reflexivity|]. reflexivity.
  - intros k s f F Hp HF Hf. eexists. split; [reflexivity|]. intros i Hi. cbn beta.
    rewrite (inverse_ext s (full_spectrum s f) F) by (intros; now apply full_spectrum_ok). rewrite RtoC_mult. f_equal. apply real_part. apply hermitian_real; [apply Hp | exact HF | exact Hi].
Qed.

(** * Findings *)
(** With one point only, FULL divides zero by zero. *)
From Coq Require Import Floats.SpecFloat.
Lemma SF_sub_same x : (exists b, SFsub 53 1024 x x = S754_zero b) \/ SFsub 53 1024 x x = S754_nan.
Proof.
  destruct x as [s | s | | s m e]; [left; destruct s; eexists; reflexivity | right; destruct s; reflexivity | right; reflexivity | left].
  cbn [SFsub]. rewrite Z.sub_diag. eexists. reflexivity.
Qed.
Lemma SF_zero_over x y : (exists b, x = S754_zero b) \/ x = S754_nan -> (exists b, SFdiv 53 1024 x y = S754_zero b) \/ SFdiv 53 1024 x y = S754_nan.
Proof. intros [[b ->] | ->]; destruct y; cbn [SFdiv]; eauto. Qed.
Theorem single_point (c : num FA) (S : tag -> uniform_sampling FA) p : one_mesh p 1 -> forward_full_norm_coef FA c S p = Ok (S754_nan : num FA).
Proof.
  intros Hp. unfold forward_full_norm_coef, mesh_length, rlength, rmin, rmax. rewrite (one_extent_ok (fun _ => mk_us RA 0%R 0%R 0) p 1 Hp). destruct p as [q [b e]]. destruct Hp as (_ & Hb & He & Hm). cbn [fst snd] in *. subst e.
  unfold front, dom_begin. cbn [map fst snd one_elem rbind]. rewrite back_1 by lia. cbn [one_elem rbind]. replace (b + 1 - 1) with b by lia. unfold us_coord. cbn [rbind]. rewrite ssub_small by lia. cbn [rbind].
  apply f_equal. generalize (us_coordinate FA (S q) b). intros x. cbn [nsub ndiv nofz num FA].
  pose proof (SF_zero_over _ c (SF_sub_same x)) as [[z ->] | ->]; reflexivity.
Qed.
(** More than 2^31 points: the number of points squared overflows. *)
Theorem fourier_overflow S q p n : one_mesh p n -> us_front RA (S (fst p)) = 0 -> 2 ^ 31 < n -> init_fourier_space RA PI S q p = Undef.
Proof.
  intros Hp Hf Hn. unfold init_fourier_space. rewrite (one_extent_ok S p n Hp). cbn [rbind]. rewrite (mesh_length_ok S p n Hp Hf). cbn [rbind]. destruct Hp as (_ & Hb & He & Hm). rewrite ssub_small by lia. cbn [rbind].
  assert (Hbig : smul (2 * (n - 1)) (n - 1) = Undef).
  { unfold smul, of_i64, i64_mul, i64_ret, is_i64b. change two63 with (2 ^ 63). destruct (_ && _) eqn:E; [|reflexivity]. exfalso. apply andb_prop in E as [E1 E2]. clear -Hn E2. nia. }
  unfold smul at 1. unfold of_i64, i64_mul, i64_ret. destruct (is_i64b (2 * (n - 1))); [|reflexivity]. cbn [rbind]. now rewrite Hbig.
Qed.
(** The sum of the documentation is with x_j, not x_j - x_0. *)
Definition two_points : domain := [(1%nat, (0, 2))].
Definition from_one : tag -> uniform_sampling RA := fun _ => mk_us RA 1%R 1%R 0.
Lemma two_points_mesh : mesh two_points [2].
Proof. split; [|split; [discriminate|]]. - constructor; [intros []|constructor]. - constructor; [|constructor]. cbn [fst snd]. lia. Qed.
Lemma two_points_sampled : sampled from_one two_points [2].
Proof. split; (constructor; [|constructor]); [lia|]. split; [|reflexivity]. cbn [us_step from_one]. lra. Qed.
Definition spike (j : list Z) : C := match j with [0] => RtoC 1 | _ => RtoC 0 end.
Theorem plain_phase_wrong L : exact_library L -> exists (F : list Z -> C) s frequency,
  fft L from_one N_OFF Complex_ Complex_ (mk_chunk_nd (t := Complex_) two_points spike) [(2%nat, (0, 2))] = Ok (mk_chunk_nd (t := Complex_) [(2%nat, (0, 2))] F) /\
  init_fourier_space RA PI from_one 2%nat (1%nat, (0, 2)) = Ok s /\ (forall k, 0 <= k < 2 -> ps_coordinate RA s k = Ok (frequency k : num RA)) /\
  F [1] <> box_sum [2] (fun j => spike j * cis (- plain_phase from_one (fun _ => frequency) two_points j [1]))%C.
Proof.
  intros HL. assert (Hk : mesh [(2%nat, (0, 2))] [2]).
  { split; [|split; [discriminate|]]. - constructor; [intros []|constructor]. - constructor; [|constructor]. cbn [fst snd]. lia. }
  assert (Hu : usable N_OFF from_one two_points [2]) by exact I.
  destruct (complex_forward L HL from_one N_OFF two_points [(2%nat, (0, 2))] [2] two_points_mesh Hu Hk spike) as (F & EF & HF).
  assert (Hp : one_mesh (1%nat, (0, 2)) 2) by (unfold one_mesh; cbn [fst snd]; lia).
  assert (Hs : (0 < us_step RA (from_one (fst (1%nat, (0, 2)))))%R) by (cbn [us_step from_one]; lra).
  destruct (init_fourier_ok from_one 2%nat (1%nat, (0, 2)) 2 Hp ltac:(lia) eq_refl Hs) as (s & Es & _).
  pose proof (fourier_coordinate from_one 2%nat (1%nat, (0, 2)) 2 Hp ltac:(lia) eq_refl Hs s) as HC.
  set (p := (1%nat, (0, 2))) in *. assert (Ef : frequency_step from_one p = PI).
  { unfold frequency_step, mesh_step, p. cbn [fst snd us_step from_one]. change (2 - 0) with 2. field. }
  exists F, s, (fun k : Z => (IZR (if (k <? 2 - 2 / 2)%Z then k else (k - 2)%Z) * frequency_step from_one p)%R).
  split; [exact EF|]. split; [exact Es|]. split; [intros k Hk'; now apply HC|].
  rewrite HF by (constructor; [lia | constructor]). rewrite Ef. cbn [factor]. unfold dft, two_points. cbn [box_sum]. change (Z.to_nat 2) with 2%nat. cbn [csum]. change (Z.of_nat 0) with 0. change (Z.of_nat 1) with 1. cbn [spike].
  cbn [angle plain_phase fst snd]. change (2 - 2 / 2) with 1. replace (1 <? 1) with false by lia. change (0 * 1) with 0. change (1 - 2) with (-1).
  assert (E0 : us_coordinate RA (from_one 1%nat) (0 + 0) = 1%R) by (unfold us_coordinate; cbn [nadd nmul nofz RA us_origin us_step us_front from_one]; change (elem_minus (0 + 0) 0) with 0; to_R; ring).
  replace (- (2 * PI * 0 / 2 + 0))%R with 0%R by field. rewrite cis_0.
  assert (E1 : cis (- (-1 * PI * us_coordinate RA (from_one 1%nat) (0 + 0) + 0)) = RtoC (-1)).
  { transitivity (cis PI); [f_equal; etransitivity; [apply f_equal, f_equal2; [apply f_equal; exact E0 | reflexivity]|]; ring|]. unfold cis. rewrite cos_PI, sin_PI. reflexivity. }
  intros E. assert (E' : RtoC 1 = RtoC (-1)).
  { transitivity (RtoC 1 * (RtoC 0 + RtoC 1 * RtoC 1 + RtoC 0 * cis (- (2 * PI * IZR (1 * 1) / 2 + 0))))%C; [ring|]. etransitivity; [exact E|]. etransitivity; [apply f_equal2; [apply f_equal, f_equal; exact E1 | reflexivity]|]. ring. }
  apply RtoC_inj in E'. lra.
Qed.
Lemma frequencies S q p n : one_mesh p n -> 2 <= n <= 2 ^ 31 -> us_front RA (S (fst p)) = 0 -> (0 < us_step RA (S (fst p)))%R ->
  exists s, init_fourier_space RA PI S q p = Ok s /\
  forall k, 0 <= k < n -> ps_coordinate RA s k = Ok (IZR (if k <? n - n / 2 then k else k - n) * frequency_step S p)%R.
Proof. intros H1 H2 H3 H4. destruct (init_fourier_ok S q p n H1 H2 H3 H4) as (s & E & _). exists s. split; [exact E|]. intros k. now apply (fourier_coordinate S q p n). Qed.
Lemma phase_refuted L : exact_library L -> exists S d (f F : list Z -> C) s frequency, mesh d [2] /\ sampled S d [2] /\
  fft L S N_OFF Complex_ Complex_ (mk_chunk_nd (t := Complex_) d f) [(2%nat, (0, 2))] = Ok (mk_chunk_nd (t := Complex_) [(2%nat, (0, 2))] F) /\
  init_fourier_space RA PI S 2%nat (1%nat, (0, 2)) = Ok s /\ (forall k, 0 <= k < 2 -> ps_coordinate RA s k = Ok (frequency k : num RA)) /\
  F [1] <> box_sum [2] (fun j => f j * cis (- plain_phase S (fun _ => frequency) d j [1]))%C.
Proof.
  intros HL. destruct (plain_phase_wrong L HL) as (F & s & fr & H). exists from_one, two_points, spike, F, s, fr. split; [exact two_points_mesh|]. split; [exact two_points_sampled | exact H].
Qed.
