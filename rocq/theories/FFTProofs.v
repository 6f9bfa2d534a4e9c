(** The transforms of the model, with an exact library. *)
From Coq Require Import Reals Lra Lia.
From Verif Require Import FFTSpec FFTMath SamplingProofs.
Local Open Scope Z_scope.

(** * Meshes *)
Lemma mesh_shape d shape : mesh d shape -> view_shape d = shape.
Proof.
  intros (_ & _ & H). induction H as [|p n d shape Hp H IH]; [reflexivity|]. cbn [view_shape map]. f_equal; [|exact IH].
  unfold extent1. unfold u64_sub, u64, i64, two64, two63. rewrite (Z.mod_small (_ - _)) by lia. rewrite Z.mod_small by lia. lia.
Qed.
Lemma mesh_positive d shape : mesh d shape -> positive shape.
Proof.
  intros (_ & Hne & H). split; [intros ->; inversion H; subst; now apply Hne|]. clear Hne. induction H as [|p n d shape Hp H IH]; constructor; [lia | exact IH].
Qed.
Lemma rank_app q l1 l2 : ~ In q l1 -> ts_rank q (l1 ++ q :: l2) = Some (length l1).
Proof.
  induction l1 as [|h l IH]; intros H; cbn [ts_rank app length].
  - now rewrite Nat.eqb_refl.
  - cbn in H. destruct (Nat.eqb_spec q h) as [->|N]; [exfalso; auto|]. rewrite IH by auto. reflexivity.
Qed.
Lemma axes_from l1 l2 : NoDup (l1 ++ l2) -> map (fun q => type_seq_rank_v q (l1 ++ l2)) l2 = map Z.of_nat (seq (length l1) (length l2)).
Proof.
  revert l1. induction l2 as [|q l2 IH]; intros l1 H; [reflexivity|]. cbn [map length seq]. f_equal.
  - unfold type_seq_rank_v. rewrite rank_app; [reflexivity|]. intros Hin. apply NoDup_remove_2 in H. apply H. apply in_or_app. now left.
  - replace (l1 ++ q :: l2) with ((l1 ++ [q]) ++ l2) in * by (now rewrite <- app_assoc). rewrite IH by exact H. rewrite app_length. cbn [length]. now rewrite Nat.add_1_r.
Qed.
Lemma mesh_axes d shape : mesh d shape -> axes (ddims d) = all_axes shape.
Proof.
  intros (Hnd & _ & H). unfold axes, all_axes. pose proof (axes_from [] (ddims d) Hnd) as E. cbn [app length] in E. etransitivity; [exact E|].
  unfold ddims. rewrite map_length. f_equal. f_equal. clear -H. induction H; cbn [length]; congruence.
Qed.

(** * The constants of FULL *)
Section Constants.
Context (S : tag -> uniform_sampling RA).
Notation step p := (us_step RA (S (fst p))).
Lemma one_extent_ok p n : one_mesh p n -> one_extent [p] = Ok n.
Proof.
  intros (Hn & Hb & He & Hm). unfold one_extent. destruct p as [q [b e]]. cbn [fst snd] in *. subst e. rewrite extents_1' by lia. cbn [rbind one_elem]. f_equal. lia.
Qed.
Lemma mesh_length_ok p n : one_mesh p n -> us_front RA (S (fst p)) = 0 -> mesh_length RA S p = Ok (IZR (n - 1) * step p)%R.
Proof.
  intros (Hn & Hb & He & Hm) Hf. unfold mesh_length, rlength, rmax, rmin. destruct p as [q [b e]]. cbn [fst snd] in *. subst e. rewrite back_1 by lia.
  unfold front. cbn [dom_begin map fst snd one_elem rbind]. unfold us_coord. cbn [rbind]. unfold us_coordinate, elem_minus, u64_sub. rewrite Hf, !Z.sub_0_r. rewrite !u64_small, !i64_small by lia.
  f_equal. cbn [nsub nadd nmul nofz RA]. replace (IZR (b + n - 1)) with (IZR b + IZR (n - 1))%R by (rewrite <- plus_IZR; f_equal; lia). to_R. ring.
Qed.
Lemma sqrt_2_pi : (0 < sqrt (2 * PI))%R.
Proof. apply sqrt_lt_R0. pose proof PI_RGT_0. lra. Qed.
Lemma forward_coef p n : one_mesh p n -> 2 <= n -> us_front RA (S (fst p)) = 0 -> forward_full_norm_coef RA (sqrt (2 * PI)) S p = Ok (forward_factor S p).
Proof.
  intros H H2 Hf. unfold forward_full_norm_coef. rewrite (mesh_length_ok p n H Hf). cbn [rbind]. rewrite (one_extent_ok p n H). cbn [rbind]. destruct H as (Hn & Hb & He & Hm).
  rewrite ssub_small by lia. cbn [rbind]. f_equal. cbn [ndiv nofz RA]. unfold forward_factor, mesh_step. pose proof sqrt_2_pi. to_R. field. split; [lra | apply not_0_IZR; lia].
Qed.
Lemma backward_coef p n : one_mesh p n -> 2 <= n -> us_front RA (S (fst p)) = 0 -> (0 < step p)%R -> backward_full_norm_coef RA (sqrt (2 * PI)) S p = Ok (backward_factor S p).
Proof.
  intros H H2 Hf Hs. unfold backward_full_norm_coef. rewrite (forward_coef p n H H2 Hf). cbn [rbind]. rewrite (one_extent_ok p n H). cbn [rbind]. destruct H as (Hn & Hb & He & Hm).
  f_equal. cbn [ndiv nmul nofz RA]. unfold forward_factor, backward_factor, frequency_step, mesh_step. rewrite He. replace (fst (snd p) + n - fst (snd p)) with n by lia.
  pose proof sqrt_2_pi. pose proof (sqrt_sqrt (2 * PI) ltac:(pose proof PI_RGT_0; lra)) as Q. assert (IZR n <> 0%R) by (apply not_0_IZR; lia). to_R.
  transitivity (sqrt (2 * PI) * sqrt (2 * PI) / (IZR n * step p) / sqrt (2 * PI))%R; [|now rewrite Q]. field. repeat split; lra.
Qed.
Lemma norm_product_ok f g d : d <> [] -> Forall (fun p => f p = Ok (g p : num RA)) d -> norm_product RA f d = Ok (product g d).
Proof.
  intros Hne H. induction H as [|p d Hp H IH]; [now destruct Hne|]. destruct d as [|p' d].
  - cbn [norm_product product fold_right]. rewrite Hp. f_equal. symmetry. apply Rmult_1_r.
  - change (norm_product RA f (p :: p' :: d)) with (rbind (f p) (fun c => rbind (norm_product RA f (p' :: d)) (fun r => Ok (nmul RA c r)))).
    rewrite Hp, IH by discriminate. reflexivity.
Qed.
Lemma sampled_all d shape : mesh d shape -> sampled S d shape -> Forall (fun p => exists n, one_mesh p n /\ 2 <= n /\ us_front RA (S (fst p)) = 0 /\ (0 < step p)%R) d.
Proof.
  intros (_ & _ & H) [H2 H3]. induction H as [|p n d shape Hp H IH]; constructor.
  - inversion H2; inversion H3; subst. exists n. split; [exact Hp|]. split; [assumption|]. tauto.
  - inversion H2; inversion H3; subst. now apply IH.
Qed.
Lemma forward_product d shape : mesh d shape -> sampled S d shape -> norm_product RA (forward_full_norm_coef RA (sqrt (2 * PI)) S) d = Ok (product (forward_factor S) d).
Proof.
  intros Hm Hs. apply norm_product_ok; [apply Hm|]. eapply Forall_impl; [|exact (sampled_all d shape Hm Hs)]. intros p (n & H1 & H2 & H3 & H4). exact (forward_coef p n H1 H2 H3).
Qed.
Lemma backward_product d shape : mesh d shape -> sampled S d shape -> norm_product RA (backward_full_norm_coef RA (sqrt (2 * PI)) S) d = Ok (product (backward_factor S) d).
Proof.
  intros Hm Hs. apply norm_product_ok; [apply Hm|]. eapply Forall_impl; [|exact (sampled_all d shape Hm Hs)]. intros p (n & H1 & H2 & H3 & H4). exact (backward_coef p n H1 H2 H3 H4).
Qed.
Lemma points_pos shape : Forall (fun n => 1 <= n) shape -> 1 <= points shape.
Proof. intros H. induction H as [|n s Hn H IH]; cbn; [lia|]. change (fold_right Z.mul 1 s) with (points s). nia. Qed.
Lemma full_product d shape : mesh d shape -> sampled S d shape -> (product (forward_factor S) d * product (backward_factor S) d = / IZR (points shape))%R.
Proof.
  intros (_ & _ & H) [H2 H3]. induction H as [|p n d shape Hp H IH].
  - cbn. field.
  - inversion H2 as [|? ? Hn H2']; inversion H3 as [|? ? [Hs Hf] H3']; subst. specialize (IH H2' H3'). cbn [product fold_right points].
    change (fold_right (fun p r => forward_factor S p * r)%R 1%R d) with (product (forward_factor S) d). change (fold_right (fun p r => backward_factor S p * r)%R 1%R d) with (product (backward_factor S) d).
    change (fold_right Z.mul 1 shape) with (points shape). rewrite mult_IZR, Rinv_mult.
    rewrite <- IH. unfold forward_factor at 1, backward_factor at 1, frequency_step, mesh_step. destruct Hp as (Hn' & Hb & He & Hm). rewrite He. replace (fst (snd p) + n - fst (snd p)) with n by lia.
    pose proof sqrt_2_pi. pose proof (sqrt_sqrt (2 * PI) ltac:(pose proof PI_RGT_0; lra)) as Q. assert (IZR n <> 0%R) by (apply not_0_IZR; lia).
    assert (E : (step p / sqrt (2 * PI) * (2 * PI / (IZR n * step p) / sqrt (2 * PI)) = / IZR n)%R).
    { transitivity (step p / sqrt (2 * PI) * (sqrt (2 * PI) * sqrt (2 * PI) / (IZR n * step p) / sqrt (2 * PI)))%R; [now rewrite Q|]. field. repeat split; lra. }
    rewrite <- E. ring.
Qed.
End Constants.

(** * The factors *)
Lemma factors norm S d shape : mesh d shape -> usable norm S d shape -> (factor S D_FORWARD norm d shape * factor S D_BACKWARD norm d shape * IZR (points shape) = round_trip_factor norm shape)%R.
Proof.
  intros Hm Hu. pose proof (points_pos shape (proj2 (mesh_positive d shape Hm))) as Hp. assert (0 < IZR (points shape))%R by (apply IZR_lt; lia). assert (IZR (points shape) <> 0%R) by lra.
  destruct norm; cbn [factor round_trip_factor to_kokkos library_factor]; [lra | field; lra | field; lra | |].
  - rewrite <- (sqrt_sqrt (IZR (points shape))) at 3 by lra. field. pose proof (sqrt_lt_R0 _ H). lra.
  - rewrite (full_product S d shape Hm Hu). field. lra.
Qed.

Section Transforms.
Context (L : fft_library) (HL : exact_library L) (S : tag -> uniform_sampling RA).
Context (norm : normalization) (d kd : domain) (shape : list Z).
Hypothesis (Hd : mesh d shape) (Hu : usable norm S d shape).
Lemma scale_C c (v : C) : @scale Complex_ c v = (RtoC c * v)%C. Proof. reflexivity. Qed.
Lemma scale_R c (v : R) : @scale Real_ c v = (c * v)%R. Proof. reflexivity. Qed.
Section Complex.
Hypothesis (Hk : mesh kd shape).
Lemma complex_forward (f : list Z -> C) :
  exists F : list Z -> C, fft L S norm Complex_ Complex_ (mk_chunk_nd (t := Complex_) d f) kd = Ok (mk_chunk_nd (t := Complex_) kd F) /\
  forall k, in_box shape k -> F k = (RtoC (factor S D_FORWARD norm d shape) * dft shape f k)%C.
Proof.
  destruct (exact_fftn L HL (to_kokkos norm) shape f (mesh_positive _ _ Hd)) as (g & E & Hg).
  unfold fft, fft_impl, transform. cbn [nd_domain nd_at]. rewrite (mesh_axes d shape Hd), (mesh_shape d shape Hd), (mesh_shape kd shape Hk), E. cbn [rbind].
  destruct norm; [exists g; split; [reflexivity | exact Hg] | exists g; split; [reflexivity | exact Hg] | exists g; split; [reflexivity | exact Hg] | exists g; split; [reflexivity | exact Hg] |].
  rewrite (forward_product S d shape Hd Hu). cbn [rbind]. eexists. split; [reflexivity|]. intros k Hk'. etransitivity; [apply scale_C|]. rewrite Hg by exact Hk'. cbn [factor to_kokkos library_factor]. ring.
Qed.
Lemma complex_backward (F : list Z -> C) :
  exists f : list Z -> C, ifft L S norm Complex_ Complex_ (mk_chunk_nd (t := Complex_) kd F) d = Ok (mk_chunk_nd (t := Complex_) d f) /\
  forall j, in_box shape j -> f j = (RtoC (factor S D_BACKWARD norm d shape) * inverse_dft shape F j)%C.
Proof.
  destruct (exact_ifftn L HL (to_kokkos norm) shape F (mesh_positive _ _ Hd)) as (g & E & Hg).
  unfold ifft, fft_impl, transform. cbn [nd_domain nd_at]. rewrite (mesh_axes kd shape Hk), (mesh_shape d shape Hd), (mesh_shape kd shape Hk), E. cbn [rbind].
  destruct norm; [exists g; split; [reflexivity | exact Hg] | exists g; split; [reflexivity | exact Hg] | exists g; split; [reflexivity | exact Hg] | exists g; split; [reflexivity | exact Hg] |].
  rewrite (backward_product S d shape Hd Hu). cbn [rbind]. eexists. split; [reflexivity|]. intros k Hk'. etransitivity; [apply scale_C|]. rewrite Hg by exact Hk'. cbn [factor to_kokkos library_factor]. ring.
Qed.
Theorem complex_round_trip (f : list Z -> C) :
  exists F g : list Z -> C, fft L S norm Complex_ Complex_ (mk_chunk_nd (t := Complex_) d f) kd = Ok (mk_chunk_nd (t := Complex_) kd F) /\
  ifft L S norm Complex_ Complex_ (mk_chunk_nd (t := Complex_) kd F) d = Ok (mk_chunk_nd (t := Complex_) d g) /\
  forall j, in_box shape j -> g j = (RtoC (round_trip_factor norm shape) * f j)%C.
Proof.
  destruct (complex_forward f) as (F & E1 & HF). destruct (complex_backward F) as (g & E2 & Hg). exists F, g. split; [exact E1|]. split; [exact E2|].
  intros j Hj. rewrite Hg by exact Hj. rewrite (inverse_ext shape F _ j HF), inverse_scal, forward_backward; [|apply (mesh_positive _ _ Hd) | exact Hj].
  rewrite <- (factors norm S d shape Hd Hu), !RtoC_mult. ring.
Qed.
Theorem complex_round_trip_back (F : list Z -> C) :
  exists f G : list Z -> C, ifft L S norm Complex_ Complex_ (mk_chunk_nd (t := Complex_) kd F) d = Ok (mk_chunk_nd (t := Complex_) d f) /\
  fft L S norm Complex_ Complex_ (mk_chunk_nd (t := Complex_) d f) kd = Ok (mk_chunk_nd (t := Complex_) kd G) /\
  forall k, in_box shape k -> G k = (RtoC (round_trip_factor norm shape) * F k)%C.
Proof.
  destruct (complex_backward F) as (f & E1 & Hf). destruct (complex_forward f) as (G & E2 & HG). exists f, G. split; [exact E1|]. split; [exact E2|].
  intros k Hk'. rewrite HG by exact Hk'. rewrite (dft_ext shape f _ k Hf), dft_scal, backward_forward; [|apply (mesh_positive _ _ Hd) | exact Hk'].
  rewrite <- (factors norm S d shape Hd Hu), !RtoC_mult. ring.
Qed.
End Complex.

Section Real.
Hypothesis (Hk : mesh kd (half shape)).
Lemma half_axes : all_axes (half shape) = all_axes shape.
Proof.
  unfold all_axes. do 2 f_equal. clear. induction shape as [|n [|m s] IH]; [reflexivity..|]. change (half (n :: m :: s)) with (n :: half (m :: s)). cbn [length] in *. congruence.
Qed.
Lemma real_forward (f : list Z -> R) :
  exists F : list Z -> C, fft L S norm Real_ Complex_ (mk_chunk_nd (t := Real_) d f) kd = Ok (mk_chunk_nd (t := Complex_) kd F) /\
  forall k, in_box (half shape) k -> F k = (RtoC (factor S D_FORWARD norm d shape) * dft shape (fun j => RtoC (f j)) k)%C.
Proof.
  destruct (exact_rfftn L HL (to_kokkos norm) shape f (mesh_positive _ _ Hd)) as (g & E & Hg).
  unfold fft, fft_impl, transform. cbn [nd_domain nd_at]. rewrite (mesh_axes d shape Hd), (mesh_shape d shape Hd), (mesh_shape kd _ Hk), E. cbn [rbind].
  destruct norm; [exists g; split; [reflexivity | exact Hg] | exists g; split; [reflexivity | exact Hg] | exists g; split; [reflexivity | exact Hg] | exists g; split; [reflexivity | exact Hg] |].
  rewrite (forward_product S d shape Hd Hu). cbn [rbind]. eexists. split; [reflexivity|]. intros k Hk'. etransitivity; [apply scale_C|]. rewrite Hg by exact Hk'. cbn [factor to_kokkos library_factor]. ring.
Qed.
Lemma real_backward (h F : list Z -> C) : hermitian shape F -> (forall k, in_box (half shape) k -> h k = F k) ->
  exists f : list Z -> R, ifft L S norm Complex_ Real_ (mk_chunk_nd (t := Complex_) kd h) d = Ok (mk_chunk_nd (t := Real_) d f) /\
  forall j, in_box shape j -> RtoC (f j) = (RtoC (factor S D_BACKWARD norm d shape) * inverse_dft shape F j)%C.
Proof.
  intros HF Hh. destruct (exact_irfftn L HL (to_kokkos norm) shape h F (mesh_positive _ _ Hd) HF Hh) as (g & E & Hg).
  unfold ifft, fft_impl, transform. cbn [nd_domain nd_at]. rewrite (mesh_axes kd _ Hk), (mesh_shape d shape Hd), (mesh_shape kd _ Hk), half_axes, E. cbn [rbind].
  destruct norm; [exists g; split; [reflexivity | exact Hg] | exists g; split; [reflexivity | exact Hg] | exists g; split; [reflexivity | exact Hg] | exists g; split; [reflexivity | exact Hg] |].
  rewrite (backward_product S d shape Hd Hu). cbn [rbind]. eexists. split; [reflexivity|]. intros k Hk'. etransitivity; [apply (f_equal RtoC); apply scale_R|]. rewrite RtoC_mult, Hg by exact Hk'. cbn [factor to_kokkos library_factor]. ring.
Qed.
Theorem real_round_trip (f : list Z -> R) :
  exists (F : list Z -> C) (g : list Z -> R), fft L S norm Real_ Complex_ (mk_chunk_nd (t := Real_) d f) kd = Ok (mk_chunk_nd (t := Complex_) kd F) /\
  ifft L S norm Complex_ Real_ (mk_chunk_nd (t := Complex_) kd F) d = Ok (mk_chunk_nd (t := Real_) d g) /\
  forall j, in_box shape j -> g j = (round_trip_factor norm shape * f j)%R.
Proof.
  destruct (real_forward f) as (F & E1 & HF). pose proof (proj2 (mesh_positive _ _ Hd)) as Hp.
  destruct (real_backward F (fun k => RtoC (factor S D_FORWARD norm d shape) * dft shape (fun j => RtoC (f j)) k)%C) as (g & E2 & Hg); [now apply hermitian_scal, real_hermitian | exact HF |].
  exists F, g. split; [exact E1|]. split; [exact E2|].
  intros j Hj. apply RtoC_inj. rewrite Hg by exact Hj. rewrite inverse_scal, forward_backward by assumption.
  rewrite <- (factors norm S d shape Hd Hu), !RtoC_mult. ring.
Qed.
Theorem real_round_trip_back (h F : list Z -> C) : hermitian shape F -> (forall k, in_box (half shape) k -> h k = F k) ->
  exists (f : list Z -> R) (G : list Z -> C), ifft L S norm Complex_ Real_ (mk_chunk_nd (t := Complex_) kd h) d = Ok (mk_chunk_nd (t := Real_) d f) /\
  fft L S norm Real_ Complex_ (mk_chunk_nd (t := Real_) d f) kd = Ok (mk_chunk_nd (t := Complex_) kd G) /\
  forall k, in_box (half shape) k -> G k = (RtoC (round_trip_factor norm shape) * h k)%C.
Proof.
  intros HF Hh. pose proof (proj2 (mesh_positive _ _ Hd)) as Hp.
  destruct (real_backward h F HF Hh) as (f & E1 & Hf). destruct (real_forward f) as (G & E2 & HG). exists f, G. split; [exact E1|]. split; [exact E2|].
  intros k Hk'. rewrite HG, Hh by exact Hk'. rewrite (dft_ext shape _ _ k Hf), dft_scal, backward_forward; [|exact Hp | now apply half_box].
  rewrite <- (factors norm S d shape Hd Hu), !RtoC_mult. ring.
Qed.
End Real.
End Transforms.
