(** The location of cells in double precision. *)
From Coq Require Import Bool Reals Lia Lra ZifyBool List Floats.SpecFloat.
From Flocq Require Import Core.
From Verif Require Import BSplineModel BSplineSpec LoopProofs SamplingSpec SamplingProofs CellProofs FloatLink.
Import ListNotations.
Local Open Scope bool_scope. Local Open Scope Z_scope.

(** *** the break points of non-uniform B-splines, in any arithmetic *)
Section Generic.
Context (A : arith) (l : list (num A)) (d : Z).
Let n := Z.of_nat (length l).
Hypothesis Hd : 0 <= d.
Hypothesis Hlen : 1 <= n.
Hypothesis Hbig : n + 2 * d < 2 ^ 31.
Definition keeps (a : arr (num A)) : Prop := a_len a = n + 2 * d /\ forall k v, nth_error l k = Some v -> a_at a (d + Z.of_nat k) = v.
Lemma nth_z_gen k v : nth_error l k = Some v -> nth_z A l (Z.of_nat k) = Ok v.
Proof. intros H. unfold nth_z. replace (Z.of_nat k <? 0) with false by lia. rewrite Nat2Z.id, H. reflexivity. Qed.
Lemma g_fill junk : exists a, for_range 0 n (fun ii (kn : arr (num A)) => v <- nth_z A l ii ;; aset kn (d + ii) v) (mk_arr (n + 2 * d) junk) = Ok a /\ keeps a.
Proof.
  destruct (for_range_inv
    (fun i (a : arr (num A)) => a_len a = n + 2 * d /\ forall k v, Z.of_nat k < i -> nth_error l k = Some v -> a_at a (d + Z.of_nat k) = v)
    (fun ii (kn : arr (num A)) => v <- nth_z A l ii ;; aset kn (d + ii) v) 0 n (mk_arr (n + 2 * d) junk)) as (a & E & H1 & H2).
  - lia.
  - split; [reflexivity | intros; lia].
  - intros i a Hi (H1 & H2). destruct (nth_error l (Z.to_nat i)) as [v|] eqn:Ei.
    2: { apply nth_error_None in Ei. unfold n in Hi. lia. }
    pose proof (nth_z_gen (Z.to_nat i) v Ei) as Ez. rewrite Z2Nat.id in Ez by lia. rewrite Ez. cbn [rbind]. rewrite aset_ok by lia.
    eexists. split; [reflexivity|]. cbn [a_len a_at]. split; [exact H1|]. intros k w Hk Hw. destruct (Z.eq_dec (Z.of_nat k) i) as [Ek|].
    + rewrite Ek, upd_eq. replace (Z.to_nat i) with k in Ei by lia. congruence.
    + rewrite upd_neq by lia. apply H2; [lia | exact Hw].
  - exists a. split; [exact E|]. split; [exact H1|]. intros k v Hv. apply H2; [|exact Hv]. assert (k < length l)%nat by (apply nth_error_Some; congruence). unfold n. lia.
Qed.
Lemma keeps_index k v : nth_error l k = Some v -> d <= d + Z.of_nat k < d + n.
Proof. intros H. assert (k < length l)%nat by (apply nth_error_Some; congruence). unfold n. lia. Qed.
Lemma g_periodic period a : keeps a -> exists a', nb_fill_periodic A d (n - 1) period a = Ok a' /\ keeps a'.
Proof.
  intros Ha. unfold nb_fill_periodic.
  match goal with |- context [for_range 1 (d + 1) ?f _] => set (body := f) end.
  destruct (for_range_inv (fun _ => keeps) body 1 (d + 1) a) as (a' & E & H); [lia | exact Ha | | eauto].
  intros i b Hi (Lb & Hb). unfold body. rewrite (aget_ok b) by lia. cbn [rbind]. rewrite (aset_ok b) by lia. cbn [rbind].
  rewrite aget_ok by (cbn [a_len]; lia). cbn [rbind]. rewrite aset_ok by (cbn [a_len]; lia). eexists. split; [reflexivity|].
  split; [exact Lb|]. cbn [a_at]. intros k v Hv. pose proof (keeps_index k v Hv). rewrite !upd_neq by lia. now apply Hb.
Qed.
Lemma g_open x y a : keeps a -> exists a', nb_fill_open A d n x y a = Ok a' /\ keeps a'.
Proof.
  intros Ha. unfold nb_fill_open.
  match goal with |- context [for_range 1 (d + 1) ?f _] => set (body := f) end.
  destruct (for_range_inv (fun _ => keeps) body 1 (d + 1) a) as (a' & E & H); [lia | exact Ha | | eauto].
  intros i b Hi (Lb & Hb). unfold body. rewrite (aset_ok b) by lia. cbn [rbind]. rewrite aset_ok by (cbn [a_len]; lia). eexists. split; [reflexivity|].
  split; [exact Lb|]. cbn [a_at]. intros k v Hv. pose proof (keeps_index k v Hv). rewrite !upd_neq by lia. now apply Hb.
Qed.
Lemma g_construct junk periodic s : nb_construct A junk d periodic l = Ok (Some s) ->
  nb_degree A s = d /\ nb_break_front A s = d /\ nb_break_size A s = n /\
  (forall k v, nth_error l k = Some v -> nb_coord A s (d + Z.of_nat k) = Ok v).
Proof.
  unfold nb_construct. cbv zeta. fold n. destruct (g_fill junk) as (a & -> & Ha). cbn [rbind]. pose proof Ha as (La & _).
  rewrite (aget_ok a) by lia. cbn [rbind]. rewrite (aget_ok a) by lia. cbn [rbind]. unfold assert_. destruct (nltb A _ _); [|discriminate].
  assert (En : npoints_of (n + 2 * d) d = n).
  { unfold npoints_of, u64_sub, u64_mul. rewrite (u64_small (n + 2 * d)), (u64_small (2 * d)) by lia. rewrite u64_small; lia. }
  assert (Ec : ncells_of (n + 2 * d) d = n - 1) by (unfold ncells_of; rewrite En; unfold u64_sub; apply u64_small; lia).
  assert (Hf : forall period x y, exists a', (if periodic then nb_fill_periodic A d (ncells_of (n + 2 * d) d) period a else nb_fill_open A d (npoints_of (n + 2 * d) d) x y a) = Ok a' /\ keeps a').
  { intros. destruct periodic; [rewrite Ec; now apply g_periodic | rewrite En; now apply g_open]. }
  edestruct Hf as (a' & Ea & La' & Ha'). rewrite Ea. cbn [rbind]. unfold ns_construct. destruct (is_sorted A (arr_list a')); [|discriminate].
  intros H. assert (Hinj : forall (x y : option (n_bsplines A)), Ok x = Ok y -> x = y) by congruence. apply Hinj in H.
  injection H as <-. cbn [nb_degree nb_break_front nb_break_size]. repeat (split; [reflexivity|]).
  intros k v Hv. pose proof (keeps_index k v Hv) as Hk. unfold nb_coord. cbn [nb_knots]. unfold ns_coordinate, reference_element.
  cbn [ns_front ns_points].
  rewrite elem_minus_0 by lia. replace (d + Z.of_nat k) with (Z.of_nat (Z.to_nat (d + Z.of_nat k))) by lia.
  unfold nth_z. replace (_ <? 0) with false by lia. rewrite Nat2Z.id.
  unfold arr_list. erewrite map_nth_error; [|apply nth_error_nth' with (d := O); rewrite seq_length; lia]. rewrite seq_nth by lia.
  apply f_equal. replace (Z.of_nat (0 + Z.to_nat (d + Z.of_nat k))) with (d + Z.of_nat k) by lia. now apply Ha'.
Qed.
End Generic.

(** *** non-uniform, binary64 *)
Theorem nu_float_cell : forall junk d periodic (l : list spec_float) s x, 1 <= d -> (2 <= length l)%nat -> Z.of_nat (length l) + 2 * d < 2 ^ 31 ->
  Forall fok l -> strictly_increasing (map fval l) -> fok x ->
  nb_construct FA junk d periodic l = Ok (Some s) ->
  in_range_assert FA x (nth 0 l (S754_zero false)) (nth (length l - 1) l (S754_zero false)) = true ->
  let v k := nth k (map fval l) 0%R in
  exists c, nb_find_cell_start FA s x = Ok (d + Z.of_nat c) /\ (c < length l - 1)%nat /\
    ((v 0%nat <= fval x < v (length l - 1)%nat)%R -> (v c <= fval x < v (c + 1)%nat)%R) /\
    ((fval x < v 0%nat)%R -> c = 0%nat) /\ ((v (length l - 1)%nat <= fval x)%R -> c = (length l - 2)%nat).
Proof.
  intros junk d periodic l s x Hd Hlen Hbig Hfok Hs Hx Ec Hin v.
  pose proof (g_construct FA l d) as G. change (num FA) with spec_float in *.
  destruct (G ltac:(lia) ltac:(lia) ltac:(lia) junk periodic s Ec) as (S1 & S2 & S3 & S4). clear Ec G.
  set (z := S754_zero false) in *.
  assert (Hn : forall k, (k < length l)%nat -> nth_error l k = Some (nth k l z)) by (intros; now apply nth_error_nth').
  assert (Hv : forall k, (k < length l)%nat -> v k = fval (nth k l z)).
  { intros k Hk. unfold v. rewrite (nth_indep (map fval l) 0%R (fval z)) by (rewrite map_length; lia). apply map_nth. }
  assert (Hok : forall k, (k < length l)%nat -> fok (nth k l z)) by (intros; apply (proj1 (Forall_forall _ _) Hfok); now apply nth_In).
  assert (Hst : forall i j, (i < j < length l)%nat -> (v i < v j)%R).
  { intros i j Hij. apply (Hs i j); [lia | |]; unfold v; apply nth_error_nth'; rewrite map_length; lia. }
  set (m := (length l - 1)%nat) in *.
  assert (Eback : nb_break_back FA s = d + Z.of_nat m).
  { unfold nb_break_back. rewrite S2, S3. unfold u64_add, u64_sub. rewrite (u64_small (Z.of_nat (length l))) by lia. rewrite (u64_small (Z.of_nat (length l) - 1)) by lia.
    rewrite u64_small; lia. }
  assert (Emin : nb_rmin FA s = Ok (nth 0 l z)).
  { unfold nb_rmin. rewrite S2. replace d with (d + Z.of_nat 0) by lia. apply S4. apply Hn. lia. }
  assert (Emax : nb_rmax FA s = Ok (nth m l z)) by (unfold nb_rmax; rewrite Eback; apply S4; apply Hn; lia).
  unfold nb_find_cell_start, nb_find_cell_start_fuel. rewrite Emin, Emax. cbn [rbind]. rewrite Hin. unfold assert_. cbn [nleb FA].
  rewrite !fleb_ok by (try assumption; apply Hok; lia). rewrite <- !Hv by lia. rewrite S2, Eback.
  pose proof (Hst 0%nat m ltac:(lia)) as Hfl.
  unfold R_leb at 1. destruct (Rle_dec (fval x) (v 0%nat)) as [H1|H1].
  - exists 0%nat. cbn [rbind]. split; [f_equal; lia|]. split; [lia|]. split; [|split; [reflexivity | lra]].
    intros [Ha Hb]. pose proof (Hst 0%nat (0 + 1)%nat ltac:(lia)). lra.
  - unfold R_leb at 1. destruct (Rle_dec (v m) (fval x)) as [H2|H2].
    + exists (m - 1)%nat. cbn [rbind]. unfold u64_sub. rewrite u64_small by lia. split; [f_equal; lia|]. split; [lia|]. split; [lra|]. split; [lra | lia].
    + destruct (search_ok FA fval s (fun i => v (Z.to_nat (i - d))) (fun i => nth (Z.to_nat (i - d)) l z) d (d + Z.of_nat m) x)
        with (fuel := nb_fuel FA s) (low := d) (high := d + Z.of_nat m) as (c & E & Hc & Hxc).
      * intros i Hi. split; [|now rewrite Hv by lia]. replace i with (d + Z.of_nat (Z.to_nat (i - d))) at 1 by lia. apply S4. apply Hn. lia.
      * intros i Hi. cbn [nltb FA]. rewrite fltb_ok by (try assumption; apply Hok; lia). now rewrite <- Hv by lia.
      * intros i Hi. cbn [nleb FA]. rewrite fleb_ok by (try assumption; apply Hok; lia). now rewrite <- Hv by lia.
      * lia.
      * lia.
      * lia.
      * lia.
      * unfold nb_fuel. rewrite S3. lia.
      * replace (d - d) with 0 by ring. replace (d + Z.of_nat m - d) with (Z.of_nat m) by ring. rewrite Nat2Z.id. change (Z.to_nat 0) with 0%nat. lra.
      * rewrite E. cbn [rbind]. exists (Z.to_nat (c - d)). split; [f_equal; lia|]. split; [lia|].
        replace (Z.to_nat (c + 1 - d)) with (Z.to_nat (c - d) + 1)%nat in Hxc by lia. split; [intros _; exact Hxc | split; lra].
Qed.
