(** Loops on the slices of a chunk of three dimensions. *)
From Coq Require Import Bool Reals ZArith Lia ZifyBool List.
From Verif Require Export Spline3DSpec.
From Verif Require Import LoopProofs LinearProofs2 Spline2DProofs.
Import ListNotations.
Local Open Scope Z_scope.

Section Generic.
Context (slice : chunk_nd RA -> Z -> res (chunk_2d RA)) (put : chunk_nd RA -> Z -> chunk_2d RA -> chunk_nd RA) (the : chunk_nd RA -> Z -> chunk_2d RA)
  (elt : chunk_nd RA -> Z -> Z -> Z -> R) (F N : list Z) (front n : Z) (f : Z -> Z -> chunk_2d RA -> res (chunk_2d RA)).
Hypothesis (Hn : 0 <= n) (Hget : forall c k, on_mesh c F N -> 0 <= k < n -> slice c (u64_add front k) = Ok (the c k))
  (Hput : forall c k l, on_mesh c F N -> 0 <= k < n ->
    on_mesh (put c (u64_add front k) l) F N /\ forall k' a b, elt (put c (u64_add front k) l) k' a b = if k' =? k then a2_at (c2_vals l) a b else elt c k' a b).
Definition slice_done (r : chunk_nd RA) (k : Z) : Prop :=
  exists r0 l, on_mesh r0 F N /\ f k (u64_add front k) (the r0 k) = Ok l /\ forall a b, elt r k a b = a2_at (c2_vals l) a b.
Lemma slices_step r k l : on_mesh r F N -> 0 <= k < n -> (forall j, 0 <= j < k -> slice_done r j) -> f k (u64_add front k) (the r k) = Ok l ->
  on_mesh (put r (u64_add front k) l) F N /\ forall j, 0 <= j < k + 1 -> slice_done (put r (u64_add front k) l) j.
Proof.
  intros Hr Hk Hd E. destruct (Hput r k l Hr Hk) as [P1 P2]. split; [exact P1|]. intros j Hj. destruct (Z.eq_dec j k) as [->|Hne].
  - exists r, l. split; [exact Hr|]. split; [exact E|]. intros a b. rewrite P2, Z.eqb_refl. reflexivity.
  - destruct (Hd j ltac:(lia)) as (r0 & l0 & H1 & H2 & H3). exists r0, l0. split; [exact H1|]. split; [exact H2|]. intros a b. rewrite P2. replace (j =? k) with false by lia. apply H3.
Qed.
Lemma slices_sound sp r : on_mesh sp F N -> map_slices RA slice put front n f sp = Ok r -> on_mesh r F N /\ forall k, 0 <= k < n -> slice_done r k.
Proof.
  intros Hsp E. unfold map_slices in E. pattern r at 1 2. revert E. apply (for_range_hoare (fun k r => on_mesh r F N /\ forall j, 0 <= j < k -> slice_done r j)); [exact Hn | |].
  - split; [exact Hsp | lia].
  - intros k t t' Hk [Ht Hd] E. rewrite (Hget t k Ht Hk) in E. cbn [rbind] in E. destruct (f k (u64_add front k) (the t k)) as [l| |] eqn:El; cbn [rbind] in E; [|discriminate..].
    assert (Hinj : forall x y : chunk_nd RA, Ok x = Ok y -> x = y) by congruence. apply Hinj in E. subst t'. exact (slices_step t k l Ht Hk Hd El).
Qed.
Lemma slices_total sp : on_mesh sp F N -> (forall r k, on_mesh r F N -> 0 <= k < n -> exists l, f k (u64_add front k) (the r k) = Ok l) ->
  exists r, map_slices RA slice put front n f sp = Ok r.
Proof.
  intros Hsp Hf. unfold map_slices.
  destruct (for_range_inv (fun k r => on_mesh r F N /\ forall j, 0 <= j < k -> slice_done r j) (fun k spline => let e := u64_add front k in l <- slice spline e ;; l <- f k e l ;; Ok (put spline e l)) 0 n sp Hn) as (r & E & _).
  - split; [exact Hsp | lia].
  - intros k t Hk [Ht Hd]. cbv zeta. rewrite (Hget t k Ht Hk). cbn [rbind]. destruct (Hf t k Ht Hk) as [l El]. rewrite El. cbn [rbind]. eexists. split; [reflexivity|]. exact (slices_step t k l Ht Hk Hd El).
  - exists r. exact E.
Qed.
End Generic.

(** Slices at the elements of the third dimension, and of the first. *)
Definition the_slice3 (c : chunk_nd RA) (k : Z) : chunk_2d RA :=
  mk_chunk_2d (A := RA) (nth 0 (cn_fronts c) 0) (nth 1 (cn_fronts c) 0) (mk_arr2 (nth 0 (cn_sizes c) 0) (nth 1 (cn_sizes c) 0) (fun i j => cn_at c [i; j; k])).
Definition the_slice1 (c : chunk_nd RA) (i : Z) : chunk_2d RA :=
  mk_chunk_2d (A := RA) (nth 1 (cn_fronts c) 0) (nth 2 (cn_fronts c) 0) (mk_arr2 (nth 1 (cn_sizes c) 0) (nth 2 (cn_sizes c) 0) (fun j k => cn_at c [i; j; k])).
Lemma slice3_ok c f1 f2 f3 n1 n2 n3 k : on_mesh c [f1; f2; f3] [n1; n2; n3] -> 0 <= k < n3 -> n3 < 2 ^ 62 -> slice3 RA c (u64_add f3 k) = Ok (the_slice3 c k).
Proof.
  intros [H1 H2] Hk Hn. unfold slice3, the_slice3. rewrite H1, H2. cbv zeta. rewrite elem_of_front by lia. replace ((0 <=? k) && (k <? n3))%bool with true by lia. reflexivity.
Qed.
Lemma slice1_ok c f1 f2 f3 n1 n2 n3 i : on_mesh c [f1; f2; f3] [n1; n2; n3] -> 0 <= i < n1 -> n1 < 2 ^ 62 -> slice1 RA c (u64_add f1 i) = Ok (the_slice1 c i).
Proof.
  intros [H1 H2] Hk Hn. unfold slice1, the_slice1. rewrite H1, H2. cbv zeta. rewrite elem_of_front by lia. replace ((0 <=? i) && (i <? n1))%bool with true by lia. reflexivity.
Qed.
Definition opt_the (the : chunk_nd RA -> Z -> chunk_2d RA) (c : option (chunk_nd RA)) (k : Z) : option (chunk_2d RA) := match c with None => None | Some c => Some (the c k) end.
(** All given chunks have these dimensions two and three; one and two and three. *)
Definition batch23 (c : option (chunk_nd RA)) (f2 f3 n2 n3 : Z) : Prop := match c with None => True | Some c => exists f1 n1, on_mesh c [f1; f2; f3] [n1; n2; n3] end.
Definition batch_1 (c : option (chunk_nd RA)) (f1 n1 : Z) : Prop := match c with None => True | Some c => exists f2 f3 n2 n3, on_mesh c [f1; f2; f3] [n1; n2; n3] end.
Lemma opt_slice3_ok c f2 f3 n2 n3 k : batch23 c f2 f3 n2 n3 -> 0 <= k < n3 -> n3 < 2 ^ 62 -> opt_slice RA (slice3 RA) c (u64_add f3 k) = Ok (opt_the the_slice3 c k).
Proof. destruct c as [c|]; [|reflexivity]. intros (f1 & n1 & H) Hk Hn. cbn [opt_slice]. rewrite (slice3_ok c f1 f2 f3 n1 n2 n3 k H Hk Hn). reflexivity. Qed.
Lemma opt_slice1_ok c f1 n1 i : batch_1 c f1 n1 -> 0 <= i < n1 -> n1 < 2 ^ 62 -> opt_slice RA (slice1 RA) c (u64_add f1 i) = Ok (opt_the the_slice1 c i).
Proof. destruct c as [c|]; [|reflexivity]. intros (f2 & f3 & n2 & n3 & H) Hk Hn. cbn [opt_slice]. rewrite (slice1_ok c f1 f2 f3 n1 n2 n3 i H Hk Hn). reflexivity. Qed.
Lemma put3_ok c f1 f2 f3 n1 n2 n3 k l : on_mesh c [f1; f2; f3] [n1; n2; n3] -> 0 <= k < 2 ^ 62 ->
  on_mesh (put_slice3 RA c (u64_add f3 k) l) [f1; f2; f3] [n1; n2; n3] /\
  forall k' a b, cn_at (put_slice3 RA c (u64_add f3 k) l) [a; b; k'] = if k' =? k then a2_at (c2_vals l) a b else cn_at c [a; b; k'].
Proof.
  intros [H1 H2] Hk. split; [split; cbn; assumption|]. intros k' a b. unfold put_slice3. cbv zeta. rewrite H1. cbn [nth cn_at]. rewrite elem_of_front by lia. reflexivity.
Qed.
Lemma put1_ok c f1 f2 f3 n1 n2 n3 i l : on_mesh c [f1; f2; f3] [n1; n2; n3] -> 0 <= i < 2 ^ 62 ->
  on_mesh (put_slice1 RA c (u64_add f1 i) l) [f1; f2; f3] [n1; n2; n3] /\
  forall i' a b, cn_at (put_slice1 RA c (u64_add f1 i) l) [i'; a; b] = if i' =? i then a2_at (c2_vals l) a b else cn_at c [i'; a; b].
Proof.
  intros [H1 H2] Hk. split; [split; cbn; assumption|]. intros k' a b. unfold put_slice1. cbv zeta. rewrite H1. cbn [nth cn_at]. rewrite elem_of_front by lia. reflexivity.
Qed.
Lemma slices3_sound f1 f2 f3 n1 n2 n3 f sp r : 0 <= n3 < 2 ^ 62 -> on_mesh sp [f1; f2; f3] [n1; n2; n3] -> map_slices RA (slice3 RA) (put_slice3 RA) f3 n3 f sp = Ok r ->
  on_mesh r [f1; f2; f3] [n1; n2; n3] /\ forall k, 0 <= k < n3 -> exists junk l, f k (u64_add f3 k) (mk_chunk_2d (A := RA) f1 f2 (mk_arr2 n1 n2 junk)) = Ok l /\ forall i j, cn_at r [i; j; k] = a2_at (c2_vals l) i j.
Proof.
  intros Hn Hsp E.
  destruct (slices_sound (slice3 RA) (put_slice3 RA) the_slice3 (fun c k a b => cn_at c [a; b; k]) [f1; f2; f3] [n1; n2; n3] f3 n3 f) with (sp := sp) (r := r) as [H1 H2]; [lia | | | exact Hsp | exact E|].
  - intros c k Hc Hk. apply (slice3_ok c f1 f2 f3 n1 n2 n3); [exact Hc | exact Hk | lia].
  - intros c k l Hc Hk. destruct (put3_ok c f1 f2 f3 n1 n2 n3 k l Hc) as [P1 P2]; [lia|]. split; [exact P1|]. intros k' a b. apply P2.
  - split; [exact H1|]. intros k Hk. destruct (H2 k Hk) as (r0 & l & [R1 R2] & R3 & R4). unfold the_slice3 in R3. rewrite R1, R2 in R3. cbn [nth] in R3. exists (fun i j => cn_at r0 [i; j; k]), l. split; [exact R3 | exact R4].
Qed.
Lemma slices3_total f1 f2 f3 n1 n2 n3 f sp : 0 <= n3 < 2 ^ 62 -> on_mesh sp [f1; f2; f3] [n1; n2; n3] ->
  (forall k junk, 0 <= k < n3 -> exists l, f k (u64_add f3 k) (mk_chunk_2d (A := RA) f1 f2 (mk_arr2 n1 n2 junk)) = Ok l) -> exists r, map_slices RA (slice3 RA) (put_slice3 RA) f3 n3 f sp = Ok r.
Proof.
  intros Hn Hsp Hf. apply (slices_total (slice3 RA) (put_slice3 RA) the_slice3 (fun c k a b => cn_at c [a; b; k]) [f1; f2; f3] [n1; n2; n3]); [lia | | | exact Hsp|].
  - intros c k Hc Hk. apply (slice3_ok c f1 f2 f3 n1 n2 n3); [exact Hc | exact Hk | lia].
  - intros c k l Hc Hk. destruct (put3_ok c f1 f2 f3 n1 n2 n3 k l Hc) as [P1 P2]; [lia|]. split; [exact P1|]. intros k' a b. apply P2.
  - intros r k [R1 R2] Hk. unfold the_slice3. rewrite R1, R2. cbn [nth]. apply Hf. exact Hk.
Qed.
Lemma slices1_sound f1 f2 f3 n1 n2 n3 f sp r : 0 <= n1 < 2 ^ 62 -> on_mesh sp [f1; f2; f3] [n1; n2; n3] -> map_slices RA (slice1 RA) (put_slice1 RA) f1 n1 f sp = Ok r ->
  on_mesh r [f1; f2; f3] [n1; n2; n3] /\ forall i, 0 <= i < n1 -> exists junk l, f i (u64_add f1 i) (mk_chunk_2d (A := RA) f2 f3 (mk_arr2 n2 n3 junk)) = Ok l /\ forall j k, cn_at r [i; j; k] = a2_at (c2_vals l) j k.
Proof.
  intros Hn Hsp E.
  destruct (slices_sound (slice1 RA) (put_slice1 RA) the_slice1 (fun c i a b => cn_at c [i; a; b]) [f1; f2; f3] [n1; n2; n3] f1 n1 f) with (sp := sp) (r := r) as [H1 H2]; [lia | | | exact Hsp | exact E|].
  - intros c k Hc Hk. apply (slice1_ok c f1 f2 f3 n1 n2 n3); [exact Hc | exact Hk | lia].
  - intros c k l Hc Hk. destruct (put1_ok c f1 f2 f3 n1 n2 n3 k l Hc) as [P1 P2]; [lia|]. split; [exact P1|]. intros k' a b. apply P2.
  - split; [exact H1|]. intros k Hk. destruct (H2 k Hk) as (r0 & l & [R1 R2] & R3 & R4). unfold the_slice1 in R3. rewrite R1, R2 in R3. cbn [nth] in R3. exists (fun a b => cn_at r0 [k; a; b]), l. split; [exact R3 | exact R4].
Qed.
Lemma slices1_total f1 f2 f3 n1 n2 n3 f sp : 0 <= n1 < 2 ^ 62 -> on_mesh sp [f1; f2; f3] [n1; n2; n3] ->
  (forall i junk, 0 <= i < n1 -> exists l, f i (u64_add f1 i) (mk_chunk_2d (A := RA) f2 f3 (mk_arr2 n2 n3 junk)) = Ok l) -> exists r, map_slices RA (slice1 RA) (put_slice1 RA) f1 n1 f sp = Ok r.
Proof.
  intros Hn Hsp Hf. apply (slices_total (slice1 RA) (put_slice1 RA) the_slice1 (fun c i a b => cn_at c [i; a; b]) [f1; f2; f3] [n1; n2; n3]); [lia | | | exact Hsp|].
  - intros c k Hc Hk. apply (slice1_ok c f1 f2 f3 n1 n2 n3); [exact Hc | exact Hk | lia].
  - intros c k l Hc Hk. destruct (put1_ok c f1 f2 f3 n1 n2 n3 k l Hc) as [P1 P2]; [lia|]. split; [exact P1|]. intros k' a b. apply P2.
  - intros r k [R1 R2] Hk. unfold the_slice1. rewrite R1, R2. cbn [nth]. apply Hf. exact Hk.
Qed.
