(** Instances for the theorems on splines in any number of dimensions. *)
From Coq Require Import Reals ZArith Lia Lra List.
From Verif Require Export SplineNDSpec.
From Verif Require Import Spline2DBuild Spline2DTheorems SplineNDEval SplineNDEval2.
Import ListNotations.
Local Open Scope Z_scope.
Lemma nd_lines n : exists dims, spaces_of dims (repeat line n).
Proof.
  destruct line_builder as (s & bd & B & _). pose proof (builder_space _ _ _ _ B) as Hs.
  pose (m := mk_scratch (A := RA) (fun _ => 0%R) (fun _ => 0%R) (fun _ => 0%R) (fun _ _ => 0%R) (fun _ _ => 0%R) (fun _ _ => 0%R)).
  exists (repeat (s, m) n). induction n as [|n IH]; [constructor|]. constructor; [exact Hs | exact IH].
Qed.
Lemma lines_periodic n : forall c, periodic_nd (repeat line n) c.
Proof. induction n as [|n IH]; intros c; [exact I|]. split; [discriminate|]. intros i _. apply IH. Qed.
Lemma nd_example n : exists d dims, let As := circle_axis :: repeat line n in spaces_of (d :: dims) As /\ length As = S n /\
  (let c := mk_chunk_nd (A := RA) (map (fun _ => 0) As) (map ax_size As) (fun is => fold_right (fun i v => IZR i + 10 * v)%R 1%R (tl is)) in
   has_coefficients_nd c (map ax_size As) /\ periodic_nd As (coefficient_nd c)) /\
  all3 lands As (47%R :: repeat (3 / 2)%R n) (7%R :: repeat (3 / 2)%R n) /\ Forall2 inside As (7%R :: repeat (3 / 2)%R n) /\ Forall2 order_valid As (Some 2 :: repeat (Some 1) n) /\
  mesh (5 :: repeat 0 n) (8 :: repeat 2 n).
Proof.
  destruct circle_builder as (s1 & bd1 & B1). destruct (nd_lines n) as [dims Hd].
  pose (m := mk_scratch (A := RA) (fun _ => 0%R) (fun _ => 0%R) (fun _ => 0%R) (fun _ _ => 0%R) (fun _ _ => 0%R) (fun _ _ => 0%R)).
  exists (s1, m), dims. cbn zeta. split; [constructor; [exact (builder_space _ _ _ _ B1) | exact Hd]|]. split; [cbn [length]; rewrite repeat_length; reflexivity|].
  split; [|split; [|split; [|split]]].
  - split; [split; [cbn [map cn_fronts]; rewrite map_map; reflexivity | reflexivity]|]. split.
    + intros _ is _ i Hi. reflexivity.
    + intros i _. apply lines_periodic.
  - split; [split; [cbn; lra|]; cbn; exists 2; lra|]. clear. induction n as [|n IH]; [exact I|]. split; [split; cbn; [lra | reflexivity] | exact IH].
  - constructor; [split; cbn; lra|]. clear. induction n as [|n IH]; constructor; [split; cbn; lra | exact IH].
  - constructor; [split; [cbn; lia | vm_compute; reflexivity]|]. clear. induction n as [|n IH]; constructor; [split; [cbn; lia | vm_compute; reflexivity] | exact IH].
  - constructor; [lia|]. clear. induction n as [|n IH]; constructor; [lia | exact IH].
Qed.
