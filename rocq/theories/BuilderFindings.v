(** Runs of the builder in rational arithmetic that exhibit the limits of C41, C42, C43 and C53. *)
From Coq Require Import Bool List QArith.
From Verif Require Import BuilderModel.
Import ListNotations.
Local Open Scope Z_scope.

Definition q_junk : scratch QA := mk_scratch (A := QA) (fun _ => 7 # 1)%Q (fun _ => 7 # 1)%Q (fun _ => 7 # 1)%Q (fun _ _ => 7 # 1)%Q (fun _ _ => 7 # 1)%Q (fun _ _ => 7 # 1)%Q.
(** The coordinates of a list of points, from the position [start]. *)
Definition listed (start : Z) (l : list Q) (i : Z) : res Q :=
  if (start <=? i) && (i <? start + Z.of_nat (length l)) then match nth_error l (Z.to_nat (i - start)) with Some x => Ok x | None => Undef end else Undef.
(** A periodic space on the given break points with the library's own interpolation points. *)
Definition with_greville (d : Z) (l : list Q) (P : bspline_space QA -> list Q -> Prop) : Prop :=
  match nb_construct QA (fun _ => 9 # 1)%Q d true l with
  | Ok (Some s) => match ng_points_with_bcs QA 7%nat PERIODIC PERIODIC s with Ok (Some p) => P (NonUniform s) (ns_points QA p) | _ => False end
  | _ => False
  end.

(** C41: one long cell among equal ones, degree 4. *)
Lemma graded : with_greville 4 (map inject_Z [0; 1; 2; 3; 7; 8; 9; 10; 11; 12; 13; 14; 15; 16; 17]) (fun s points =>
  builder_construct QA s q_junk LAPACK PERIODIC PERIODIC 0 14 (listed 0 points) = Undef /\
  match builder_construct QA s q_junk GINKGO PERIODIC PERIODIC 0 14 (listed 0 points) with Ok _ => True | _ => False end).
Proof. vm_compute. split; [reflexivity | exact I]. Qed.

(** Cramer's rule, as the external solver. *)
Fixpoint q_det (n : nat) (a : Z -> Z -> Q) : Q :=
  match n with
  | O => (1 # 1)%Q
  | S n' => fold_left (fun r k => let k := Z.of_nat k in
      Qred (r + inject_Z (if k mod 2 =? 0 then 1 else -1) * a 0%Z k * q_det n' (fun i j => a (i + 1)%Z (if j <? k then j else j + 1)%Z))%Q) (seq 0 n) (0 # 1)%Q
  end.
Definition q_cramer (m : arr2 Q) (tr : bool) (b : arr Q) : res (arr Q) :=
  let a i j := if tr then a2_at m j i else a2_at m i j in
  let n := Z.to_nat (a_len b) in
  Ok (mk_arr (a_len b) (fun k => Qred (q_det n (fun i j => if j =? k then a_at b i else a i j) / q_det n a)%Q)).
Definition q_solvers : solvers QA := mk_solvers (A := QA) (fun _ _ _ => Undef) (fun _ _ _ _ _ => Undef) (fun _ _ => Undef) (fun _ _ _ => Undef) q_cramer.
Definition q_chunk (n : Z) : chunk_1d QA := mk_chunk_1d QA 0 (mk_arr n (fun _ => 7 # 1)%Q).
(** C43: cells of lengths 1, 1, 2, 4. *)
Lemma rotated : with_greville 2 (map inject_Z [0; 1; 2; 4; 8]) (fun s points =>
  match builder_construct QA s q_junk GINKGO PERIODIC PERIODIC 0 4 (listed 0 points) with
  | Ok bd =>
      let v := mk_arr 4 (fun i => if i =? 0 then (1 # 1)%Q else (0 # 1)%Q) in
      match build QA s PERIODIC PERIODIC q_solvers bd (fun _ => 7 # 1)%Q (q_chunk 6) v None None,
            quadrature_coefficients QA s q_junk PERIODIC PERIODIC q_solvers bd 3%nat (fun _ => 7 # 1)%Q (fun _ => 7 # 1)%Q with
      | Ok c, Ok (_, w, _) =>
          bd_offset bd = 1 /\
          map (fun x => eval QA s q_junk (periodic_rule QA) (periodic_rule QA) x c) (firstn 4 points) = [Ok (1 # 1)%Q; Ok (0 # 1)%Q; Ok (0 # 1)%Q; Ok (0 # 1)%Q] /\
          match integrate QA s q_junk 3%nat (fun _ => 7 # 1)%Q 0 6 1 (fun _ => c) (mk_arr 1 (fun _ => 7 # 1)%Q) with
          | Ok out => a_at out 0 = (150 # 101)%Q /\ a_at w 0 = (2029 # 1212)%Q
          | _ => False end
      | _, _ => False end
  | _ => False end).
Proof. vm_compute. repeat split. Qed.


(** The coordinates k, for uniform B-splines on [0, n] and odd degrees. *)
Definition whole (k : Z) : res Q := Ok (inject_Z k).
(** C53: as many cells as the degree: the first and the last B-splines of a cell have the same column, and the entry written last stays. *)
Lemma aliased : forall solver, match ub_construct QA 3%nat 3 true (0 # 1)%Q (3 # 1)%Q 3 with
  | Ok s =>
      match builder_construct QA (Uniform s) q_junk solver PERIODIC PERIODIC 0 3 whole with
      | Ok bd => map (get_element QA (bd_matrix bd) 0) [0; 1; 2] = [Ok (2 # 3)%Q; Ok (1 # 6)%Q; Ok (0 # 1)%Q]
      | _ => False end
  | _ => False end.
Proof. intros [|]; vm_compute; reflexivity. Qed.
(** C41: the spline built from the values 1, 1, 1. *)
Lemma aliased_spline : match ub_construct QA 3%nat 3 true (0 # 1)%Q (3 # 1)%Q 3 with
  | Ok s =>
      match builder_construct QA (Uniform s) q_junk GINKGO PERIODIC PERIODIC 0 3 whole with
      | Ok bd =>
          match build QA (Uniform s) PERIODIC PERIODIC q_solvers bd (fun _ => 7 # 1)%Q (q_chunk 6) (mk_arr 3 (fun _ => 1 # 1)%Q) None None with
          | Ok c => map (fun x => eval QA (Uniform s) q_junk (periodic_rule QA) (periodic_rule QA) x c) (map inject_Z [0; 1; 2]) = [Ok (6 # 5)%Q; Ok (6 # 5)%Q; Ok (6 # 5)%Q]
          | _ => False end
      | _ => False end
  | _ => False end.
Proof. vm_compute. reflexivity. Qed.
(** Fewer cells than the degree: the point whose position gives the offset is not in the domain. *)
Lemma few_cells : forall solver, match ub_construct QA 3%nat 3 true (0 # 1)%Q (2 # 1)%Q 2 with
  | Ok s => builder_construct QA (Uniform s) q_junk solver PERIODIC PERIODIC 0 2 whole = Undef
  | _ => False end.
Proof. intros [|]; vm_compute; reflexivity. Qed.
(** C42: an empty cell hides the three points of the cell [2, 3]. *)
Lemma hidden : match ub_construct QA 3%nat 1 false (0 # 1)%Q (3 # 1)%Q 3 with
  | Ok s => match builder_construct QA (Uniform s) q_junk GINKGO GREVILLE GREVILLE 0 4 (listed 0 [1 # 2; 2 # 1; 23 # 10; 26 # 10]%Q) with Ok _ => True | _ => False end
  | _ => False end.
Proof. vm_compute. exact I. Qed.

(** C41: the library's own domain of derivatives, for an even degree. *)
Lemma own_derivs_domain (A : arith) (s : bspline_space A) lower upper X bd junk spline vals dl du :
  let own c := fun w => c1_front A w = fst (derivs_domain A s c) /\ c1_size A w = snd (derivs_domain A s c) in
  bs_degree A s mod 2 = 0 ->
  (lower = HERMITE /\ exists w, dl = Some w /\ own lower w) \/ (upper = HERMITE /\ exists w, du = Some w /\ own upper w) ->
  build A s lower upper X bd junk spline vals dl du = Undef.
Proof.
  intros own Heven H. unfold build. destruct (a_len vals =? _); [|reflexivity]. cbn [assert_].
  assert (E : check_derivs A s lower dl && check_derivs A s upper du = false); [|now rewrite E].
  destruct H as [(-> & w & -> & Hw & _)|(-> & w & -> & Hw & _)]; apply andb_false_iff; [left|right];
    cbn [check_derivs]; rewrite Hw; unfold s_odd; now rewrite Heven.
Qed.
(** Degree 2 on [0, 3], three cells, values at 1/2, 3/2, 5/2 and the derivative of order 0 (the value) at both bounds. *)
Definition halves (k : Z) : res Q := Ok (Qred (inject_Z k + (1 # 2)))%Q.
Definition derivs_from (first : Z) : option (chunk_1d QA) := Some (mk_chunk_1d QA first (mk_arr 1 (fun _ => 1 # 1)%Q)).
Lemma own_derivs_domain_ex : match ub_construct QA 3%nat 2 false (0 # 1)%Q (3 # 1)%Q 3 with
  | Ok s =>
      match builder_construct QA (Uniform s) q_junk GINKGO HERMITE HERMITE 0 3 halves with
      | Ok bd =>
          let run first := build QA (Uniform s) HERMITE HERMITE q_solvers bd (fun _ => 7 # 1)%Q (q_chunk 5) (mk_arr 3 (fun _ => 1 # 1)%Q) (derivs_from first) (derivs_from first) in
          derivs_domain QA (Uniform s) HERMITE = (1, 1) /\ run 1 = Undef /\
          match run 0 with Ok c => map (fun i => a_at (c1_vals QA c) i) [0; 1; 2; 3; 4] = [1; 1; 1; 1; 1]%Q | _ => False end
      | _ => False end
  | _ => False end.
Proof. vm_compute. repeat split. Qed.
