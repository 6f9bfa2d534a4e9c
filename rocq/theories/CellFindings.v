(** Uniform cells in double precision: witnesses. *)
From Coq Require Import Bool Reals Lia Lra ZifyBool List Floats.SpecFloat.
From Verif Require Import BSplineModel BSplineSpec FloatLink.
Import ListNotations.
Local Open Scope Z_scope.

Definition s_out : u_bsplines FA :=
  mk_ub FA 3 false (mk_us FA (S754_finite true 6967833385743032 (-53)) (S754_finite false 8327410631741672 (-53)) 0) 0 3 107.
Lemma s_out_is : ub_construct FA 0%nat 3 false (nofz FA 2) (nofz FA 100) 106 = Ok s_out.
Proof. exact (eq_refl (Ok s_out) <: ub_construct FA 0%nat 3 false (nofz FA 2) (nofz FA 100) 106 = Ok s_out). Qed.
Lemma s_out_facts : (ub_ncells FA s_out, ub_size FA s_out, nleb FA (ub_rmin FA s_out) (nofz FA 100), nleb FA (nofz FA 100) (ub_rmax FA s_out)) = (106, 109, true, true).
Proof. exact (eq_refl ((106, 109, true, true)) <: (ub_ncells FA s_out, ub_size FA s_out, nleb FA (ub_rmin FA s_out) (nofz FA 100), nleb FA (nofz FA 100) (ub_rmax FA s_out)) = (106, 109, true, true)). Qed.
Lemma s_out_cell : ub_icell_and_offset FA s_out (nofz FA 100) = Ok (106, S754_finite false 4503599627370496 (-98)).
Proof. exact (eq_refl (Ok (106, S754_finite false 4503599627370496 (-98))) <: ub_icell_and_offset FA s_out (nofz FA 100) = Ok (106, S754_finite false 4503599627370496 (-98))). Qed.
Definition s_in : u_bsplines FA :=
  mk_ub FA 1 false (mk_us FA (S754_finite true 4687420020324394 (-52)) (S754_finite false 5882252574524729 (-57)) 0) 0 1 50.
Definition x_in : spec_float := S754_finite false 9007199254740991 (-53).
Lemma s_in_is : ub_construct FA 0%nat 1 false (nofz FA (-1)) (nofz FA 1) 49 = Ok s_in.
Proof. exact (eq_refl (Ok s_in) <: ub_construct FA 0%nat 1 false (nofz FA (-1)) (nofz FA 1) 49 = Ok s_in). Qed.
Lemma s_in_facts : (ub_ncells FA s_in, ub_size FA s_in, nltb FA (ub_rmin FA s_in) x_in, nltb FA x_in (ub_rmax FA s_in), nltb FA x_in (nofz FA 1)) = (49, 50, true, true, true).
Proof. exact (eq_refl ((49, 50, true, true, true)) <: (ub_ncells FA s_in, ub_size FA s_in, nltb FA (ub_rmin FA s_in) x_in, nltb FA x_in (ub_rmax FA s_in), nltb FA x_in (nofz FA 1)) = (49, 50, true, true, true)). Qed.
Lemma s_in_cell : ub_icell_and_offset FA s_in x_in = Ok (49, S754_finite false 4503599627370496 (-99)).
Proof. exact (eq_refl (Ok (49, S754_finite false 4503599627370496 (-99))) <: ub_icell_and_offset FA s_in x_in = Ok (49, S754_finite false 4503599627370496 (-99))). Qed.

(** [rmin = 2, rmax = 100], 106 cells, evaluated at [100], the end of the domain asked for. *)
Theorem uniform_cell_out_of_range : exists d periodic rmin rmax n s j off,
  ub_construct FA 0%nat d periodic (nofz FA rmin) (nofz FA rmax) n = Ok s /\ rmin < rmax /\ 1 <= d /\ 1 <= n /\ ub_ncells FA s = n /\
  nleb FA (ub_rmin FA s) (nofz FA rmax) = true /\ nleb FA (nofz FA rmax) (ub_rmax FA s) = true /\
  ub_icell_and_offset FA s (nofz FA rmax) = Ok (j, off) /\ n <= j /\ ub_size FA s <= j + d.
Proof.
  exists 3, false, 2, 100, 106, s_out, 106, (S754_finite false 4503599627370496 (-98)).
  pose proof s_out_is as H1. pose proof s_out_facts as H2. pose proof s_out_cell as H3.
  generalize dependent s_out. intros s H1 H2 H3. injection H2 as E1 E2 E3 E4. rewrite E2. repeat split; try assumption; lia.
Qed.
(** [rmin = -1, rmax = 1], 49 cells, at the largest double below [1], strictly inside the domain. *)
Theorem uniform_cell_out_of_range_inside : exists d periodic rmin rmax n s x j off,
  ub_construct FA 0%nat d periodic (nofz FA rmin) (nofz FA rmax) n = Ok s /\ rmin < rmax /\ 1 <= d /\ 1 <= n /\ ub_ncells FA s = n /\
  fok x /\ nltb FA (ub_rmin FA s) x = true /\ nltb FA x (ub_rmax FA s) = true /\ nltb FA x (nofz FA rmax) = true /\
  ub_icell_and_offset FA s x = Ok (j, off) /\ n <= j /\ ub_size FA s <= j + d.
Proof.
  exists 1, false, (-1), 1, 49, s_in, x_in, 49, (S754_finite false 4503599627370496 (-99)).
  assert (Hx : fok x_in) by (split; reflexivity).
  pose proof s_in_is as H1. pose proof s_in_facts as H2. pose proof s_in_cell as H3.
  generalize dependent s_in. generalize dependent x_in. intros x Hx s H1 H2 H3. injection H2 as E1 E2 E3 E4 E5. rewrite E2. repeat split; try assumption; try lia; apply Hx.
Qed.
