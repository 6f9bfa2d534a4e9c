(** Rounding in the evaluation of periodic splines far from the domain. *)
From Coq Require Import Bool List Floats.SpecFloat.
From Verif Require Import EvaluatorModel.
Import ListNotations.
Local Open Scope Z_scope.

Definition f_tenth : num FA := ndiv FA (nofz FA 1) (nofz FA 10).
Definition f_junk : scratch FA := mk_scratch (A := FA) (fun _ => S754_nan) (fun _ => S754_nan) (fun _ => S754_nan) (fun _ _ => S754_nan) (fun _ _ => S754_nan) (fun _ _ => S754_nan).
Definition f_coef : chunk_1d FA := mk_chunk_1d FA 0 (mk_arr 3 (fun i => nofz FA (i mod 2))).
Lemma float_far_refuted : exists n,
  let x := ndiv FA (nofz FA n) (nofz FA 10) in
  match nb_construct FA (fun _ => S754_nan) 1 true [nofz FA 0; ndiv FA f_tenth (nofz FA 2); f_tenth] with
  | Ok (Some s) =>
      nltb FA x (nofz FA (2 ^ 43)) = true /\
      eval FA (NonUniform s) f_junk (periodic_rule FA) (periodic_rule FA) (ndiv FA f_tenth (nofz FA 2)) f_coef = Ok (nofz FA 1) /\
      eval FA (NonUniform s) f_junk (periodic_rule FA) (periodic_rule FA) x f_coef = Undef
  | _ => False
  end.
Proof. exists 38783060208189. vm_compute. repeat split. Qed.
