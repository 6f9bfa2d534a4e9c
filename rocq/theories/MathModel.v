(** Model of src/ddc/kernels/splines/math_tools.hpp. *)
From Verif Require Export ArithModel.

Section Math.
Context (A : arith).
Notation num := (num A).
(** math_tools.hpp:14-54: the sum of the entries of an array (the three overloads run the same loop; the one with
    bounds visits [start, end)). *)
Definition sum (array : list num) : num := fold_left (fun val x => (val + x)%N_) array (nofz A 0).
(** See math_tools.hpp:14-54. *)
Definition sum_range (array : list num) (start end_ : nat) : num := sum (firstn (end_ - start) (skipn start array)).
(** [Kokkos::floor] followed by its use as an integer. *)
Definition nfloor (x : num) : Z := let t := ntrunc A x in if nltb A x (nofz A t) then t - 1 else t.
(** math_tools.hpp:56-60, for T = int: [x - y * floor(double(x) / y)] is computed in double precision and converted to
    [int]. *)
Definition modulo (x y : Z) : Z :=
  ntrunc A (nofz A x - nofz A y * nofz A (nfloor (nofz A x / nofz A y)))%N_.
(** math_tools.hpp:62-69 *)
Definition ipow_size (a : num) (i : nat) : num := Nat.iter i (fun r => (r * a)%N_) (nofz A 1).
(** math_tools.hpp:71-85: the negation of the smallest [int] is undefined. *)
Definition ipow (a : num) (i : Z) : res num :=
  if 0 <? i then Ok (Nat.iter (Z.to_nat i) (fun r => (r * a)%N_) (nofz A 1))
  else if i <? 0 then
    if i =? - 2 ^ 31 then Undef
    else Ok (nofz A 1 / Nat.iter (Z.to_nat (- i)) (fun r => (r * a)%N_) (nofz A 1))%N_
  else Ok (nofz A 1).
(** math_tools.hpp:96-104 *)
Definition dot_product (a b : list num) : num :=
  fold_left (fun r p => (r + fst p * snd p)%N_) (combine a b) (nofz A 0).
(** math_tools.hpp:106-116 *)
Definition min_ (x y : num) : num := if nltb A x y then x else y.
(** See math_tools.hpp:106-116. *)
Definition max_ (x y : num) : num := if nltb A y x then x else y.
End Math.
(** math_tools.hpp:87-94: [std::size_t] arithmetic.  [fuel] bounds the number of iterations of the loop (it is proved
    sufficient). *)
Fixpoint factorial_loop (fuel : nat) (i bound r : Z) : Z :=
  match fuel with
  | O => r
  | S fuel' => if i <? bound then factorial_loop fuel' (u64_add i 1) bound (u64_mul r i) else r
  end.
(** See math_tools.hpp:87-94. *)
Definition factorial (f : Z) : Z := factorial_loop (Z.to_nat f) 2 (u64_add f 1) 1.
