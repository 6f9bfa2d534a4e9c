(** Model of src/ddc/kernels/splines/bsplines_uniform.hpp and bsplines_non_uniform.hpp.
    The discrete spaces of knots are samplings (SamplingModel), given explicitly instead of being global.
    A discrete domain of one dimension is given by its front and its size (DomainModel has the general
    case). *)
From Verif Require Export ArithModel LoopModel SamplingModel.

Section BSplines.
Context (A : arith).
Notation num := (num A).
Definition tolerance : num := (nofz A 1 / nofz A (10 ^ 14))%N_.  (* 1e-14 *)
Definition neq_ (x y : num) : bool := nleb A x y && nleb A y x.   (* == *)
(** [KOKKOS_ASSERT(x - rmin() >= -length() * 1e-14)] and [KOKKOS_ASSERT(rmax() - x >= -length() * 1e-14)]. *)
Definition in_range_assert (x rmin rmax : num) : bool :=
  let length := (rmax - rmin)%N_ in
  nleb A (- length * tolerance)%N_ (x - rmin)%N_ && nleb A (- length * tolerance)%N_ (rmax - x)%N_.

(** ** bsplines_uniform.hpp *)
(** bsplines_uniform.hpp:121-124: [m_knot_domain] starts at 0; [m_break_point_domain]; [m_reference] is 0 (135-136). *)
Record u_bsplines := mk_ub {
  ub_degree : Z; ub_periodic : bool; ub_knots : uniform_sampling A;
  ub_knot_front : Z; ub_break_front : Z; ub_break_size : Z }.
(** Auxiliary: the element of a one-dimensional front. *)
Definition front_of (d : domain) : res Z := one_elem (front d).
(** Auxiliary: the extent of a one-dimensional domain. *)
Definition size_of (d : domain) : res Z := e <- extents d ;; one_elem e.
(** bsplines_uniform.hpp:135-148; [q] is the tag of the dimension of the knots; [ncells + 1] and [degree()] are converted to
    [DiscreteVectorElement]. *)
Definition ub_construct (q : tag) (degree : Z) (periodic : bool) (rmin rmax : num) (ncells : Z) : res u_bsplines :=
  assert_ (0 <? ncells)
    (' (disc, g) <- us_init_ghosted A q rmin rmax (i64 (u64_add ncells 1)) (i64 degree) (i64 degree) ;;
     kf <- front_of (g_all g) ;;
     bf <- front_of (g_main g) ;;
     bn <- size_of (g_main g) ;;
     Ok (mk_ub degree periodic disc kf bf bn)).
Section Uniform.
Context (s : u_bsplines).
(** [ddc::coordinate] of a knot (uniform_point_sampling.hpp:124-128). *)
Definition ub_coord (i : Z) : num := us_coordinate A (ub_knots s) i.
(** [ddc::step] of the knots (uniform_point_sampling.hpp:266-271). *)
Definition ub_step : num := us_step A (ub_knots s).
(** bsplines_uniform.hpp:278-281, 287-290, 296-299, 357-360, 309-312, 339-342, 351-354: the element after the front by [size - 1]. *)
Definition ub_rmin : num := ub_coord (ub_break_front s).
(** See bsplines_uniform.hpp:278-281, 287-290, 296-299, 357-360, 309-312, 339-342, 351-354. *)
Definition ub_rmax : num := ub_coord (u64_add (ub_break_front s) (u64_sub (u64 (ub_break_size s)) 1)).
(** See bsplines_uniform.hpp:278-281, 287-290, 296-299, 357-360, 309-312, 339-342, 351-354. *)
Definition ub_ncells : Z := u64_sub (u64 (ub_break_size s)) 1.
(** See bsplines_uniform.hpp:278-281, 287-290, 296-299, 357-360, 309-312, 339-342, 351-354. *)
Definition ub_inv_step : num := (nofz A 1 / ub_step)%N_.
(** See bsplines_uniform.hpp:278-281, 287-290, 296-299, 357-360, 309-312, 339-342, 351-354. *)
Definition ub_size : Z := u64_add (ub_degree s) ub_ncells.
(** See bsplines_uniform.hpp:278-281, 287-290, 296-299, 357-360, 309-312, 339-342, 351-354. *)
Definition ub_nbasis : Z := u64_add ub_ncells (if ub_periodic s then 0 else ub_degree s).
(** bsplines_uniform.hpp:252-256, 267-272 *)
Definition ub_first_support_knot (ix : Z) : Z := u64_add (ub_knot_front s) (u64 (elem_minus ix reference_element)).
(** See bsplines_uniform.hpp:252-256, 267-272. *)
Definition ub_last_support_knot (ix : Z) : Z := u64_add (ub_first_support_knot ix) (u64_add (ub_degree s) 1).
(** bsplines_uniform.hpp:568-595; the conversion of a number out of the range of [int] is undefined. *)
Definition ub_icell_and_offset (x : num) : res (Z * num) :=
  assert_ (in_range_assert x ub_rmin ub_rmax)
    (let inv_dx := ub_inv_step in
     if nleb A x ub_rmin then Ok (0, nofz A 0)
     else if nleb A ub_rmax x then Ok (i32 (u64_sub ub_ncells 1), nofz A 1)
     else
       let offset := ((x - ub_rmin) * inv_dx)%N_ in
       let icell := ntrunc A offset in
       if (- 2 ^ 31 <=? icell) && (icell <? 2 ^ 31) then
         let offset := (offset - nofz A icell)%N_ in
         if (icell =? i32 ub_ncells) && neq_ offset (nofz A 0)
         then Ok (i32 (u64_sub ub_ncells 1), nofz A 1)
         else Ok (icell, offset)
       else Undef).
(** The body of the loop on [r], 416-421, 450-455, 510-515, with [values[r]] read and written through [get]
    and [set]. *)
Section Inner.
Context {V : Type} (get : V -> Z -> res num) (set : V -> Z -> num -> res V).
(** See bsplines_uniform.hpp:416-421, 450-455, 510-515. *)
Definition ub_inner (j : Z) (r : Z) (st : num * num * V) : res (num * num * V) :=
  let '(xx, saved, values) := st in
  let xx := (xx + nofz A 1)%N_ in
  v <- get values r ;;
  let temp := (v / nofz A j)%N_ in
  values <- set values r (saved + xx * temp)%N_ ;;
  let saved := ((nofz A j - xx) * temp)%N_ in
  Ok (xx, saved, values).
End Inner.
(** The loop on [j] from 1 to [n - 1]: 413-423, 447-457. *)
Definition ub_triangle (offset : num) (n : Z) (values : arr num) : res (arr num) :=
  for_range 1 n (fun j values =>
    ' (_, saved, values) <- for_range 0 j (ub_inner aget aset j) ((- offset)%N_, nofz A 0, values) ;;
    aset values j saved) values.
(** bsplines_uniform.hpp:394-426: [degree] is only used by the assertion.  The public overload (203-208) passes [D]. *)
Definition ub_eval_basis_degree (values : arr num) (x : num) (degree : Z) : res (arr num * Z) :=
  assert_ (a_len values =? degree + 1)
    (' (jmin, offset) <- ub_icell_and_offset x ;;
     values <- aset values 0 (nofz A 1) ;;
     values <- ub_triangle offset (a_len values) values ;;
     Ok (values, u64_add reference_element (u64 jmin))).
(** See bsplines_uniform.hpp:394-426, 203-208. *)
Definition ub_eval_basis (values : arr num) (x : num) : res (arr num * Z) :=
  ub_eval_basis_degree values x (ub_degree s).
(** bsplines_uniform.hpp:430-471 *)
Definition ub_eval_deriv (derivs : arr num) (x : num) : res (arr num * Z) :=
  assert_ (a_len derivs =? ub_degree s + 1)
    (' (jmin, offset) <- ub_icell_and_offset x ;;
     derivs <- aset derivs 0 (nofz A 1 / ub_step)%N_ ;;
     derivs <- ub_triangle offset (ub_degree s) derivs ;;
     bjm1 <- aget derivs 0 ;;
     let bj := bjm1 in
     derivs <- aset derivs 0 (- bjm1)%N_ ;;
     ' (bjm1, bj, derivs) <-
       for_range 1 (ub_degree s) (fun j st =>
         let '(bjm1, _, derivs) := st in
         bj <- aget derivs j ;;
         derivs <- aset derivs j (bjm1 - bj)%N_ ;;
         Ok (bj, bj, derivs)) (bjm1, bj, derivs) ;;
     derivs <- aset derivs (ub_degree s) bj ;;
     Ok (derivs, u64_add reference_element (u64 jmin))).
(** bsplines_uniform.hpp:475-564.  [ndu_] and [a_] are the initial contents of the local arrays; [int] arithmetic on indices is
    exact for degrees below 2^31.  503-517: *)
Definition ub_ndu (offset : num) (ndu : arr2 num) : res (arr2 num) :=
  ndu <- aset2 ndu 0 0 (nofz A 1) ;;
  for_range 1 (ub_degree s + 1) (fun j ndu =>
    ' (_, saved, ndu) <-
       for_range 0 j (ub_inner (fun ndu r => aget2 ndu (j - 1) r) (fun ndu r v => aset2 ndu j r v) j)
         ((- offset)%N_, nofz A 0, ndu) ;;
    aset2 ndu j j saved) ndu.
End Uniform.

(** The triple loop on [r], [k] and [j], bsplines_uniform.hpp:522-549 and bsplines_non_uniform.hpp:624-653,
    which differ in the factor of the differences: [factor row pk x] is [x / (pk + 1)] in the first and
    [x * ndu(row, pk + 1)] in the second. *)
Section NDerivs.
Context (degree : Z) (factor : arr2 num -> Z -> Z -> num -> res num).
(** The loop on [j]: 534-541, 637-644. *)
Definition nd_inner (ndu : arr2 num) (s1 s2 pk rk j : Z) (st : num * arr2 num) : res (num * arr2 num) :=
  let '(d, a) := st in
  u <- aget2 a j s1 ;;
  v <- aget2 a (j - 1) s1 ;;
  w <- factor ndu (rk + j) pk (u - v)%N_ ;;
  a <- aset2 a j s2 w ;;
  n <- aget2 ndu pk (rk + j) ;;
  y <- aget2 a j s2 ;;
  Ok ((d + y * n)%N_, a).
(** The first entry, 530-533, 632-636, and the last one, 542-545, 645-649. *)
Definition nd_first (ndu : arr2 num) (s1 s2 r k pk rk : Z) (a : arr2 num) : res (num * arr2 num) :=
  if k <=? r then
    u <- aget2 a 0 s1 ;;
    w <- factor ndu rk pk u ;;
    a <- aset2 a 0 s2 w ;;
    y <- aget2 a 0 s2 ;;
    n <- aget2 ndu pk rk ;;
    Ok ((y * n)%N_, a)
  else Ok (nofz A 0, a).
(** bsplines_uniform.hpp:542-545, bsplines_non_uniform.hpp:645-649 *)
Definition nd_last (ndu : arr2 num) (s1 s2 r k pk : Z) (d : num) (a : arr2 num) : res (num * arr2 num) :=
  if r <=? pk then
    u <- aget2 a (k - 1) s1 ;;
    w <- factor ndu r pk (- u)%N_ ;;
    a <- aset2 a k s2 w ;;
    y <- aget2 a k s2 ;;
    n <- aget2 ndu pk r ;;
    Ok ((d + y * n)%N_, a)
  else Ok (d, a).
(** The body of the loop on [k]: 526-548, 628-652. *)
Definition nd_step (ndu : arr2 num) (r k : Z) (st : Z * Z * arr2 num * arr2 num) : res (Z * Z * arr2 num * arr2 num) :=
  let '(s1, s2, a, derivs) := st in
  let rk := r - k in
  let pk := degree - k in
  ' (d, a) <- nd_first ndu s1 s2 r k pk rk a ;;
  let j1 := if -1 <? rk then 1 else - rk in
  let j2 := if r - 1 <=? pk then k else degree - r + 1 in
  ' (d, a) <- for_range j1 j2 (nd_inner ndu s1 s2 pk rk) (d, a) ;;
  ' (d, a) <- nd_last ndu s1 s2 r k pk d a ;;
  derivs <- aset2 derivs r k d ;;
  Ok (s2, s1, a, derivs).
(** bsplines_uniform.hpp:522-549, bsplines_non_uniform.hpp:624-653 *)
Definition nd_loop (ndu a derivs : arr2 num) (n : Z) : res (arr2 num) :=
  ' (_, derivs) <-
    for_range 0 (degree + 1) (fun r st =>
      let '(a, derivs) := st in
      a <- aset2 a 0 0 (nofz A 1) ;;
      ' (_, _, a, derivs) <- for_range 1 (n + 1) (nd_step ndu r) (0, 1, a, derivs) ;;
      Ok (a, derivs)) (a, derivs) ;;
  Ok derivs.
End NDerivs.
(** bsplines_uniform.hpp:518-520 and bsplines_non_uniform.hpp:619-622: column 0 gets the row [degree] of [ndu]. *)
Definition nd_column0 (degree : Z) (ndu derivs : arr2 num) : res (arr2 num) :=
  for_range 0 (degree + 1) (fun i derivs => v <- aget2 ndu degree i ;; aset2 derivs i 0 v) derivs.
(** bsplines_uniform.hpp:554-561: [derivs(i, k) *= d] and [d *= (degree() - k) * inv_dx]. *)
Definition ub_scale (s : u_bsplines) (n : Z) (derivs : arr2 num) : res (arr2 num) :=
  let inv_dx := ub_inv_step s in
  let d := (nofz A (ub_degree s) * inv_dx)%N_ in
  ' (_, derivs) <-
    for_range 1 (n + 1) (fun k st =>
      let '(d, derivs) := st in
      derivs <- for_range 0 (a2_n derivs) (fun i derivs => v <- aget2 derivs i k ;; aset2 derivs i k (v * d)%N_) derivs ;;
      Ok ((d * (nofz A (ub_degree s - k) * inv_dx))%N_, derivs)) (d, derivs) ;;
  Ok derivs.
(** The divisions of bsplines_uniform.hpp:531, 538-539, 543. *)
Definition ub_factor (_ : arr2 num) (_ pk : Z) (x : num) : res num := Ok (x / nofz A (pk + 1))%N_.
(** bsplines_uniform.hpp:475-564 *)
Definition ub_eval_basis_and_n_derivs (s : u_bsplines) (ndu_ a_ : Z -> Z -> num) (derivs : arr2 num) (x : num) (n : Z)
    : res (arr2 num * Z) :=
  let degree := ub_degree s in
  assert_ (in_range_assert x (ub_rmin s) (ub_rmax s) && (n <=? degree) && (a2_n derivs =? 1 + degree) && (a2_m derivs =? 1 + n))
    (' (jmin, offset) <- ub_icell_and_offset s x ;;
     ndu <- ub_ndu s offset (mk_arr2 (degree + 1) (degree + 1) ndu_) ;;
     derivs <- nd_column0 degree ndu derivs ;;
     derivs <- nd_loop degree ub_factor ndu (mk_arr2 (degree + 1) 2 a_) derivs n ;;
     derivs <- ub_scale s n derivs ;;
     Ok (derivs, u64_add reference_element (u64 jmin))).

(** ** bsplines_non_uniform.hpp *)
(** bsplines_non_uniform.hpp:111-114; [nb_knot_size] is the size of [m_knot_domain], which starts at 0. *)
Record n_bsplines := mk_nb {
  nb_degree : Z; nb_periodic : bool; nb_knots : non_uniform_sampling A;
  nb_knot_size : Z; nb_break_front : Z; nb_break_size : Z }.
(** bsplines_non_uniform.hpp:349-352 and 372-375 for a number of knots *)
Definition npoints_of (knot_size degree : Z) : Z := u64_sub (u64 knot_size) (u64_mul 2 degree).
(** See bsplines_non_uniform.hpp:349-352, 372-375. *)
Definition ncells_of (knot_size degree : Z) : Z := u64_sub (npoints_of knot_size degree) 1.
(** bsplines_non_uniform.hpp:417-457: [None] is the exception of the sampling.  [knots_] is the initial content of the vector.
    Indices of the vector are [size_t]: [degree() + -i] is [degree - i]. *)
Definition nb_fill_periodic (degree ncells : Z) (period : num) (knots : arr num) : res (arr num) :=
  for_range 1 (degree + 1) (fun i knots =>
    u <- aget knots (degree + ncells - i) ;;
    knots <- aset knots (degree - i) (u - period)%N_ ;;
    v <- aget knots (degree + i) ;;
    aset knots (degree + ncells + i) (v + period)%N_) knots.
(** See bsplines_non_uniform.hpp:417-457. *)
Definition nb_fill_open (degree npoints : Z) (rmin rmax : num) (knots : arr num) : res (arr num) :=
  for_range 1 (degree + 1) (fun i knots =>
    knots <- aset knots (degree - i) rmin ;;
    aset knots (degree + npoints - 1 + i) rmax) knots.
(** See bsplines_non_uniform.hpp:417-457. *)
Definition nb_construct (knots_ : Z -> num) (degree : Z) (periodic : bool) (breaks : list num) : res (option n_bsplines) :=
  let n := Z.of_nat (length breaks) in
  let knot_size := n + 2 * degree in
  knots <- for_range 0 n (fun ii knots => v <- nth_z A breaks ii ;; aset knots (degree + ii) v) (mk_arr knot_size knots_) ;;
  rmin <- aget knots degree ;;
  rmax <- aget knots (n + degree - 1) ;;
  assert_ (nltb A rmin rmax)
    (knots <- (if periodic then nb_fill_periodic degree (ncells_of knot_size degree) (rmax - rmin)%N_ knots
               else nb_fill_open degree (npoints_of knot_size degree) rmin rmax knots) ;;
     match ns_construct A (arr_list knots) with
     | None => Ok None
     | Some k => Ok (Some (mk_nb degree periodic k knot_size degree n))
     end).
Section NonUniform.
Context (s : n_bsplines).
(** [ddc::coordinate] of a knot (non_uniform_point_sampling.hpp:126-130). *)
Definition nb_coord (i : Z) : res num := ns_coordinate A (nb_knots s) i.
(** bsplines_non_uniform.hpp:288-291, 297-300, 306-309, 349-352, 360-363, 372-375, 319-322 *)
Definition nb_break_back : Z := u64_add (nb_break_front s) (u64_sub (u64 (nb_break_size s)) 1).
(** See bsplines_non_uniform.hpp:288-291, 297-300, 306-309, 349-352, 360-363, 372-375, 319-322. *)
Definition nb_rmin : res num := nb_coord (nb_break_front s).
(** See bsplines_non_uniform.hpp:288-291, 297-300, 306-309, 349-352, 360-363, 372-375, 319-322. *)
Definition nb_rmax : res num := nb_coord nb_break_back.
(** See bsplines_non_uniform.hpp:288-291, 297-300, 306-309, 349-352, 360-363, 372-375, 319-322. *)
Definition nb_npoints : Z := npoints_of (nb_knot_size s) (nb_degree s).
(** See bsplines_non_uniform.hpp:288-291, 297-300, 306-309, 349-352, 360-363, 372-375, 319-322. *)
Definition nb_ncells : Z := u64_sub nb_npoints 1.
(** See bsplines_non_uniform.hpp:288-291, 297-300, 306-309, 349-352, 360-363, 372-375, 319-322. *)
Definition nb_nbasis : Z := u64_add nb_ncells (if nb_periodic s then 0 else nb_degree s).
(** See bsplines_non_uniform.hpp:288-291, 297-300, 306-309, 349-352, 360-363, 372-375, 319-322. *)
Definition nb_size : Z := u64_add (nb_degree s) nb_ncells.
(** bsplines_non_uniform.hpp:262-266, 277-282 *)
Definition nb_first_support_knot (ix : Z) : Z := u64_add 0 (u64 (elem_minus ix reference_element)).
(** See bsplines_non_uniform.hpp:262-266, 277-282. *)
Definition nb_last_support_knot (ix : Z) : Z := u64_add (nb_first_support_knot ix) (u64_add (nb_degree s) 1).
(** bsplines_non_uniform.hpp:378-382 *)
Definition nb_first_bspline_in_cell (ic : Z) : Z := u64_add reference_element (u64 (elem_minus ic (nb_break_front s))).
(** bsplines_non_uniform.hpp:668-695.  The state of the loop (682-693) is [low], [high] and [icell]; [None] when [fuel] iterations
    do not suffice (the fuel given by [nb_fuel] is proved sufficient). *)
Definition nb_mid (low high : Z) : Z := u64_add low (u64 (Z.quot (elem_minus high low) 2)).
(** See bsplines_non_uniform.hpp:668-695, 682-693. *)
Definition nb_search_cond (x : num) (st : Z * Z * Z) : res bool :=
  let '(_, _, icell) := st in
  c <- nb_coord icell ;;
  if nltb A x c then Ok true
  else (c1 <- nb_coord (u64_add icell 1) ;; Ok (nleb A c1 x)).
(** See bsplines_non_uniform.hpp:668-695, 682-693. *)
Definition nb_search_body (x : num) (st : Z * Z * Z) : res (Z * Z * Z) :=
  let '(low, high, icell) := st in
  c <- nb_coord icell ;;
  let '(low, high) := if nltb A x c then (low, icell) else (icell, high) in
  Ok (low, high, nb_mid low high).
(** See bsplines_non_uniform.hpp:668-695, 682-693. *)
Definition nb_search (fuel : nat) (x : num) (low high : Z) : res (option Z) :=
  r <- while_ fuel (nb_search_cond x) (nb_search_body x) (low, high, nb_mid low high) ;;
  Ok (match r with Some (_, _, icell) => Some icell | None => None end).
(** See bsplines_non_uniform.hpp:668-695, 682-693. *)
Definition nb_find_cell_start_fuel (fuel : nat) (x : num) : res (option Z) :=
  rmin <- nb_rmin ;;
  rmax <- nb_rmax ;;
  assert_ (in_range_assert x rmin rmax)
    (if nleb A x rmin then Ok (Some (nb_break_front s))
     else if nleb A rmax x then Ok (Some (u64_sub nb_break_back 1))
     else nb_search fuel x (nb_break_front s) nb_break_back).
(** Auxiliary: the number of iterations given to the search; it is proved sufficient. *)
Definition nb_fuel : nat := Z.to_nat (nb_break_size s).
(** See bsplines_non_uniform.hpp:668-695, 682-693. *)
Definition nb_find_cell_start (x : num) : res Z :=
  r <- nb_find_cell_start_fuel nb_fuel x ;; match r with Some c => Ok c | None => Undef end.
(** bsplines_non_uniform.hpp:474-479, 512-517, 585-590: the cell and its assertions. *)
Definition nb_cell (x : num) : res Z :=
  rmin <- nb_rmin ;;
  rmax <- nb_rmax ;;
  assert_ (in_range_assert x rmin rmax)
    (icell <- nb_find_cell_start x ;;
     c <- nb_coord icell ;;
     c1 <- nb_coord (u64_add icell 1) ;;
     let eps := ((rmax - rmin) * tolerance)%N_ in
     assert_ ((nb_break_front s <=? icell) && (icell <=? nb_break_back) && nleb A (c - x)%N_ eps && nleb A (x - c1)%N_ eps)
       (Ok icell)).
(** The body of the loops on [r], 488-492, 533-537 *)
Definition nb_inner (lefts rights : arr num) (j : Z) (r : Z) (st : num * arr num) : res (num * arr num) :=
  let '(saved, values) := st in
  v <- aget values r ;;
  rr <- aget rights r ;;
  l <- aget lefts (j - r) ;;
  let temp := (v / (rr + l))%N_ in
  values <- aset values r (saved + rr * temp)%N_ ;;
  Ok ((l * temp)%N_, values).
(** The loop on [j] from 0 to [n - 1], 484-494, 529-539 *)
Definition nb_triangle (x : num) (icell n : Z) (lefts rights values : arr num) : res (arr num * arr num * arr num) :=
  for_range 0 n (fun j st =>
    let '(lefts, rights, values) := st in
    cl <- nb_coord (u64_sub icell j) ;;
    lefts <- aset lefts j (x - cl)%N_ ;;
    cr <- nb_coord (u64_add (u64_add icell j) 1) ;;
    rights <- aset rights j (cr - x)%N_ ;;
    ' (saved, values) <- for_range 0 (j + 1) (nb_inner lefts rights j) (nofz A 0, values) ;;
    values <- aset values (j + 1) saved ;;
    Ok (lefts, rights, values)) (lefts, rights, values).
(** bsplines_non_uniform.hpp:461-497.  [left_] and [right_] are the initial contents of the local arrays. *)
Definition nb_eval_basis (left_ right_ : Z -> num) (values : arr num) (x : num) : res (arr num * Z) :=
  assert_ (a_len values =? nb_degree s + 1)
    (icell <- nb_cell x ;;
     values <- aset values 0 (nofz A 1) ;;
     ' (_, _, values) <- nb_triangle x icell (nb_degree s) (mk_arr (nb_degree s) left_) (mk_arr (nb_degree s) right_) values ;;
     Ok (values, nb_first_bspline_in_cell icell)).
(** bsplines_non_uniform.hpp:501-557 *)
Definition nb_eval_deriv (left_ right_ : Z -> num) (derivs : arr num) (x : num) : res (arr num * Z) :=
  let degree := nb_degree s in
  assert_ (a_len derivs =? degree + 1)
    (icell <- nb_cell x ;;
     derivs <- aset derivs 0 (nofz A 1) ;;
     ' (_, _, derivs) <- nb_triangle x icell (degree - 1) (mk_arr degree left_) (mk_arr degree right_) derivs ;;
     d0 <- aget derivs 0 ;;
     u <- nb_coord (u64_add icell 1) ;;
     l <- nb_coord (u64_sub (u64_add icell 1) degree) ;;
     let saved := (nofz A degree * d0 / (u - l))%N_ in
     derivs <- aset derivs 0 (- saved)%N_ ;;
     ' (saved, derivs) <-
       for_range 1 degree (fun j st =>
         let '(temp, derivs) := st in
         dj <- aget derivs j ;;
         u <- nb_coord (u64_add (u64_add icell j) 1) ;;
         l <- nb_coord (u64_sub (u64_add (u64_add icell j) 1) degree) ;;
         let saved := (nofz A degree * dj / (u - l))%N_ in
         derivs <- aset derivs j (temp - saved)%N_ ;;
         Ok (saved, derivs)) (saved, derivs) ;;
     derivs <- aset derivs degree saved ;;
     Ok (derivs, nb_first_bspline_in_cell icell)).
(** bsplines_non_uniform.hpp:600-618 *)
Definition nb_ndu_inner (lefts rights : arr num) (j : Z) (r : Z) (st : num * arr2 num) : res (num * arr2 num) :=
  let '(saved, ndu) := st in
  rr <- aget rights r ;;
  l <- aget lefts (j - r) ;;
  ndu <- aset2 ndu r (j + 1) (nofz A 1 / (rr + l))%N_ ;;
  v <- aget2 ndu j r ;;
  w <- aget2 ndu r (j + 1) ;;
  let temp := (v * w)%N_ in
  ndu <- aset2 ndu (j + 1) r (saved + rr * temp)%N_ ;;
  Ok ((l * temp)%N_, ndu).
(** See bsplines_non_uniform.hpp:600-618. *)
Definition nb_ndu (x : num) (icell : Z) (lefts rights : arr num) (ndu : arr2 num) : res (arr num * arr num * arr2 num) :=
  ndu <- aset2 ndu 0 0 (nofz A 1) ;;
  for_range 0 (nb_degree s) (fun j st =>
    let '(lefts, rights, ndu) := st in
    cl <- nb_coord (u64_sub icell j) ;;
    lefts <- aset lefts j (x - cl)%N_ ;;
    cr <- nb_coord (u64_add (u64_add icell j) 1) ;;
    rights <- aset rights j (cr - x)%N_ ;;
    ' (saved, ndu) <- for_range 0 (j + 1) (nb_ndu_inner lefts rights j) (nofz A 0, ndu) ;;
    ndu <- aset2 ndu (j + 1) (j + 1) saved ;;
    Ok (lefts, rights, ndu)) (lefts, rights, ndu).
(** bsplines_non_uniform.hpp:655-661: [r] is an [int]: overflow is undefined; [degree() - k] is a [size_t], so that [r *= degree() - k]
    is computed in [size_t] and converted back. *)
Definition nb_scale (n : Z) (derivs : arr2 num) : res (arr2 num) :=
  ' (_, derivs) <-
    for_range 1 (n + 1) (fun k st =>
      let '(r, derivs) := st in
      derivs <- for_range 0 (a2_n derivs) (fun i derivs => v <- aget2 derivs i k ;; aset2 derivs i k (v * nofz A r)%N_) derivs ;;
      Ok (i32 (u64_mul (u64 r) (u64_sub (nb_degree s) k)), derivs)) (i32 (nb_degree s), derivs) ;;
  Ok derivs.
(** The divisions of bsplines_non_uniform.hpp:633-634, 640-642, 646-647. *)
Definition nb_factor (ndu : arr2 num) (row pk : Z) (x : num) : res num :=
  w <- aget2 ndu row (pk + 1) ;; Ok (x * w)%N_.
(** bsplines_non_uniform.hpp:561-664 *)
Definition nb_eval_basis_and_n_derivs (left_ right_ : Z -> num) (ndu_ a_ : Z -> Z -> num) (derivs : arr2 num) (x : num) (n : Z)
    : res (arr2 num * Z) :=
  let degree := nb_degree s in
  assert_ ((n <=? degree) && (a2_n derivs =? 1 + degree) && (a2_m derivs =? 1 + n))
    (icell <- nb_cell x ;;
     ' (_, _, ndu) <- nb_ndu x icell (mk_arr degree left_) (mk_arr degree right_) (mk_arr2 (degree + 1) (degree + 1) ndu_) ;;
     derivs <- nd_column0 degree ndu derivs ;;
     derivs <- nd_loop degree nb_factor ndu (mk_arr2 (degree + 1) 2 a_) derivs n ;;
     derivs <- nb_scale n derivs ;;
     Ok (derivs, nb_first_bspline_in_cell icell)).
End NonUniform.
End BSplines.
