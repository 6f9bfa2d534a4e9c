(** The linear problems of the spline builders: storages of the matrix, block solvers, and the chunked
    sparse solver.  Paths are relative to src/ddc/kernels/splines.

    Simplifications.
    - The external solvers (LAPACKE/Kokkos-Kernels factorisation followed by a triangular solve, Ginkgo)
      are functions given as an argument ([solvers]); factorisation and solve are one function, an error of
      the factorisation (an exception) is [Rejected].
    - Except in [sparse_solve], [solve] is modelled on one right-hand side: it treats the columns of the
      multiple right-hand sides independently ([parallel_for] over the columns, each iteration accessing its
      own column).
    - Host and device copies of the blocks are one array; allocation is not modelled.
    - [assert]s are active. *)
From Coq Require Import List.
From Verif Require Export ArithModel SamplingModel LoopModel.
Import ListNotations.
#[global] Open Scope Z_scope.

Section Linear.
Context (A : arith).
Local Notation num := (num A).

(** [std::fabs], [Kokkos::abs] *)
Definition nabs (x : num) : num := if nltb A x (nofz A 0) then nopp A x else x.
(** the literals [1e-15] (band.cpp:104, pds_band.cpp:79, pds_tridiag.cpp:76) and [1e-14] (2x2_blocks.hpp:90) *)
Definition tol15 : num := ndiv A (nofz A 1) (nofz A (10 ^ 15)).
(** The literal [1e-14] (splines_linear_problem_2x2_blocks.hpp:90). *)
Definition tol14 : num := ndiv A (nofz A 1) (nofz A (10 ^ 14)).
(** Auxiliary: a matrix of zeros (Kokkos views are initialised). *)
Definition zero2 (n m : Z) : arr2 num := mk_arr2 n m (fun _ _ => nofz A 0).

(** splines_linear_problem_dense.hpp, _band.hpp, _pds_band.hpp, _pds_tridiag.hpp, _sparse.hpp: the members *)
Inductive elementary :=
| Dense (a : arr2 num)
| Band (n kl ku : Z) (q : arr2 num)
| PdsBand (n : Z) (q : arr2 num)
| PdsTridiag (n : Z) (q : arr2 num)
| Sparse (a : arr2 num).
(** splines_linear_problem.cpp:25-28 *)
Definition elem_size (e : elementary) : Z :=
  match e with
  | Dense a | Sparse a => a2_n a
  | Band n _ _ _ | PdsBand n _ | PdsTridiag n _ => n
  end.

(** Constructors: dense.cpp:35-41, band.cpp:31-49, pds_band.cpp:31-40, pds_tridiag.cpp:31-37, sparse.cpp:156-170 *)
Definition new_dense (n : Z) : res elementary := Ok (Dense (zero2 n n)).
(** See dense.cpp:35-41; band.cpp:31-49; pds_band.cpp:31-40; pds_tridiag.cpp:31-37; sparse.cpp:156-170. *)
Definition new_band (n kl ku : Z) : res elementary :=
  assert_ ((kl <=? n) && (ku <=? n)) (Ok (Band n kl ku (zero2 (u64_add (u64_add (u64_mul 2 kl) ku) 1) n))).
(** See dense.cpp:35-41; band.cpp:31-49; pds_band.cpp:31-40; pds_tridiag.cpp:31-37; sparse.cpp:156-170. *)
Definition new_pds_band (n kd : Z) : res elementary :=
  assert_ (u64_add kd 1 <=? n) (Ok (PdsBand n (zero2 (u64_add kd 1) n))).
(** See dense.cpp:35-41; band.cpp:31-49; pds_band.cpp:31-40; pds_tridiag.cpp:31-37; sparse.cpp:156-170. *)
Definition new_pds_tridiag (n : Z) : res elementary := Ok (PdsTridiag n (zero2 2 n)).
(** See dense.cpp:35-41; band.cpp:31-49; pds_band.cpp:31-40; pds_tridiag.cpp:31-37; sparse.cpp:156-170. *)
Definition new_sparse (n : Z) : res elementary := Ok (Sparse (zero2 n n)).

(** band.cpp:55-60 *)
Definition band_storage_row_index (kl ku i j : Z) : Z := u64_sub (u64_add (u64_add kl ku) i) j.
(** band.cpp:74-77 and 98-101: the comparison of the unsigned [i] with the signed maximum converts the latter *)
Definition in_band (n kl ku i j : Z) : bool :=
  (u64 (Z.max 0 (i64 j - i64 ku)) <=? i) && (i <? Z.min n (u64_add (u64_add j kl) 1)).

(** [get_element]: dense.cpp:47-53, band.cpp:63-82, pds_band.cpp:46-61, pds_tridiag.cpp:43-58, sparse.cpp:172-175 *)
Definition elem_get (e : elementary) (i j : Z) : res num :=
  match e with
  | Dense a => assert_ ((i <? a2_n a) && (j <? a2_n a)) (aget2 a i j)
  | Sparse a => aget2 a i j
  | Band n kl ku q =>
      assert_ ((i <? n) && (j <? n))
        (if in_band n kl ku i j then aget2 q (band_storage_row_index kl ku i j) j else Ok (nofz A 0))
  | PdsBand n q =>
      assert_ ((i <? n) && (j <? n))
        (let '(i, j) := if j <? i then (j, i) else (i, j) in
         if u64_sub j i <? a2_n q then aget2 q (u64_sub j i) i else Ok (nofz A 0))
  | PdsTridiag n q =>
      assert_ ((i <? n) && (j <? n))
        (let '(i, j) := if j <? i then (j, i) else (i, j) in
         if u64_sub j i <? 2 then aget2 q (u64_sub j i) i else Ok (nofz A 0))
  end.
(** [set_element]: dense.cpp:56-64, band.cpp:85-106, pds_band.cpp:64-81, pds_tridiag.cpp:61-78, sparse.cpp:177-180 *)
Definition elem_set (e : elementary) (i j : Z) (aij : num) : res elementary :=
  match e with
  | Dense a => assert_ ((i <? a2_n a) && (j <? a2_n a)) (a <- aset2 a i j aij ;; Ok (Dense a))
  | Sparse a => a <- aset2 a i j aij ;; Ok (Sparse a)
  | Band n kl ku q =>
      assert_ ((i <? n) && (j <? n))
        (if in_band n kl ku i j
         then q <- aset2 q (band_storage_row_index kl ku i j) j aij ;; Ok (Band n kl ku q)
         else assert_ (nltb A (nabs aij) tol15) (Ok e))
  | PdsBand n q =>
      assert_ ((i <? n) && (j <? n))
        (let '(i, j) := if j <? i then (j, i) else (i, j) in
         if u64_sub j i <? a2_n q then q <- aset2 q (u64_sub j i) i aij ;; Ok (PdsBand n q)
         else assert_ (nltb A (nabs aij) tol15) (Ok e))
  | PdsTridiag n q =>
      assert_ ((i <? n) && (j <? n))
        (let '(i, j) := if j <? i then (j, i) else (i, j) in
         if u64_sub j i <? 2 then q <- aset2 q (u64_sub j i) i aij ;; Ok (PdsTridiag n q)
         else assert_ (nltb A (nabs aij) tol15) (Ok e))
  end.

(** splines_linear_problem_2x2_blocks.hpp:46-51: the four blocks; the bottom-right one is dense *)
Record blocks := mk_blocks {
  bk_size : Z;
  bk_top_left : elementary;
  bk_top_right : arr2 num;
  bk_bottom_left : arr2 num;
  bk_bottom_right : elementary
}.
(** 2x2_blocks.cpp:76-96 *)
Definition new_blocks (n : Z) (top_left : elementary) : res blocks :=
  let nq := elem_size top_left in
  bottom_right <- new_dense (u64_sub n nq) ;;
  assert_ (nq <=? n) (Ok (mk_blocks n top_left (zero2 nq (u64_sub n nq)) (zero2 (u64_sub n nq) nq) bottom_right)).
(** 2x2_blocks.cpp:102-123 *)
Definition blocks_get (b : blocks) (i j : Z) : res num :=
  assert_ ((i <? bk_size b) && (j <? bk_size b))
    (let nq := elem_size (bk_top_left b) in
     if (i <? nq) && (j <? nq) then elem_get (bk_top_left b) i j
     else if (nq <=? i) && (nq <=? j) then elem_get (bk_bottom_right b) (u64_sub i nq) (u64_sub j nq)
     else if nq <=? j then aget2 (bk_top_right b) i (u64_sub j nq)
     else aget2 (bk_bottom_left b) (u64_sub i nq) j).
(** 2x2_blocks.cpp:126-144 *)
Definition blocks_set (b : blocks) (i j : Z) (aij : num) : res blocks :=
  assert_ ((i <? bk_size b) && (j <? bk_size b))
    (let nq := elem_size (bk_top_left b) in
     let '(mk_blocks n q tr bl br) := b in
     if (i <? nq) && (j <? nq) then q <- elem_set q i j aij ;; Ok (mk_blocks n q tr bl br)
     else if (nq <=? i) && (nq <=? j) then
       br <- elem_set br (u64_sub i nq) (u64_sub j nq) aij ;; Ok (mk_blocks n q tr bl br)
     else if nq <=? j then tr <- aset2 tr i (u64_sub j nq) aij ;; Ok (mk_blocks n q tr bl br)
     else bl <- aset2 bl (u64_sub i nq) j aij ;; Ok (mk_blocks n q tr bl br)).

(** 3x3_blocks.cpp:32-47: the same lines for [i] and for [j] *)
Definition adjust_index (top nq i : Z) : Z :=
  if i <? top then u64_add i nq else if i <? u64_add top nq then u64_sub i top else i.

(** The classes derived from [SplinesLinearProblem]; 3x3_blocks.hpp:42-45: a 2x2 problem and [m_top_size]. *)
Inductive problem :=
| Elementary (e : elementary)
| Blocks2 (b : blocks)
| Blocks3 (top : Z) (b : blocks).
(** See 3x3_blocks.hpp:42-45. *)
Definition prob_size (p : problem) : Z :=
  match p with Elementary e => elem_size e | Blocks2 b | Blocks3 _ b => bk_size b end.
(** splines_linear_problem.cpp:31-42 and 3x3_blocks.cpp:148-151 *)
Definition required_rows (p : problem) : Z :=
  match p with Blocks3 top b => u64_add (bk_size b) top | _ => prob_size p end.
(** 3x3_blocks.cpp:50-54 *)
Definition get_element (p : problem) (i j : Z) : res num :=
  match p with
  | Elementary e => elem_get e i j
  | Blocks2 b => blocks_get b i j
  | Blocks3 top b =>
      let nq := elem_size (bk_top_left b) in blocks_get b (adjust_index top nq i) (adjust_index top nq j)
  end.
(** 3x3_blocks.cpp:57-64 *)
Definition set_element (p : problem) (i j : Z) (aij : num) : res problem :=
  match p with
  | Elementary e => e <- elem_set e i j aij ;; Ok (Elementary e)
  | Blocks2 b => b <- blocks_set b i j aij ;; Ok (Blocks2 b)
  | Blocks3 top b =>
      let nq := elem_size (bk_top_left b) in
      b <- blocks_set b (adjust_index top nq i) (adjust_index top nq j) aij ;; Ok (Blocks3 top b)
  end.

(** A sequence of calls of [set_element]. *)
Definition set_all (p : problem) (h : list (Z * Z * num)) : res problem :=
  fold_left (fun p '(i, j, v) => p <- p ;; set_element p i j v) h (Ok p).

(** The maker.  [int] arithmetic: a result out of range is undefined. *)
Definition int_ (z : Z) : res Z := if (- 2 ^ 31 <=? z) && (z <? 2 ^ 31) then Ok z else Undef.
(** splines_linear_problem_maker.hpp:57-76 *)
Definition make_new_band (n kl ku : Z) (pds : bool) : res elementary :=
  if (kl =? ku) && (kl =? 1) && pds then new_pds_tridiag (u64 n)
  else if (kl =? ku) && pds then new_pds_band (u64 n) (u64 kl)
  else
    a <- int_ (2 * kl) ;;
    a <- int_ (a + ku) ;;
    a <- int_ (a + 1) ;;
    if n <=? a then new_dense (u64 n) else new_band (u64 n) (u64 kl) (u64 ku).
(** maker.hpp:93-111 *)
Definition make_new_block_matrix (n kl ku : Z) (pds : bool) (bottom_right_size top_left_size : Z) : res problem :=
  a <- int_ (n - top_left_size) ;;
  main_size <- int_ (a - bottom_right_size) ;;
  main_block <- make_new_band main_size kl ku pds ;;
  b <- new_blocks (u64 n) main_block ;;
  Ok (if top_left_size =? 0 then Blocks2 b else Blocks3 (u64 top_left_size) b).
(** maker.hpp:130-146 *)
Definition make_new_periodic_band_matrix (n kl ku : Z) (pds : bool) : res problem :=
  assert_ ((kl <? n) && (ku <? n))
    (let bottom_size := Z.max kl ku in
     top_size <- int_ (n - bottom_size) ;;
     a <- int_ (n + top_size) ;;
     a <- int_ (bottom_size * a) ;;
     c <- int_ (2 * kl) ;;
     c <- int_ (c + ku) ;;
     c <- int_ (c + 1) ;;
     c <- int_ (c * top_size) ;;
     a <- int_ (a + c) ;;
     nn <- int_ (n * n) ;;
     if nn <=? a then e <- new_dense (u64 n) ;; Ok (Elementary e)
     else make_new_block_matrix n kl ku pds bottom_size 0).

(** The external solvers, on one right-hand side. *)
Record solvers := mk_solvers {
  getrs : arr2 num -> bool -> arr num -> res (arr num);           (** LAPACKE_dgetrf, SerialGetrs *)
  gbtrs : Z -> Z -> arr2 num -> bool -> arr num -> res (arr num); (** LAPACKE_dgbtrf, SerialGbtrs *)
  pbtrs : arr2 num -> arr num -> res (arr num);                   (** LAPACKE_dpbtrf, SerialPbtrs, lower *)
  pttrs : arr num -> arr num -> arr num -> res (arr num);         (** LAPACKE_dpttrf, SerialPttrs, lower *)
  bicgstab : arr2 num -> bool -> arr num -> res (arr num)         (** Ginkgo *)
}.
Context (X : solvers).

(** [solve]: dense.cpp:93-130, band.cpp:138-170, pds_band.cpp:105-120, pds_tridiag.cpp:97-113, sparse.cpp *)
Definition elem_solve (e : elementary) (b : arr num) (transpose : bool) : res (arr num) :=
  assert_ (a_len b =? elem_size e)
    (match e with
     | Dense a => if a2_n a =? 0 then Ok b else getrs X a transpose b
     | Band _ kl ku q => gbtrs X kl ku q transpose b
     | PdsBand _ q => pbtrs X q b
     | PdsTridiag _ q =>
         assert_ (1 <=? a2_m q)
           (pttrs X (mk_arr (a2_m q) (fun i => a2_at q 0 i)) (mk_arr (a2_m q - 1) (fun i => a2_at q 1 i)) b)
     | Sparse a => bicgstab X a transpose b
     end).

(** [Kokkos::subview(b, pair(lo, hi), ALL)] and the effect on [b] of writing in it *)
Definition rows (b : arr num) (lo hi : Z) : res (arr num) :=
  if (0 <=? lo) && (lo <=? hi) && (hi <=? a_len b)
  then Ok (mk_arr (hi - lo) (fun k => a_at b (lo + k))) else Undef.
(** Auxiliary: the assignment of the rows [lo, hi) through a subview. *)
Definition put_rows (b : arr num) (lo hi : Z) (c : arr num) : arr num :=
  mk_arr (a_len b) (fun k => if (lo <=? k) && (k <? hi) then a_at c (k - lo) else a_at b k).
(** one column of a view with two dimensions *)
Definition column (m : arr2 num) (j : Z) : arr num := mk_arr (a2_n m) (fun i => a2_at m i j).
(** Auxiliary: the assignment of one column through a subview. *)
Definition put_column (m : arr2 num) (j : Z) (c : arr num) : arr2 num :=
  mk_arr2 (a2_n m) (a2_m m) (fun i k => if k =? j then a_at c i else a2_at m i k).
(** [solve] applied to all the columns of a matrix *)
Definition elem_solve_all (e : elementary) (m : arr2 num) (transpose : bool) : res (arr2 num) :=
  for_range 0 (a2_m m) (fun j m => c <- elem_solve e (column m j) transpose ;; Ok (put_column m j c)) m.

(** 2x2_blocks.cpp:29-73: the sparse matrices in coordinate format; the entries in order *)
Record coo := mk_coo { coo_nrows : Z; coo_ncols : Z; coo_entries : list (Z * Z * num) }.
(** 2x2_blocks.cpp:148-190 *)
Definition dense2coo (m : arr2 num) : res coo :=
  l <- for_range 0 (a2_n m) (fun i l =>
         for_range 0 (a2_m m) (fun j l =>
           aij <- aget2 m i j ;;
           Ok (if nleb A tol14 (nabs aij) then l ++ [(i, j, aij)] else l)) l) [] ;;
  Ok (mk_coo (a2_n m) (a2_m m) l).
(** 2x2_blocks.cpp:193-210: the iterations, one per (i, j), may be in any order; here in row-major order *)
Definition compute_schur_complement (nq : Z) (bottom_left top_right : arr2 num) (bottom_right : elementary)
  : res elementary :=
  for_range 0 (elem_size bottom_right) (fun i br =>
    for_range 0 (elem_size bottom_right) (fun j br =>
      val <- for_range 0 nq (fun l val =>
        x <- aget2 bottom_left i l ;; y <- aget2 top_right l j ;; Ok (nadd A val (nmul A x y))) (nofz A 0) ;;
      d <- elem_get br i j ;;
      elem_set br i j (nsub A d val)) br) bottom_right.

(** What [setup_solver] leaves for [solve]. *)
Record prepared := mk_prepared {
  pr_size : Z;
  pr_top_left : elementary;
  pr_top_right : coo;
  pr_bottom_left : coo;
  pr_bottom_right : elementary
}.
(** 2x2_blocks.cpp:213-234 *)
Definition setup_solver (b : blocks) : res prepared :=
  top_right <- elem_solve_all (bk_top_left b) (bk_top_right b) false ;;
  top_right_coo <- dense2coo top_right ;;
  bottom_left_coo <- dense2coo (bk_bottom_left b) ;;
  bottom_right <- compute_schur_complement (elem_size (bk_top_left b)) (bk_bottom_left b) top_right (bk_bottom_right b) ;;
  Ok (mk_prepared (bk_size b) (bk_top_left b) top_right_coo bottom_left_coo bottom_right).

(** 2x2_blocks.cpp:237-272, on one column *)
Definition spdm_minus1_1 (m : coo) (x y : arr num) (transpose : bool) : res (arr num) :=
  assert_ ((a_len y =? (if transpose then coo_ncols m else coo_nrows m))
           && (a_len x =? (if transpose then coo_nrows m else coo_ncols m)))
    (fold_left (fun y (e : Z * Z * num) =>
       let '(i, k, v) := e in
       y <- y ;;
       let '(yi, xi) := if transpose then (k, i) else (i, k) in
       a <- aget y yi ;; c <- aget x xi ;; aset y yi (nsub A a (nmul A v c))) (coo_entries m) (Ok y)).

(** 2x2_blocks.cpp:275-298 *)
Definition solve_2x2 (p : prepared) (b : arr num) (transpose : bool) : res (arr num) :=
  assert_ (a_len b =? pr_size p)
    (let nq := elem_size (pr_top_left p) in
     b1 <- rows b 0 nq ;;
     b2 <- rows b nq (a_len b) ;;
     if negb transpose then
       b1 <- elem_solve (pr_top_left p) b1 false ;;
       b2 <- spdm_minus1_1 (pr_bottom_left p) b1 b2 false ;;
       b2 <- elem_solve (pr_bottom_right p) b2 false ;;
       b1 <- spdm_minus1_1 (pr_top_right p) b2 b1 false ;;
       Ok (put_rows (put_rows b 0 nq b1) nq (a_len b) b2)
     else
       b2 <- spdm_minus1_1 (pr_top_right p) b1 b2 true ;;
       b2 <- elem_solve (pr_bottom_right p) b2 true ;;
       b1 <- spdm_minus1_1 (pr_bottom_left p) b2 b1 true ;;
       b1 <- elem_solve (pr_top_left p) b1 true ;;
       Ok (put_rows (put_rows b 0 nq b1) nq (a_len b) b2)).

(** [Kokkos::deep_copy] between rows of [b]: the extents must be equal and the rows must not overlap *)
Definition copy_rows (b : arr num) (dst_lo dst_hi src_lo src_hi : Z) : res (arr num) :=
  d <- rows b dst_lo dst_hi ;;
  s <- rows b src_lo src_hi ;;
  assert_ ((a_len d =? a_len s) && ((dst_hi <=? src_lo) || (src_hi <=? dst_lo))) (Ok (put_rows b dst_lo dst_hi s)).
(** The same through a buffer: 3x3_blocks.cpp:88-91 and 121-124 *)
Definition copy_rows_buffer (b : arr num) (dst_lo dst_hi src_lo src_hi : Z) : res (arr num) :=
  d <- rows b dst_lo dst_hi ;;
  buffer <- rows b src_lo src_hi ;;
  assert_ (a_len d =? a_len buffer) (Ok (put_rows b dst_lo dst_hi buffer)).
(** 3x3_blocks.cpp:67-96 *)
Definition interchange_3_to_2 (top nq n : Z) (b : arr num) : res (arr num) :=
  b <- (if top <? n - (top + nq)
        then copy_rows_buffer b (2 * top + nq) (top + n) (top + nq) n
        else copy_rows b (2 * top + nq) (top + n) (top + nq) n) ;;
  copy_rows b (top + nq) (2 * top + nq) 0 top.
(** 3x3_blocks.cpp:99-128 *)
Definition interchange_2_to_3 (top nq n : Z) (b : arr num) : res (arr num) :=
  b <- copy_rows b 0 top (top + nq) (2 * top + nq) ;;
  if top <? n - (top + nq)
  then copy_rows_buffer b (top + nq) n (2 * top + nq) (top + n)
  else copy_rows b (top + nq) n (2 * top + nq) (top + n).
(** 3x3_blocks.cpp:131-145 *)
Definition solve_3x3 (top : Z) (p : prepared) (b : arr num) (transpose : bool) : res (arr num) :=
  let n := pr_size p in
  let nq := elem_size (pr_top_left p) in
  assert_ (a_len b =? u64_add n top)
    (b <- interchange_3_to_2 top nq n b ;;
     c <- rows b top (top + n) ;;
     c <- solve_2x2 p c transpose ;;
     interchange_2_to_3 top nq n (put_rows b top (top + n) c)).

(** [setup_solver] followed by [solve]. *)
Definition setup_and_solve (p : problem) (b : arr num) (transpose : bool) : res (arr num) :=
  match p with
  | Elementary e => elem_solve e b transpose
  | Blocks2 k => st <- setup_solver k ;; solve_2x2 st b transpose
  | Blocks3 top k => st <- setup_solver k ;; solve_3x3 top st b transpose
  end.

(** sparse.cpp:226-279.  [apply] is the call to Ginkgo on a chunk of right-hand sides (buffer and initial
    guess are both the chunk); [Rejected] stands for the exception thrown when it has not converged.  The
    result is the right-hand sides and the chunks that were passed to Ginkgo, in order. *)
Definition columns (m : arr2 num) (lo hi : Z) : res (arr2 num) :=
  if (0 <=? lo) && (lo <=? hi) && (hi <=? a2_m m)
  then Ok (mk_arr2 (a2_n m) (hi - lo) (fun i k => a2_at m i (lo + k))) else Undef.
(** Auxiliary: the assignment of the columns [lo, hi) through a subview. *)
Definition put_columns (m : arr2 num) (lo hi : Z) (c : arr2 num) : arr2 num :=
  mk_arr2 (a2_n m) (a2_m m) (fun i k => if (lo <=? k) && (k <? hi) then a2_at c i (k - lo) else a2_at m i k).
(** See sparse.cpp:226-279. *)
Definition sparse_solve (apply : arr2 num -> res (arr2 num)) (mat_size cols_per_chunk : Z) (b : arr2 num)
  : res (arr2 num * list (Z * Z)) :=
  assert_ (a2_n b =? mat_size)
    (let main_chunk_size := Z.min cols_per_chunk (a2_m b) in
     if main_chunk_size =? 0 then Undef (* division by zero *)
     else
       let iend := u64_sub (u64_add (a2_m b) main_chunk_size) 1 / main_chunk_size in
       for_range 0 iend (fun i '(b, chunks) =>
         let subview_begin := u64_mul i main_chunk_size in
         let subview_end := if u64_add i 1 =? iend then a2_m b else u64_add subview_begin main_chunk_size in
         b_chunk <- columns b subview_begin subview_end ;;
         (* b_buffer and x have main_chunk_size columns *)
         assert_ (u64_sub subview_end subview_begin <=? main_chunk_size)
           (x_chunk <- apply b_chunk ;;
            assert_ (a2_m x_chunk =? a2_m b_chunk)
              (Ok (put_columns b subview_begin subview_end x_chunk, chunks ++ [(subview_begin, subview_end)]))))
         (b, [])).
End Linear.
Arguments Dense {A}. Arguments Band {A}. Arguments PdsBand {A}. Arguments PdsTridiag {A}. Arguments Sparse {A}.
Arguments mk_blocks {A}. Arguments bk_size {A}. Arguments bk_top_left {A}. Arguments bk_top_right {A}.
Arguments bk_bottom_left {A}. Arguments bk_bottom_right {A}.
Arguments Elementary {A}. Arguments Blocks2 {A}. Arguments Blocks3 {A}.
Arguments mk_coo {A}. Arguments coo_nrows {A}. Arguments coo_ncols {A}. Arguments coo_entries {A}.
Arguments mk_prepared {A}. Arguments pr_size {A}. Arguments pr_top_left {A}. Arguments pr_top_right {A}.
Arguments pr_bottom_left {A}. Arguments pr_bottom_right {A}.
Arguments mk_solvers {A}. Arguments getrs {A}. Arguments gbtrs {A}. Arguments pbtrs {A}. Arguments pttrs {A}. Arguments bicgstab {A}.
Arguments elem_size {A}. Arguments prob_size {A}. Arguments required_rows {A}.
