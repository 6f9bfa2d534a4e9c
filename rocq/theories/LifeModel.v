(** Model of examples/game_of_life.cpp. *)
From Verif Require Export ProgramModel.

(** game_of_life.cpp:16-21: the dimensions. *)
Definition gx : tag := 1%nat.
(** See game_of_life.cpp:16-21. *)
Definition gy : tag := 2%nat.

(** game_of_life.cpp:23-39 [blinker_init]: the call for one element assigns whether it is in [cells_alive]. *)
Definition blinker_init (domain : domain) (cells : span) (s : machine bool) : res (machine bool) :=
  inside <- remove_first domain [(gx, 1); (gy, 2)] ;;
  cells_alive <- take_first inside [(gx, 3); (gy, 1)] ;;
  launch (parallel_for_each domain (fun ixy =>
    c <- contains cells_alive [ixy] ;; a <- span_access cells [ixy] ;; Ok (PWrite a c PRet))) s.

(** game_of_life.cpp:85-91: the cells read by the two loops over [-1, 2), in order. *)
Definition window (cells : span) (ix iy : tagged) : res (list Z) :=
  map_res (fun ij => x <- elem_add ix [(gx, fst ij)] ;; y <- elem_add iy [(gy, snd ij)] ;; span_access cells [x; y])
    [(-1, -1); (-1, 0); (-1, 1); (0, -1); (0, 0); (0, 1); (1, -1); (1, 0); (1, 1)].
(** game_of_life.cpp:85-91: [if (cells_in(...)) alive_neighbors++] for each of them. *)
Fixpoint count_alive (l : list Z) (alive_neighbors : Z) (k : Z -> prog bool) : prog bool :=
  match l with
  | [] => k alive_neighbors
  | a :: r => PRead a (fun v => count_alive r (if (v : bool) then alive_neighbors + 1 else alive_neighbors) k)
  end.
(** game_of_life.cpp:80-104: the functor. *)
Definition life_call (cells_in cells_out : span) (ixy : tagged) : res (prog bool) :=
  ix <- select [gx] ixy ;; iy <- select [gy] ixy ;;
  l <- window cells_in ix iy ;;
  c <- span_access cells_in [ixy] ;; o <- span_access cells_out [ixy] ;;
  Ok (count_alive l 0 (fun alive_neighbors => PRead c (fun v =>
    if (v : bool) then
      let alive := alive_neighbors - 1 in
      if (alive <? 2) || (3 <? alive) then PWrite o false PRet else PRet
    else if alive_neighbors =? 3 then PWrite o true PRet else PRet))).

(** game_of_life.cpp:74-107: one iteration.  [shown] are the contents printed so far. *)
Definition life_iteration (inner : domain) (cells_in cells_out host : span) (g : nat -> list Z)
    (st : machine bool * list (list bool)) : res (machine bool * list (list bool)) :=
  let (s, shown) := st in
  s1 <- launch (parallel_deepcopy host cells_in (g 4%nat) (g 4%nat)) s ;;
  text <- contents (p_mem s1) host ;;
  s2 <- launch (parallel_for_each inner (life_call cells_in cells_out)) s1 ;;
  s3 <- launch (parallel_deepcopy cells_in cells_out (g 4%nat) (g 4%nat)) s2 ;;
  Ok (s3, shown ++ [text]).

(** game_of_life.cpp:41-112 [main], with any number of iterations and any extents instead of the constants 10, 5
    and 5.  [p_in], [p_out], [p_host] are the addresses of the allocations; [g n] are the [n] uninitialised entries
    of an array of a conversion to a Kokkos view.  The result is the sequence of printed contents. *)
Definition life_main (nt length height p_in p_out p_host : Z) (g : nat -> list Z) (s : machine bool)
    : res (machine bool * list (list bool)) :=
  domain_x <- init_trivial_bounded_space gx length ;;
  domain_y <- init_trivial_bounded_space gy height ;;
  domain_xy <- dom_merge [gx; gy] [domain_x; domain_y] ;;
  inner <- remove_both domain_xy [(gx, 1); (gy, 1)] [(gx, 1); (gy, 1)] ;;
  cells_in <- span_of_ptr LRight p_in domain_xy ;;
  cells_out <- span_of_ptr LRight p_out domain_xy ;;
  host <- create_mirror cells_in p_host ;;
  s1 <- blinker_init domain_xy cells_in s ;;
  s2 <- blinker_init domain_xy cells_out s1 ;;
  ' (s3, shown) <- for_range 0 nt (fun _ => life_iteration inner cells_in cells_out host g) (s2, []) ;;
  s4 <- launch (parallel_deepcopy host cells_in (g 4%nat) (g 4%nat)) s3 ;;
  text <- contents (p_mem s4) host ;;
  Ok (s4, shown ++ [text]).
