(** Model of src/ddc/uniform_point_sampling.hpp, src/ddc/periodic_sampling.hpp and
    src/ddc/non_uniform_point_sampling.hpp.  A [Coordinate<CDim>] of one dimension is a number; [q] is the
    tag of the discrete dimension.  [assert] is active in debug builds only: a failed assertion is
    [Undef]. *)
From Verif Require Export ArithModel DomainModel.

Section Sampling.
Context (A : arith).
Notation num := (num A).
Open Scope num_scope.
Open Scope Z_scope.
(** discrete_element.hpp:153-156 *)
Definition reference_element : Z := 0.
(** [DiscreteElement<DDim> - DiscreteElement<DDim>] converted to [ptrdiff_t]: discrete_element.hpp:427-434. *)
Definition elem_minus (i j : Z) : Z := i64 (u64_sub i j).

(** ** uniform_point_sampling.hpp *)
(** uniform_point_sampling.hpp:52-56: [m_origin], [m_step], [m_reference]. *)
Record uniform_sampling := mk_us { us_origin : num; us_step : num; us_front : Z }.
(** uniform_point_sampling.hpp:91-97 *)
Definition us_construct (origin step : num) : res uniform_sampling :=
  if nltb A (nofz A 0) step then Ok (mk_us origin step reference_element) else Undef.
(** uniform_point_sampling.hpp:124-128: the [DiscreteVector] is converted to [double] before the product. *)
Definition us_coordinate (s : uniform_sampling) (icoord : Z) : num :=
  (us_origin s + nofz A (elem_minus icoord (us_front s)) * us_step s)%N_.
(** uniform_point_sampling.hpp:140-150: [n - 1] is a signed subtraction. *)
Definition us_init (q : tag) (a b : num) (n : Z) : res (uniform_sampling * domain) :=
  if nltb A a b then if 1 <? n then
    rbind (ssub n 1) (fun n1 =>
    rbind (us_construct a ((b - a) / nofz A n1)%N_) (fun disc =>
    rbind (mk_domain [(q, us_front disc)] [(q, n)]) (fun domain => Ok (disc, domain))))
  else Undef else Undef.
(** The domains returned by [init_ghosted]. *)
Record ghosted := mk_ghosted { g_main : domain; g_all : domain; g_pre : domain; g_post : domain }.
(** uniform_point_sampling.hpp:182-185, periodic_sampling.hpp:210-213,
    non_uniform_point_sampling.hpp:181-184: the same statements. *)
Definition ghost_domains (q : tag) (front n n_before n_after : Z) : res ghosted :=
  rbind (sadd n n_before) (fun m => rbind (sadd m n_after) (fun total =>
  rbind (mk_domain [(q, front)] [(q, total)]) (fun ghosted_domain =>
  rbind (take_first ghosted_domain [(q, n_before)]) (fun pre_ghost =>
  rbind (remove_both ghosted_domain [(q, n_before)] [(q, n_after)]) (fun main_domain =>
  rbind (take_last ghosted_domain [(q, n_after)]) (fun post_ghost =>
  Ok (mk_ghosted main_domain ghosted_domain pre_ghost post_ghost))))))).
(** uniform_point_sampling.hpp:163-192 *)
Definition us_init_ghosted (q : tag) (a b : num) (n n_before n_after : Z) : res (uniform_sampling * ghosted) :=
  if nltb A a b then if 1 <? n then
    rbind (ssub n 1) (fun n1 =>
    let step := ((b - a) / nofz A n1)%N_ in
    rbind (us_construct (a - nofz A n_before * step)%N_ step) (fun disc =>
    rbind (ghost_domains q (us_front disc) n n_before n_after) (fun g => Ok (disc, g))))
  else Undef else Undef.
(** uniform_point_sampling.hpp:204-218: the same number of ghosts on both sides. *)
Definition us_init_ghosted_sym (q : tag) (a b : num) (n n_ghosts : Z) : res (uniform_sampling * ghosted) :=
  us_init_ghosted q a b n n_ghosts n_ghosts.
(** uniform_point_sampling.hpp:273-285 *)
Definition us_distance_at_left (s : uniform_sampling) (_ : Z) : num := us_step s.
(** See uniform_point_sampling.hpp:273-285. *)
Definition us_distance_at_right (s : uniform_sampling) (_ : Z) : num := us_step s.

(** uniform_point_sampling.hpp:287-306, periodic_sampling.hpp:316-335, non_uniform_point_sampling.hpp:239-258:
    [rmin], [rmax], [rlength] of a domain of one dimension, for a given [coordinate]. *)
Section Range.
Context (coordinate : Z -> res num).
(** Auxiliary: the conversion of a one-dimensional element to its value (discrete_element.hpp:153-156). *)
Definition one_elem (e : tagged) : res Z := match e with [(_, i)] => Ok i | _ => Rejected end.
(** See uniform_point_sampling.hpp:287-306; periodic_sampling.hpp:316-335; non_uniform_point_sampling.hpp:239-258. *)
Definition rmin (d : domain) : res num := rbind (one_elem (front d)) coordinate.
(** See uniform_point_sampling.hpp:287-306; periodic_sampling.hpp:316-335; non_uniform_point_sampling.hpp:239-258. *)
Definition rmax (d : domain) : res num := rbind (one_elem (back d)) coordinate.
(** See uniform_point_sampling.hpp:287-306; periodic_sampling.hpp:316-335; non_uniform_point_sampling.hpp:239-258. *)
Definition rlength (d : domain) : res num :=
  rbind (rmax d) (fun y => rbind (rmin d) (fun x => Ok (y - x)%N_)).
End Range.
(** uniform_point_sampling.hpp:124-128 *)
Definition us_coord (s : uniform_sampling) (i : Z) : res num := Ok (us_coordinate s i).

(** ** periodic_sampling.hpp *)
(** periodic_sampling.hpp:53-59 *)
Record periodic_sampling := mk_ps { ps_origin : num; ps_step : num; ps_n_period : Z; ps_front : Z }.
(** periodic_sampling.hpp:97-105 *)
Definition ps_construct (origin step : num) (n_period : Z) : res periodic_sampling :=
  if nltb A (nofz A 0) step then if 0 <? n_period then Ok (mk_ps origin step n_period reference_element) else Undef else Undef.
(** Conversion to [int] (32 bits): the representative in [-2^31, 2^31) (C++20). *)
Definition i32 (z : Z) : Z := (z + 2 ^ 31) mod 2 ^ 32 - 2 ^ 31.
(** The difference of two [int]s: overflow is undefined. *)
Definition i32_sub (a b : Z) : res Z :=
  if (- 2 ^ 31 <=? a - b) && (a - b <? 2 ^ 31) then Ok (a - b) else Undef.
(** periodic_sampling.hpp:138-146: [icoord - front()] is a [DiscreteVector], to which a [size_t] is added: the sum is a
    [size_t] (discrete_vector.hpp:147-153) converted to [ptrdiff_t]; [% m_n_period] converts it back to
    [size_t]. *)
Definition ps_coordinate (s : periodic_sampling) (icoord : Z) : res num :=
  if ps_n_period s =? 0 then Undef else
  let v := i64 (u64_add (u64 (elem_minus icoord (ps_front s))) (ps_n_period s / 2)) in
  rbind (i32_sub (i32 (u64 v mod ps_n_period s)) (i32 (ps_n_period s / 2))) (fun k =>
  Ok (ps_origin s + nofz A k * ps_step s)%N_).
(** periodic_sampling.hpp:159-173: the [DiscreteVector] [n_period] is converted to [size_t]. *)
Definition ps_init (q : tag) (a b : num) (n n_period : Z) : res (periodic_sampling * domain) :=
  if nltb A a b then if 1 <? n then if 1 <? n_period then
    rbind (ssub n 1) (fun n1 =>
    rbind (ps_construct a ((b - a) / nofz A n1)%N_ (u64 n_period)) (fun disc =>
    rbind (mk_domain [(q, ps_front disc)] [(q, n)]) (fun domain => Ok (disc, domain))))
  else Undef else Undef else Undef.
(** periodic_sampling.hpp:187-220 *)
Definition ps_init_ghosted (q : tag) (a b : num) (n n_period n_before n_after : Z) : res (periodic_sampling * ghosted) :=
  if nltb A a b then if 1 <? n then if 1 <? n_period then
    rbind (ssub n 1) (fun n1 =>
    let step := ((b - a) / nofz A n1)%N_ in
    rbind (ps_construct (a - nofz A n_before * step)%N_ step (u64 n_period)) (fun disc =>
    rbind (ghost_domains q (ps_front disc) n n_before n_after) (fun g => Ok (disc, g))))
  else Undef else Undef else Undef.

(** ** non_uniform_point_sampling.hpp *)
(** non_uniform_point_sampling.hpp:55-57 *)
Record non_uniform_sampling := mk_ns { ns_points : list num; ns_front : Z }.
(** [std::is_sorted]: no element is less than the one before it. *)
Fixpoint is_sorted (l : list num) : bool :=
  match l with
  | x :: (y :: _) as l' => if nltb A y x then false else is_sorted l'
  | _ => true
  end.
(** non_uniform_point_sampling.hpp:82-95: [None] is the exception.  The points are copied. *)
Definition ns_construct (points : list num) : option non_uniform_sampling :=
  if is_sorted points then Some (mk_ns points reference_element) else None.
(** non_uniform_point_sampling.hpp:126-130: an index out of the view is undefined. *)
Definition nth_z (l : list num) (k : Z) : res num :=
  if k <? 0 then Undef else match nth_error l (Z.to_nat k) with Some x => Ok x | None => Undef end.
(** See non_uniform_point_sampling.hpp:126-130. *)
Definition ns_coordinate (s : non_uniform_sampling) (icoord : Z) : res num :=
  nth_z (ns_points s) (elem_minus icoord (ns_front s)).
(** non_uniform_point_sampling.hpp:138-147: [Ok None] is the exception; sizes are below 2^63. *)
Definition ns_init (q : tag) (points : list num) : res (option (non_uniform_sampling * domain)) :=
  match points with
  | [] => Undef
  | _ => match ns_construct points with
         | None => Ok None
         | Some disc => rbind (mk_domain [(q, ns_front disc)] [(q, Z.of_nat (length points))]) (fun d => Ok (Some (disc, d)))
         end
  end.
(** non_uniform_point_sampling.hpp:155-191 *)
Definition ns_init_ghosted (q : tag) (domain_r pre_ghost_r post_ghost_r : list num)
    : res (option (non_uniform_sampling * ghosted)) :=
  match domain_r with
  | [] => Undef
  | _ => match ns_construct (pre_ghost_r ++ domain_r ++ post_ghost_r) with
         | None => Ok None
         | Some disc =>
             rbind (ghost_domains q (ns_front disc) (Z.of_nat (length domain_r)) (Z.of_nat (length pre_ghost_r))
                      (Z.of_nat (length post_ghost_r))) (fun g => Ok (Some (disc, g)))
         end
  end.
(** non_uniform_point_sampling.hpp:225-237: [i - 1] and [i + 1] are unsigned. *)
Definition ns_distance_at_left (s : non_uniform_sampling) (i : Z) : res num :=
  rbind (ns_coordinate s i) (fun y => rbind (ns_coordinate s (u64_sub i 1)) (fun x => Ok (y - x)%N_)).
(** See non_uniform_point_sampling.hpp:225-237. *)
Definition ns_distance_at_right (s : non_uniform_sampling) (i : Z) : res num :=
  rbind (ns_coordinate s (u64_add i 1)) (fun y => rbind (ns_coordinate s i) (fun x => Ok (y - x)%N_)).
End Sampling.
