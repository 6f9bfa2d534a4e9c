(** Evaluation outside of the domain, and batches, in any number of dimensions. *)
From Coq Require Import Bool ZArith Lia Reals Lra ZifyBool List.
From Verif Require Import SplineNDSpec LoopProofs SamplingProofs BSplineDeriv BSplineMath IntegralMath IntegralMath2 IntegralProofs EvaluatorSpace EvaluatorProofs EvaluatorProofs2 Spline2DProofs Spline2DMath Spline2DEval Spline2DEval2 SplineNDProofs SplineNDEval.
Import ListNotations.
Local Open Scope bool_scope. Local Open Scope Z_scope.

Lemma in_sizes_cons n i ns is : in_sizes (n :: ns) (i :: is) <-> 0 <= i < n /\ in_sizes ns is.
Proof. split; [now inversion 1 | intros []; now constructor]. Qed.
(** *** inside *)
Lemma update_inside : forall dims As, spaces_of dims As -> forall xs, Forall2 inside As xs -> update_coord_eval RA dims xs = Ok (xs : list (num RA)).
Proof.
  induction 1 as [|[s m] A dims As HA _ IH]; intros xs Hx; inversion Hx as [|? x ? xs' X1 X2]; subst; [reflexivity|]. cbn [update_coord_eval].
  rewrite (wrap_inside A s HA x X1). cbn [rbind]. exact (f_equal (fun r => rbind r (fun xs => Ok (x :: xs))) (IH xs' X2)).
Qed.
Lemma check_inside A s (l u : rule_nd RA) x xs c : space_of s A -> inside A x -> check_needs_extrapolation RA s x l u xs c = Ok None.
Proof.
  intros Sp Hx. pose proof (space_facts _ _ _ _ _ _ _ Sp) as F. unfold check_needs_extrapolation. rewrite (f_rmin _ _ _ _ _ _ _ F), (f_rmax _ _ _ _ _ _ _ F). cbn [rbind]. destruct (bs_periodic RA s); [reflexivity|].
  unfold inside in Hx. cbn [RA nltb num]. unfold R_ltb. destruct (Rlt_dec x (ax_min A)) as [L|L]; [lra|]. destruct (Rlt_dec (ax_max A) x) as [L'|L']; [lra|]. reflexivity.
Qed.
Lemma check_below A s (l u : rule_nd RA) x xs c : space_of s A -> ax_periodic A = false -> (x < ax_min A)%R -> check_needs_extrapolation RA s x l u xs c = (r <- l xs c ;; Ok (Some r)).
Proof.
  intros Sp Hp Hx. pose proof (space_facts _ _ _ _ _ _ _ Sp) as F. unfold check_needs_extrapolation. rewrite (f_rmin _ _ _ _ _ _ _ F), (f_rmax _ _ _ _ _ _ _ F), (f_per _ _ _ _ _ _ _ F), Hp. cbn [rbind].
  cbn [RA nltb num]. unfold R_ltb. destruct (Rlt_dec x (ax_min A)); [reflexivity | lra].
Qed.
Lemma check_above A s (l u : rule_nd RA) x xs c : space_of s A -> ax_periodic A = false -> (ax_max A < x)%R -> check_needs_extrapolation RA s x l u xs c = (r <- u xs c ;; Ok (Some r)).
Proof.
  intros Sp Hp Hx. pose proof (space_facts _ _ _ _ _ _ _ Sp) as F. pose proof (f_ab _ _ _ _ _ _ _ F) as Hab.
  unfold check_needs_extrapolation. rewrite (f_rmin _ _ _ _ _ _ _ F), (f_rmax _ _ _ _ _ _ _ F), (f_per _ _ _ _ _ _ _ F), Hp. cbn [rbind].
  cbn [RA nltb num]. unfold R_ltb. destruct (Rlt_dec x (ax_min A)); [lra|]. destruct (Rlt_dec (ax_max A) x); [reflexivity | lra].
Qed.
Lemma no_extrapolation : forall dims As, spaces_of dims As -> forall rules cur xs c, length rules = length dims -> Forall2 inside As cur -> needs_extrapolation RA dims rules cur xs c = Ok None.
Proof.
  induction 1 as [|[s m] A dims As HA _ IH]; intros [|[l u] rules] cur xs c Hr Hx; try discriminate; inversion Hx as [|? x ? xs' X1 X2]; subst; [reflexivity|]. cbn [needs_extrapolation].
  rewrite (check_inside A s l u x xs c HA X1). cbn [rbind]. apply IH; [cbn in Hr; lia | exact X2].
Qed.
Theorem eval_nd_inside dims As : spaces_of dims As -> forall rules xs (c : chunk_nd RA), length rules = length dims -> has_coefficients_nd c (map ax_size As) -> Forall2 inside As xs ->
  eval_nd RA dims rules xs c = Ok (spline_nd As (coefficient_nd c) xs : num RA).
Proof.
  intros Sp rules xs c Hr Hc Hx. unfold eval_nd. rewrite (update_inside dims As Sp xs Hx). cbn [rbind]. rewrite (no_extrapolation dims As Sp rules xs xs c Hr Hx). cbn [rbind]. now apply no_bc_nd_value.
Qed.
(** *** up to a number of periods *)
Lemma all3_length {X Y Z} (P : X -> Y -> Z -> Prop) : forall l1 l2 l3, all3 P l1 l2 l3 -> length l2 = length l1 /\ length l3 = length l1.
Proof. induction l1 as [|x l1 IH]; intros [|y l2] [|z l3] H; try contradiction; [split; reflexivity|]. destruct H as [_ H]. destruct (IH _ _ H). cbn. lia. Qed.
Lemma update_lands : forall dims As, spaces_of dims As -> forall xs xs', all3 lands As xs xs' ->
  exists xs2, update_coord_eval RA dims xs = Ok (xs2 : list (num RA)) /\ Forall2 inside As xs2 /\ forall c, periodic_nd As c -> spline_nd As c xs2 = spline_nd As c xs'.
Proof.
  induction 1 as [|[s m] A dims As HA _ IH]; intros [|x xs] [|x' xs'] H; try contradiction; [exists []; split; [reflexivity|]; split; [constructor | reflexivity]|].
  destruct H as [Hx Hxs]. destruct (IH xs xs' Hxs) as (xs2 & E & I2 & V2). destruct (wrap_congruent A s HA x x' Hx) as (x2 & k & E1 & Hx2 & Ex & Nx).
  exists (x2 :: xs2). split; [|split].
  - cbn [update_coord_eval]. rewrite E1. cbn [rbind]. exact (f_equal (fun r => rbind r (fun xs => Ok (x2 :: xs))) E).
  - constructor; assumption.
  - intros c [P1 P2]. rewrite !spline_nd_cons. transitivity (spline_1d A (fun i => spline_nd As (fun is => c (i :: is)) xs') x2).
    + apply spline_1d_ext. intros i Hi. exact (V2 _ (P2 i Hi)).
    + destruct (bool_dec (ax_periodic A) true) as [Ep|Ep%not_true_is_false]; [|now rewrite Nx]. refine (same_point _ _ _ _ _ _ _ (space_facts _ _ _ _ _ _ _ HA) _ _ _ k Ep _ (proj1 Hx) Hx2 Ex).
      intros r Hr. apply spline_nd_ext; [apply (all3_length lands As xs xs' Hxs)|]. intros is Hi. exact (P1 Ep is Hi r Hr).
Qed.
Theorem eval_nd_lands dims As : spaces_of dims As -> forall rules xs xs' (c : chunk_nd RA), length rules = length dims -> has_coefficients_nd c (map ax_size As) -> periodic_nd As (coefficient_nd c) ->
  all3 lands As xs xs' -> eval_nd RA dims rules xs c = Ok (spline_nd As (coefficient_nd c) xs' : num RA).
Proof.
  intros Sp rules xs xs' c Hr Hc Hp Hx. unfold eval_nd. destruct (update_lands dims As Sp xs xs' Hx) as (xs2 & -> & I2 & V2). cbn [rbind].
  rewrite (no_extrapolation dims As Sp rules xs2 xs2 c Hr I2). cbn [rbind]. rewrite <- (V2 _ Hp). now apply no_bc_nd_value.
Qed.
(** *** outside *)
Lemma update_reduced : forall dims As, spaces_of dims As -> forall xs, length xs = length As ->
  exists xs2, update_coord_eval RA dims xs = Ok (xs2 : list (num RA)) /\ all3 reduced As xs xs2.
Proof.
  induction 1 as [|[s m] A dims As HA _ IH]; intros [|x xs] Hl; try discriminate; [exists []; split; [reflexivity | exact I]|]. injection Hl as Hl. destruct (IH xs Hl) as (xs2 & E & R2).
  destruct (wrap_ok A s HA x) as (x2 & E1 & Hx2). exists (x2 :: xs2). split; [|split; assumption]. cbn [update_coord_eval]. rewrite E1. cbn [rbind]. exact (f_equal (fun r => rbind r (fun xs => Ok (x2 :: xs))) E).
Qed.
Lemma reduced_inside A x x' : reduced A x x' -> ax_periodic A = true \/ inside A x -> inside A x'.
Proof. unfold reduced, lands. destruct (ax_periodic A) eqn:E; [intros [H _] _; exact H|]. intros -> [K|K]; [discriminate | exact K]. Qed.
Lemma extrapolates : forall dims As, spaces_of dims As -> forall rules cur cur' xs c, length rules = length dims -> all3 reduced As cur cur' ->
  forall k A x l u, nth_error As k = Some A -> nth_error cur k = Some x -> nth_error rules k = Some (l, u) -> ax_periodic A = false ->
  (forall j A' x', (j < k)%nat -> nth_error As j = Some A' -> nth_error cur j = Some x' -> ax_periodic A' = true \/ inside A' x') ->
  ((x < ax_min A)%R -> needs_extrapolation RA dims rules cur' xs c = (r <- l xs c ;; Ok (Some r))) /\
  ((ax_max A < x)%R -> needs_extrapolation RA dims rules cur' xs c = (r <- u xs c ;; Ok (Some r))).
Proof.
  induction 1 as [|[s m] A0 dims As HA _ IH]; intros [|[l0 u0] rules] [|x0 cur] [|x0' cur'] xs c Hr Hx; try discriminate; try contradiction.
  { intros [|k]; discriminate. }
  destruct Hx as [Hx Hxs]. intros [|k] A x l u EA Ex Er Hp Hbefore; cbn [nth_error needs_extrapolation] in *.
  - injection EA as ->. injection Ex as ->. injection Er as -> ->. unfold reduced in Hx. rewrite Hp in Hx. subst x0'. split; intros H.
    + rewrite (check_below A s l u x xs c HA Hp H). now destruct (l xs c).
    + rewrite (check_above A s l u x xs c HA Hp H). now destruct (u xs c).
  - rewrite (check_inside A0 s l0 u0 x0' xs c HA). 2: { apply (reduced_inside A0 x0 x0' Hx). apply (Hbefore O); [lia | reflexivity..]. }
    cbn [rbind]. apply (IH rules cur cur' xs c (f_equal pred Hr) Hxs k A x l u EA Ex Er Hp). intros j A' x' Hj. exact (Hbefore (S j) A' x' ltac:(lia)).
Qed.
Theorem eval_nd_outside dims As : spaces_of dims As -> forall rules xs (c : chunk_nd RA), length rules = length dims -> length xs = length As ->
  exists xs', all3 reduced As xs xs' /\
  forall k A x l u, nth_error As k = Some A -> nth_error xs k = Some x -> nth_error rules k = Some (l, u) -> ax_periodic A = false ->
  (forall j A' x', (j < k)%nat -> nth_error As j = Some A' -> nth_error xs j = Some x' -> ax_periodic A' = true \/ inside A' x') ->
  ((x < ax_min A)%R -> eval_nd RA dims rules xs c = l xs' c) /\ ((ax_max A < x)%R -> eval_nd RA dims rules xs c = u xs' c).
Proof.
  intros Sp rules xs c Hr Hl. destruct (update_reduced dims As Sp xs Hl) as (xs' & E & Rd). exists xs'. split; [exact Rd|]. intros k A x l u EA Ex Er Hp Hb.
  destruct (extrapolates dims As Sp rules xs xs' xs' c Hr Rd k A x l u EA Ex Er Hp Hb) as [K1 K2]. unfold eval_nd. rewrite E. cbn [rbind]. split; intros H.
  - rewrite (K1 H). now destruct (l xs' c).
  - rewrite (K2 H). now destruct (u xs' c).
Qed.
(** *** batches *)
Lemma element_offset f k : 0 <= k < 2 ^ 63 -> elem_minus (u64_add f k) f = k.
Proof.
  intros Hk. unfold elem_minus, u64_add, u64_sub. assert (E : u64 (u64 (f + k) - f) = k).
  { transitivity (u64 k); [|apply u64_small; lia]. unfold u64. rewrite Zminus_mod_idemp_l. f_equal. lia. }
  rewrite E. apply i64_small. lia.
Qed.
Lemma plus_element : forall fronts sizes, mesh fronts sizes -> forall idx, in_sizes sizes idx -> plus_nd fronts idx = element_at fronts idx /\ offsets fronts sizes (plus_nd fronts idx) = Ok idx.
Proof.
  induction 1 as [|f n fronts sizes Hf _ IH]; intros idx Hi; inversion Hi as [|? i ? idx' H1 H2]; subst; [split; reflexivity|]. destruct (IH idx' H2) as [K1 K2]. unfold element_at in *. cbn [plus_nd combine map].
  split; [rewrite K1; f_equal; unfold u64_add; rewrite u64_small; lia|]. cbn [offsets]. cbv zeta. rewrite K2. cbn [rbind].
  rewrite element_offset by lia. replace ((0 <=? i) && (i <? n)) with true by lia. reflexivity.
Qed.
Lemma eval_batched_nd_ok (f : list R -> chunk_nd RA -> res R) (w : Z -> list Z -> R) nbatch fronts sizes (coords : Z -> list Z -> list R) (coef out : Z -> chunk_nd RA) :
  0 <= nbatch -> mesh fronts sizes -> (forall j, 0 <= j < nbatch -> on_mesh (out j) fronts sizes) ->
  (forall j idx, 0 <= j < nbatch -> in_sizes sizes idx -> f (coords j (element_at fronts idx)) (coef j) = Ok (w j idx)) ->
  exists out', eval_batched_nd RA f nbatch fronts sizes coords coef out = Ok out' /\
    forall j, 0 <= j < nbatch -> on_mesh (out' j) fronts sizes /\ forall idx, in_sizes sizes idx -> cn_at (out' j) idx = w j idx.
Proof.
  intros Hb Hm Hout Hf. unfold eval_batched_nd. change (num RA) with R.
  set (body := fun j idx (out : Z -> chunk_nd RA) => let e := plus_nd fronts idx in v <- f (coords j e) (coef j) ;; o <- cn_set RA (out j) e v ;; Ok (upd out j o)).
  set (shape := fun o : Z -> chunk_nd RA => forall j, 0 <= j < nbatch -> on_mesh (o j) fronts sizes).
  destruct (for_range_inv (fun j (o : Z -> chunk_nd RA) => shape o /\ forall j' idx, 0 <= j' < j -> in_sizes sizes idx -> cn_at (o j') idx = w j' idx)
    (fun j o => for_each sizes (body j) [] o) 0 nbatch out) as (o & E & O1 & O2).
  - lia.
  - split; [exact Hout | lia].
  - intros j o Hj (O1 & O2).
    destruct (for_each_inv (fun o' : Z -> chunk_nd RA => shape o' /\ forall j', j' <> j -> o' j' = o j') (fun o' idx => cn_at (o' j) idx = w j idx) (body j) sizes [] o) as (o' & E' & (P1 & P2) & P3 & _).
    + clear -Hm. induction Hm; constructor; [lia | assumption].
    + intros idx o' Hi (P1 & P2). cbn [app]. unfold body. cbv zeta. destruct (plus_element fronts sizes Hm idx Hi) as [K1 K2]. rewrite K1 in *. rewrite (Hf j idx Hj Hi). cbn [rbind].
      destruct (P1 j Hj) as [S1 S2]. unfold cn_set. rewrite S1, S2, K2. cbn [rbind]. eexists. split; [reflexivity|]. split; [split|split].
      * intros j' Hj'. destruct (Z.eq_dec j' j) as [->|N]; [rewrite upd_eq; split; reflexivity | rewrite upd_neq by lia; now apply P1].
      * intros j' N. rewrite upd_neq by exact N. now apply P2.
      * rewrite upd_eq. cbn [cn_at]. destruct (list_eq_dec Z.eq_dec idx idx); [reflexivity | contradiction].
      * intros e He. rewrite upd_eq. cbn [cn_at]. destruct (list_eq_dec Z.eq_dec e idx) as [->|N]; [reflexivity | exact He].
    + split; [exact O1 | reflexivity].
    + exists o'. split; [exact E'|]. split; [exact P1|]. intros j' idx Hj' Hi. destruct (Z.eq_dec j' j) as [->|N]; [exact (P3 idx Hi) | rewrite P2 by exact N; apply O2; [lia | exact Hi]].
  - exists o. split; [exact E|]. intros j Hj. split; [exact (O1 j Hj)|]. intros idx Hi. now apply O2.
Qed.
Theorem evaluate_nd_lands dims As : spaces_of dims As -> forall rules nbatch fronts sizes (coords where_ : Z -> list Z -> list R) (coef out : Z -> chunk_nd RA), length rules = length dims ->
  0 <= nbatch -> mesh fronts sizes -> (forall j, 0 <= j < nbatch -> on_mesh (out j) fronts sizes) ->
  (forall j idx, 0 <= j < nbatch -> in_sizes sizes idx -> has_coefficients_nd (coef j) (map ax_size As) /\ periodic_nd As (coefficient_nd (coef j)) /\
     all3 lands As (coords j (element_at fronts idx)) (where_ j idx)) ->
  exists out', evaluate_nd RA dims rules nbatch fronts sizes coords coef out = Ok out' /\
    forall j, 0 <= j < nbatch -> on_mesh (out' j) fronts sizes /\ forall idx, in_sizes sizes idx -> cn_at (out' j) idx = spline_nd As (coefficient_nd (coef j)) (where_ j idx).
Proof.
  intros Sp rules nbatch fronts sizes coords where_ coef out Hr Hb Hm Hout Hc. apply (eval_batched_nd_ok (eval_nd RA dims rules) (fun j idx => spline_nd As (coefficient_nd (coef j)) (where_ j idx))); try assumption.
  intros j idx Hj Hi. destruct (Hc j idx Hj Hi) as (K1 & K2 & K3). now apply eval_nd_lands.
Qed.
Theorem deriv_nd_batched dims As : spaces_of dims As -> forall orders nbatch fronts sizes (coords : Z -> list Z -> list R) (coef out : Z -> chunk_nd RA),
  0 <= nbatch -> mesh fronts sizes -> (forall j, 0 <= j < nbatch -> on_mesh (out j) fronts sizes) -> Forall2 order_valid As orders ->
  (forall j idx, 0 <= j < nbatch -> in_sizes sizes idx -> has_coefficients_nd (coef j) (map ax_size As) /\ Forall2 inside As (coords j (element_at fronts idx))) ->
  exists out', deriv_nd RA dims orders nbatch fronts sizes coords coef out = Ok out' /\
    forall j, 0 <= j < nbatch -> on_mesh (out' j) fronts sizes /\ forall idx, in_sizes sizes idx -> eval_no_bc_nd RA dims orders (coords j (element_at fronts idx)) (coef j) = Ok (cn_at (out' j) idx : num RA).
Proof.
  intros Sp orders nbatch fronts sizes coords coef out Hb Hm Hout Ho Hc.
  set (val := fun j idx => match eval_no_bc_nd RA dims orders (coords j (element_at fronts idx)) (coef j) with Ok v => v | _ => 0%R end).
  assert (Hv : forall j idx, 0 <= j < nbatch -> in_sizes sizes idx -> eval_no_bc_nd RA dims orders (coords j (element_at fronts idx)) (coef j) = Ok (val j idx : num RA)).
  { intros j idx Hj Hi. destruct (Hc j idx Hj Hi) as (K1 & K2). destruct (no_bc_weighted dims As orders _ (coef j) Sp K1 K2 Ho) as (bs & gs & _ & _ & E). unfold val. rewrite E. reflexivity. }
  destruct (eval_batched_nd_ok (eval_no_bc_nd RA dims orders) val nbatch fronts sizes coords coef out Hb Hm Hout Hv) as (out' & E & Ho'). exists out'. split; [exact E|].
  intros j Hj. destruct (Ho' j Hj) as (S1 & S2). split; [exact S1|]. intros idx Hi. rewrite S2 by assumption. now apply Hv.
Qed.
