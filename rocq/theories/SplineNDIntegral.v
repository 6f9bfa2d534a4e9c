(** Integrals in any number of dimensions. *)
From Coq Require Import Bool ZArith Lia Reals Lra ZifyBool List.
From Coquelicot Require Import Coquelicot.
From Verif Require Import SplineNDSpec LoopProofs SamplingProofs BSplineDeriv BSplineMath IntegralMath IntegralMath2 IntegralProofs EvaluatorSpace EvaluatorProofs EvaluatorProofs2 Spline2DProofs Spline2DMath Spline2DEval Spline2DEval2 Spline2DIntegral
  SplineNDProofs SplineNDEval SplineNDEval2.
Import ListNotations.
Local Open Scope bool_scope. Local Open Scope Z_scope.

Lemma in_ext : forall bs F G v, (forall ys, length ys = length bs -> F ys = G ys) -> integral_nd bs F v -> integral_nd bs G v.
Proof.
  induction bs as [|[a b] bs IH]; intros F G v E; cbn [integral_nd].
  - intros <-. symmetry. now apply E.
  - intros (g & H1 & H2). exists g. split; [|exact H2]. intros x. apply (IH (fun ys => F (x :: ys))); [|apply H1]. intros ys Hl. apply E. cbn. lia.
Qed.
Lemma in_plus : forall bs F G v w, integral_nd bs F v -> integral_nd bs G w -> integral_nd bs (fun ys => F ys + G ys)%R (v + w)%R.
Proof.
  induction bs as [|[a b] bs IH]; intros F G v w; cbn [integral_nd].
  - now intros <- <-.
  - intros (g & H1 & H2) (k & K1 & K2). exists (fun x => g x + k x)%R. split; [|exact (is_RInt_plus (V := R_NormedModule) _ _ _ _ _ _ H2 K2)].
    intros x. apply (IH (fun ys => F (x :: ys)) (fun ys => G (x :: ys))); auto.
Qed.
Lemma in_scal : forall bs F v k, integral_nd bs F v -> integral_nd bs (fun ys => F ys * k)%R (v * k)%R.
Proof.
  induction bs as [|[a b] bs IH]; intros F v k; cbn [integral_nd].
  - now intros <-.
  - intros (g & H1 & H2). exists (fun x => g x * k)%R. split; [intros x; now apply (IH (fun ys => F (x :: ys)))|].
    rewrite Rmult_comm. unfold integral. eapply is_RInt_ext; [|exact (is_RInt_scal (V := R_NormedModule) _ _ _ k _ H2)]. intros x _. apply Rmult_comm.
Qed.
Lemma in_zero : forall bs, integral_nd bs (fun _ => 0%R) 0%R.
Proof.
  induction bs as [|[a b] bs IH]; cbn [integral_nd]; [reflexivity|]. exists (fun _ => 0%R). split; [intros _; exact IH|]. unfold integral.
  pose proof (is_RInt_const (V := R_NormedModule) a b 0%R) as K. revert K. match goal with |- is_RInt _ _ _ ?z -> _ => replace z with 0%R by (symmetry; exact (Rmult_0_r _)) end. intros K. exact K.
Qed.
Lemma in_zsum : forall bs n (F : Z -> list R -> R) (a v : Z -> R), 0 <= n ->
  (forall i, 0 <= i < n -> integral_nd bs (F i) (v i)) -> integral_nd bs (fun ys => zsum n (fun i => F i ys * a i)%R) (zsum n (fun i => v i * a i)%R).
Proof.
  intros bs n F a v Hn. revert n Hn. apply (natlike_ind (fun n => (forall i, 0 <= i < n -> integral_nd bs (F i) (v i)) ->
    integral_nd bs (fun ys => zsum n (fun i => F i ys * a i)%R) (zsum n (fun i => v i * a i)%R))).
  - intros _. change (zsum 0 _) with 0%R. eapply in_ext; [|exact (in_zero bs)]. intros ys _. reflexivity.
  - intros n Hn IH Hi. unfold Z.succ. rewrite zsum_S by lia.
    eapply in_ext; [|apply (in_plus bs (fun ys => zsum n (fun i => F i ys * a i)%R) (fun ys => F n ys * a n)%R); [apply IH; intros; apply Hi; lia | apply in_scal; apply Hi; lia]].
    intros ys _. cbn beta. now rewrite zsum_S by lia.
Qed.
(** The sum of the coefficients times the integrals of the basis. *)
Fixpoint summed (As : list axis) (ws : list (chunk_1d RA)) (c : list Z -> R) : R :=
  match As, ws with
  | A :: As, w :: ws => zsum (ax_size A) (fun i => summed As ws (fun is => c (i :: is)) * a_at (c1_vals RA w) i)%R
  | _, _ => c []
  end.
Lemma summed_ext : forall As ws c c', length ws = length As -> (forall is, in_sizes (map ax_size As) is -> c is = c' is) -> summed As ws c = summed As ws c'.
Proof.
  induction As as [|A As IH]; intros [|w ws] c c' Hl E; try discriminate; cbn [summed]; [apply E; constructor|]. apply zsum_ext. intros i Hi. f_equal. apply IH; [now injection Hl|].
  intros is Hi'. apply E. constructor; [lia | exact Hi'].
Qed.
Definition bounds_of (As : list axis) : list (R * R) := map (fun A => (ax_min A, ax_max A)) As.
Lemma summed_integral : forall dims As, spaces_of dims As -> forall ws c, Forall2 integrals As ws -> periodic_nd As c -> integral_nd (bounds_of As) (spline_nd As c) (summed As ws c).
Proof.
  induction 1 as [|[s m] A dims As HA _ IH]; intros ws c Hw Hp; inversion Hw as [|? w ? ws' W1 W2]; subst; [reflexivity|]. destruct Hp as [P1 P2]. pose proof (one_sizes A s HA) as Hs.
  cbn [bounds_of map integral_nd]. fold (bounds_of As). exists (spline_1d A (fun i => summed As ws' (fun is => c (i :: is)))). split.
  - intros x. rewrite spline_1d_sum, sum_first_zsum.
    eapply in_ext; [|apply (in_zsum (bounds_of As) (ax_size A) (fun i ys => spline_nd As (fun is => c (i :: is)) ys) (fun i => basis A i x)); [unfold ax_size; lia | intros i Hi; exact (IH ws' _ W2 (P2 i Hi))]].
    intros ys _. cbn beta. rewrite spline_nd_cons, spline_1d_sum, sum_first_zsum. reflexivity.
  - cbn [summed]. apply (integral_spline A s HA w _ W1). intros Ep r Hr. apply summed_ext; [clear -W2; induction W2; cbn; congruence|]. intros is Hi. exact (P1 Ep is Hi r Hr).
Qed.
Definition few_cells (d : dim RA) (A : axis) : Prop := bs_uniform RA (fst d) = true -> ax_periodic A = false -> ax_degree A <= ax_cells A.
Lemma all_integrals_ok : forall dims As, spaces_of dims As -> Forall2 few_cells dims As -> forall qs, length qs = length dims ->
  exists ws, all_integrals RA dims qs (map (fun _ => 0) As) (map ax_size As) = Ok ws /\ Forall2 integrals As ws.
Proof.
  induction 1 as [|[s m] A dims As HA _ IH]; intros Hf [|[q junk] qs] Hq; try discriminate; inversion Hf as [|? ? ? ? F1 F2]; subst; [exists []; split; [reflexivity | constructor]|].
  destruct (IH F2 qs (f_equal pred Hq)) as (ws & E & W). destruct (integrals_ok A s HA q m junk F1) as (w & E1 & W1). exists (w :: ws). split; [|constructor; assumption].
  cbn [all_integrals map]. rewrite E1. cbn [rbind]. rewrite E. reflexivity.
Qed.
Definition picked (ws : list (chunk_1d RA)) (is : list Z) : list R := map (fun '(w, i) => a_at (c1_vals RA w) i) (combine ws is).
Lemma at_elem_ok : forall dims As, spaces_of dims As -> forall ws is, Forall2 integrals As ws -> in_sizes (map ax_size As) is -> at_elem RA ws is = Ok (picked ws is : list (num RA)).
Proof.
  induction 1 as [|[s m] A dims As HA _ IH]; intros ws is Hw Hi; inversion Hw as [|? w ? ws' W1 W2]; inversion Hi as [|? i ? is' I1 I2]; subst; [reflexivity|].
  cbn [at_elem]. rewrite (integrals_get A s HA w i W1 I1). cbn [rbind]. rewrite (IH ws' is' W2 I2). reflexivity.
Qed.
Lemma nsum_summed : forall As ws c, Forall2 integrals As ws -> nsum (map ax_size As) (fun is => c is * product RA (picked ws is))%R = summed As ws c.
Proof.
  induction As as [|A As IH]; intros ws c Hw; inversion Hw as [|? w ? ws' W1 W2]; subst; [cbn; ring|]. cbn [map nsum summed]. apply zsum_ext. intros i _.
  rewrite <- (IH ws' (fun is => c (i :: is)) W2), Rmult_comm, <- nsum_scal. apply nsum_ext. intros is _. unfold picked. cbn [combine map]. rewrite product_cons. ring.
Qed.
Lemma plus_zero As is : Forall (fun A => 1 <= ax_cells A /\ 1 <= ax_degree A /\ ax_size A < 2 ^ 31) As -> in_sizes (map ax_size As) is -> plus_nd (map (fun _ => 0) As) is = is.
Proof.
  intros Hs. revert is. induction Hs as [|A As H _ IH]; intros is Hi; inversion Hi as [|? i ? is' I1 I2]; subst; [reflexivity|]. cbn [map plus_nd]. rewrite IH by exact I2. f_equal. unfold u64_add. rewrite u64_small; lia.
Qed.
Theorem integrate_nd_values dims As : spaces_of dims As -> forall qs nbatch (coef : Z -> chunk_nd RA) (out : arr R), length qs = length dims -> 0 <= nbatch -> a_len out = nbatch ->
  Forall2 (fun d A => bs_uniform RA (fst d) = true -> ax_periodic A = false -> ax_degree A <= ax_cells A) dims As ->
  (forall j, 0 <= j < nbatch -> has_coefficients_nd (coef j) (map ax_size As) /\ periodic_nd As (coefficient_nd (coef j))) ->
  exists out', integrate_nd RA dims qs (map (fun _ => 0) As) (map ax_size As) nbatch coef out = Ok out' /\ a_len out' = nbatch /\
    forall j, 0 <= j < nbatch -> integral_nd (map (fun A => (ax_min A, ax_max A)) As) (spline_nd As (coefficient_nd (coef j))) (a_at out' j).
Proof.
  intros Sp qs nbatch coef out Hq Hb Hout Hf Hc. destruct (all_integrals_ok dims As Sp Hf qs Hq) as (ws & E & W). unfold integrate_nd. rewrite E. cbn [rbind]. change (num RA) with R in *.
  set (body := fun j is (out : arr R) => let e := plus_nd (map (fun _ => 0) As) is in o <- aget out j ;; c <- cn_get RA (coef j) e ;; vs <- at_elem RA ws e ;; aset out j (nadd RA o (nmul RA c (product RA vs)))).
  destruct (for_range_inv (fun j (o : arr R) => a_len o = nbatch /\ forall j', 0 <= j' < j -> a_at o j' = summed As ws (coefficient_nd (coef j')))
    (fun j (out : arr R) => out <- aset out j 0%R ;; for_each (map ax_size As) (body j) [] out) 0 nbatch out) as (o & E' & O1 & O2).
  - lia.
  - split; [exact Hout | lia].
  - intros j o Hj (O1 & O2). rewrite aset_ok by lia. cbn [rbind].
    destruct (for_each_sum (fun o' : arr R => a_len o' = nbatch /\ forall j', 0 <= j' < j -> a_at o' j' = a_at o j') (fun o' => a_at o' j) (fun is => coefficient_nd (coef j) is * product RA (picked ws is))%R
      (body j) (map ax_size As) [] (mk_arr (a_len o) (upd (a_at o) j 0%R))) as (o' & E3 & (P1 & P2) & P3).
    + apply Forall_map. eapply Forall_impl; [|exact (spaces_sizes dims As Sp)]. cbn beta. unfold ax_size. intros a H. lia.
    + intros is o' Hi (P1 & P2). cbn [app]. unfold body. cbv zeta. rewrite (plus_zero As is (spaces_sizes dims As Sp) Hi). rewrite aget_ok by lia. cbn [rbind].
      rewrite (cn_get_ok dims As (coef j) is Sp (proj1 (Hc j Hj)) Hi). cbn [rbind]. rewrite (at_elem_ok dims As Sp ws is W Hi). cbn [rbind]. rewrite aset_ok by lia. eexists. split; [reflexivity|]. cbn [a_len a_at].
      split; [split; [exact P1 | intros j' Hj'; rewrite upd_neq by lia; now apply P2]|]. rewrite upd_eq. reflexivity.
    + cbn [a_len a_at]. split; [exact O1|]. intros j' Hj'. now rewrite upd_neq by lia.
    + exists o'. split; [exact E3|]. split; [exact P1|]. intros j' Hj'. destruct (Z.eq_dec j' j) as [->|N].
      * rewrite P3. cbn [a_at app]. rewrite upd_eq, Rplus_0_l. now apply nsum_summed.
      * rewrite P2 by lia. apply O2. lia.
  - exists o. split; [exact E'|]. split; [exact O1|]. intros j Hj. rewrite (O2 j Hj). apply (summed_integral dims As Sp ws _ W). apply (Hc j Hj).
Qed.
