(** A direct solver: elimination with pivoting, on real numbers. It shows that what is asked of the external solvers can be met. *)
From Coq Require Import Bool Reals ZArith Lia Lra ZifyBool List.
From Verif Require Import BSplineDeriv LinearModel LinearSpec LinearContract LinearKernel LinearProofs2 WellPosedSpec.
Local Open Scope bool_scope. Local Open Scope Z_scope.

Fixpoint pivot (n : nat) (f : Z -> R) : option Z :=
  match n with
  | O => None
  | S k => if Req_EM_T (f (Z.of_nat k)) 0 then pivot k f else Some (Z.of_nat k)
  end.
Lemma pivot_some n f p : pivot n f = Some p -> 0 <= p < Z.of_nat n /\ f p <> 0%R.
Proof. induction n as [|n IH]; [discriminate|]. cbn [pivot]. destruct (Req_EM_T _ _) as [E|E]; [intros H; specialize (IH H); split; [lia | apply IH] | intros [= <-]; split; [lia | exact E]]. Qed.
Lemma pivot_none n f : pivot n f = None -> forall i, 0 <= i < Z.of_nat n -> f i = 0%R.
Proof.
  induction n as [|n IH]; [intros; lia|]. cbn [pivot]. destruct (Req_EM_T _ _) as [E|E]; [|discriminate]. intros H i Hi. destruct (Z.eq_dec i (Z.of_nat n)) as [->|]; [exact E | apply IH; [exact H | lia]].
Qed.
Definition eliminate (M : Z -> Z -> R) (p l : Z) (i j : Z) : R := (M (skip p i) j - M (skip p i) l / M p l * M p j)%R.
Fixpoint gauss (n : nat) (M : Z -> Z -> R) (b : Z -> R) : option (Z -> R) :=
  match n with
  | O => Some (fun _ => 0%R)
  | S k =>
      let l := Z.of_nat k in
      match pivot (S k) (fun i => M i l) with
      | None => None
      | Some p =>
          match gauss k (eliminate M p l) (fun i => b (skip p i) - M (skip p i) l / M p l * b p)%R with
          | None => None
          | Some y => Some (fun j => if j =? l then ((b p - zsum l (fun j => M p j * y j)) / M p l)%R else y j)
          end
      end
  end.
Lemma skip_range p i k : 0 <= p <= k -> 0 <= i < k -> 0 <= skip p i <= k /\ skip p i <> p.
Proof. unfold skip. destruct (i <? p) eqn:?; lia. Qed.
Lemma skip_onto p i k : 0 <= p <= k -> 0 <= i <= k -> i <> p -> exists i', 0 <= i' < k /\ skip p i' = i.
Proof. intros Hp Hi Hne. destruct (Z.lt_ge_cases i p) as [L|L]; [exists i | exists (i - 1)]; unfold skip; split; try lia; destruct (_ <? p) eqn:?; lia. Qed.
Lemma zsum_last (k : nat) f (y : Z -> R) u : zsum (Z.of_nat k + 1) (fun j => f j * (if j =? Z.of_nat k then u else y j))%R = (zsum (Z.of_nat k) (fun j => f j * y j) + f (Z.of_nat k) * u)%R.
Proof. rewrite zsum_S by lia. rewrite Z.eqb_refl. f_equal. apply zsum_ext. intros j Hj. replace (j =? Z.of_nat k) with false by lia. reflexivity. Qed.
Lemma eliminate_sum M p l k y i : zsum k (fun j => eliminate M p l i j * y j)%R = (zsum k (fun j => M (skip p i) j * y j) - M (skip p i) l / M p l * zsum k (fun j => M p j * y j))%R.
Proof.
  transitivity (zsum k (fun j => M (skip p i) j * y j + - (M (skip p i) l / M p l) * (M p j * y j)))%R; [apply zsum_ext; intros; unfold eliminate; ring|]. rewrite zsum_plus, zsum_scal. ring.
Qed.
Theorem gauss_sound n : forall M b y, gauss n M b = Some y -> forall i, 0 <= i < Z.of_nat n -> zsum (Z.of_nat n) (fun j => M i j * y j)%R = b i.
Proof.
  induction n as [|k IH]; intros M b y; [intros; lia|]. cbn [gauss]. destruct (pivot _ _) as [p|] eqn:Ep; [|discriminate]. apply pivot_some in Ep. destruct Ep as [Hp Np].
  set (l := Z.of_nat k) in *. destruct (gauss k _ _) as [z|] eqn:Eg; [|discriminate]. pose proof (IH _ _ _ Eg) as Hz. clear IH Eg. intros [= <-] i Hi. replace (Z.of_nat (S k)) with (l + 1) in * by lia.
  unfold l. rewrite zsum_last. fold l. destruct (Z.eq_dec i p) as [->|Ne]; [field; exact Np|]. destruct (skip_onto p i l ltac:(lia) ltac:(lia) Ne) as (i' & Hi' & <-).
  pose proof (Hz i' Hi') as E. cbv beta in E. fold l in E. rewrite eliminate_sum in E. set (S1 := zsum l (fun j => M (skip p i') j * z j)%R) in *. set (S2 := zsum l (fun j => M p j * z j)%R) in *.
  replace S1 with (b (skip p i') - M (skip p i') l / M p l * b p + M (skip p i') l / M p l * S2)%R by lra. field. exact Np.
Qed.
Theorem gauss_total n : forall M b, (forall y, (forall i, 0 <= i < Z.of_nat n -> zsum (Z.of_nat n) (fun j => M i j * y j)%R = 0%R) -> forall j, 0 <= j < Z.of_nat n -> y j = 0%R) -> exists y, gauss n M b = Some y.
Proof.
  induction n as [|k IH]; intros M b H; [eexists; reflexivity|]. cbn [gauss]. set (l := Z.of_nat k) in *. replace (Z.of_nat (S k)) with (l + 1) in H by lia.
  destruct (pivot _ _) as [p|] eqn:Ep.
  - apply pivot_some in Ep. destruct Ep as [Hp Np]. destruct (IH (eliminate M p l) (fun i => b (skip p i) - M (skip p i) l / M p l * b p)%R) as (z & Ez); [|rewrite Ez; eexists; reflexivity].
    fold l. intros y Hy j Hj. set (u := (- zsum l (fun j => M p j * y j) / M p l)%R).
    pose proof (H (fun j => if j =? l then u else y j)) as K. replace (y j) with ((fun j => if j =? l then u else y j) j) by (cbv beta; replace (j =? l) with false by lia; reflexivity). apply K; [|lia].
    intros i Hi. unfold l. rewrite zsum_last. fold l. destruct (Z.eq_dec i p) as [->|Ne]; [unfold u; field; exact Np|]. destruct (skip_onto p i l ltac:(lia) ltac:(lia) Ne) as (i' & Hi' & <-).
    pose proof (Hy i' Hi') as E. rewrite eliminate_sum in E. unfold u. set (S1 := zsum l (fun j => M (skip p i') j * y j)%R) in *. set (S2 := zsum l (fun j => M p j * y j)%R) in *.
    replace S1 with (M (skip p i') l / M p l * S2)%R by lra. field. exact Np.
  - exfalso. pose proof (pivot_none _ _ Ep) as Z0. cbv beta in Z0. assert (K : (if l =? l then 1 else 0)%R = 0%R); [|rewrite Z.eqb_refl in K; lra].
    apply (H (fun j => if j =? l then 1%R else 0%R)); [|lia]. intros i Hi. unfold l. rewrite (zsum_last k (M i) (fun _ => 0%R) 1%R). fold l. rewrite Z0, zsum_zero by (lia || (intros; ring)). ring.
Qed.

Definition gauss_solve (n : Z) (M : Z -> Z -> R) (tr : bool) (b : arr R) : res (arr R) :=
  if a_len b =? n then match gauss (Z.to_nat n) (fun i j => if tr then M j i else M i j) (a_at b) with Some y => Ok (mk_arr n y) | None => Rejected end else Rejected.
Definition gauss_solvers : solvers RA :=
  @mk_solvers RA (fun a tr => gauss_solve (a2_n a) (a2_at a) tr) (fun kl ku q tr => gauss_solve (a2_m q) (gb_matrix kl ku (a2_at q)) tr) (fun q => gauss_solve (a2_m q) (pb_matrix (a2_n q - 1) (a2_at q)) false)
    (fun d e => gauss_solve (a_len d) (pt_matrix (a_at d) (a_at e)) false) (fun a tr => gauss_solve (a2_n a) (a2_at a) tr).
Lemma gauss_exact_for n M tr : exact_for n M tr (gauss_solve n M tr).
Proof.
  intros b x Hb. unfold gauss_solve. rewrite Hb, Z.eqb_refl. destruct (gauss _ _ _) as [y|] eqn:E; [|discriminate]. intros [= <-]. split; [reflexivity|]. intros i Hi. cbn [a_at].
  pose proof (gauss_sound _ _ _ _ E i ltac:(lia)) as K. rewrite Z2Nat.id in K by lia. rewrite rsum_zsum. exact K.
Qed.
Theorem gauss_exact : exact_solvers gauss_solvers.
Proof. split; [|split; [|split; [|split]]]; intros; cbn [getrs gbtrs pbtrs pttrs bicgstab gauss_solvers]; apply gauss_exact_for. Qed.
Lemma gauss_total_for n M : nonsingular n M -> total_for n (gauss_solve n M false).
Proof.
  intros NS b Hb. unfold gauss_solve. rewrite Hb, Z.eqb_refl. destruct (gauss_total (Z.to_nat n) M (a_at b)) as (y & Ey).
  - intros y Hy j Hj. apply (NS y); [|lia]. intros i Hi. rewrite rsum_zsum. rewrite <- (Hy i ltac:(lia)). f_equal. lia.
  - match goal with |- context [gauss ?u ?v ?w] => replace (gauss u v w) with (Some y) by (symmetry; exact Ey) end. eexists. split; reflexivity.
Qed.
Theorem gauss_regular : regular_bicgstab gauss_solvers.
Proof. intros A HA NS. exact (gauss_total_for _ _ NS). Qed.
