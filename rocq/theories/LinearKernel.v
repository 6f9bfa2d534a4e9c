(** Linear systems: more unknowns than equations; square systems. *)
From Coq Require Import Reals ZArith Lia Lra Classical.
From Verif Require Import BSplineDeriv.
Local Open Scope Z_scope.

Definition skip (p k : Z) : Z := if k <? p then k else k + 1.
Lemma zsum_pivot n f p : 0 <= p < n -> zsum n f = (f p + zsum (n - 1) (fun k => f (skip p k)))%R.
Proof.
  intros Hp. replace n with (p + 1 + Z.of_nat (Z.to_nat (n - 1 - p))) by lia. set (q := Z.to_nat (n - 1 - p)). clearbody q. destruct Hp as [Hp _].
  induction q as [|q IH].
  - change (Z.of_nat 0) with 0. rewrite Z.add_0_r. rewrite zsum_S by lia. replace (p + 1 - 1) with p by lia.
    rewrite (zsum_ext p (fun k => f (skip p k)) f). ring. intros m Hm. unfold skip. destruct (Z.ltb_spec m p); [reflexivity | lia].
  - replace (p + 1 + Z.of_nat (S q)) with (p + 1 + Z.of_nat q + 1) by lia. rewrite zsum_S by lia. rewrite IH.
    replace (p + 1 + Z.of_nat q + 1 - 1) with (p + 1 + Z.of_nat q - 1 + 1) by lia. rewrite (zsum_S (p + 1 + Z.of_nat q - 1)) by lia.
    unfold skip at 3. destruct (Z.ltb_spec (p + 1 + Z.of_nat q - 1) p); [lia|]. replace (p + 1 + Z.of_nat q - 1 + 1) with (p + 1 + Z.of_nat q) by lia. ring.
Qed.
Lemma kernel (m : nat) : forall n (M : Z -> Z -> R), Z.of_nat m < n ->
  exists v, (exists j, 0 <= j < n /\ v j <> 0%R) /\ forall i, 0 <= i < Z.of_nat m -> zsum n (fun j => M i j * v j)%R = 0%R.
Proof.
  induction m as [|m IH]; intros n M Hn.
  - exists (fun _ => 1%R). split; [exists 0; split; [lia | lra]|]. intros i Hi. lia.
  - set (r := Z.of_nat m).
    destruct (classic (exists p, 0 <= p < n /\ M r p <> 0%R)) as [(p & Hp & Np)|C].
    + destruct (IH (n - 1) (fun i k => M i (skip p k) - M i p * (M r (skip p k) / M r p))%R ltac:(lia)) as (w & (j & Hj & Nj) & Hw).
      set (wp := (- zsum (n - 1) (fun k => M r (skip p k) * w k) / M r p)%R).
      set (v := fun j => if j =? p then wp else w (if j <? p then j else j - 1)).
      assert (Vp : v p = wp) by (unfold v; rewrite Z.eqb_refl; reflexivity).
      assert (Vs : forall k, v (skip p k) = w k).
      { intros k. unfold v, skip. destruct (Z.ltb_spec k p) as [H|H].
        - destruct (Z.eqb_spec k p); [lia|]. destruct (Z.ltb_spec k p); [reflexivity | lia].
        - destruct (Z.eqb_spec (k + 1) p); [lia|]. destruct (Z.ltb_spec (k + 1) p); [lia|]. f_equal. lia. }
      assert (SUM : forall i, zsum n (fun j => M i j * v j)%R = (M i p * wp + zsum (n - 1) (fun k => M i (skip p k) * w k))%R).
      { intros i. rewrite (zsum_pivot n _ p Hp), Vp. f_equal. apply zsum_ext. intros k _. rewrite Vs. reflexivity. }
      exists v. split.
      * exists (skip p j). split; [unfold skip; destruct (Z.ltb_spec j p); lia | rewrite Vs; exact Nj].
      * intros i Hi. rewrite SUM. destruct (Z.eq_dec i r) as [->|Ni].
        -- unfold wp. field. exact Np.
        -- specialize (Hw i ltac:(unfold r in Ni; lia)).
           assert (E : zsum (n - 1) (fun j => (M i (skip p j) - M i p * (M r (skip p j) / M r p)) * w j)%R =
             (zsum (n - 1) (fun k => M i (skip p k) * w k) + (- (M i p / M r p)) * zsum (n - 1) (fun k => M r (skip p k) * w k))%R).
           { rewrite <- zsum_scal, <- zsum_plus. apply zsum_ext. intros k _. field. exact Np. }
           rewrite E in Hw. unfold wp. rewrite <- Hw. field. exact Np.
    + destruct (IH n M ltac:(lia)) as (v & Hv & H0). exists v. split; [exact Hv|]. intros i Hi. destruct (Z.eq_dec i r) as [->|Ni].
      * apply zsum_zero. intros j Hj. destruct (Req_dec (M r j) 0) as [E|E]; [rewrite E; ring|]. exfalso. apply C. exists j. split; assumption.
      * apply H0. unfold r in Ni. lia.
Qed.
(** A square system with no kernel has a solution. *)
Lemma onto n (M : Z -> Z -> R) (b : Z -> R) : 0 <= n -> (forall y, (forall i, 0 <= i < n -> zsum n (fun j => M i j * y j)%R = 0%R) -> forall j, 0 <= j < n -> y j = 0%R) ->
  exists y, forall i, 0 <= i < n -> zsum n (fun j => M i j * y j)%R = b i.
Proof.
  intros Hn Hinj. destruct (kernel (Z.to_nat n) (n + 1) (fun i j => if j =? n then b i else M i j) ltac:(lia)) as (v & (j & Hj & Nj) & Hv).
  assert (SUM : forall i, 0 <= i < n -> (zsum n (fun j => M i j * v j) + b i * v n = 0)%R).
  { intros i Hi. specialize (Hv i ltac:(lia)). rewrite zsum_S, Z.eqb_refl in Hv by lia. rewrite <- Hv. f_equal. apply zsum_ext. intros k Hk. destruct (Z.eqb_spec k n); [lia | reflexivity]. }
  assert (Nn : v n <> 0%R).
  { intros E. apply Nj. destruct (Z.eq_dec j n) as [->|N]; [exact E|]. apply (Hinj v); [|lia]. intros i Hi. specialize (SUM i Hi). rewrite E in SUM. lra. }
  exists (fun j => - v j / v n)%R. intros i Hi. specialize (SUM i Hi).
  rewrite (zsum_ext n (fun j => M i j * (- v j / v n))%R (fun j => (- / v n) * (M i j * v j))%R) by (intros k _; field; exact Nn).
  rewrite zsum_scal. apply Rmult_eq_reg_l with (v n); [|exact Nn]. field_simplify; [|exact Nn]. lra.
Qed.
