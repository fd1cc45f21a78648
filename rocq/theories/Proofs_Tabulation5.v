(** Simpson's rule in the numerical integration. *)
From Coq Require Import Reals ZArith.
From Coquelicot Require Import Complex.
From Coq Require Import List Bool Lra Lia Arith.
From Verif Require Import Model_Base Proofs_Problem Proofs_Geometry Proofs_Integrals Model_Assembly Model_Wave Model_Tabulation Spec_Tabulation.
Import ListNotations.
Open Scope R_scope.

Lemma seq_snoc2 m : seq 1 (2 * S m + 1) = seq 1 (2 * m + 1) ++ [(2 * m + 2)%nat; (2 * m + 3)%nat].
Proof. replace (2 * S m + 1)%nat with ((2 * m + 1) + 2)%nat by lia. rewrite seq_app. cbn [seq]. apply f_equal. apply f_equal2; [lia|]. apply f_equal2; [lia|reflexivity]. Qed.
(** The weights without the ends. *)
Definition inner (k : nat) : R := if Nat.even k then 4 else 2.
Lemma inner_sum (g : nat -> R) m : Rsum (map (fun k => inner k * g k) (seq 1 (2 * m + 1))) - g 1%nat - g (2 * m + 1)%nat
  = Rsum (map (fun p => g (2 * p + 1)%nat + 4 * g (2 * p + 2)%nat + g (2 * p + 3)%nat) (seq 0 m)).
Proof.
  induction m as [|m IH].
  - cbn. unfold inner. cbn. ring.
  - rewrite seq_snoc2, map_app, Rsum_app, seq_S, map_app, Rsum_app, <- IH. cbn [map Nat.add]. rewrite !Rsum_cons, Rsum_nil.
    assert (E1 : Nat.even (2 * m + 2) = true) by (apply Nat.even_spec; exists (m + 1)%nat; lia).
    assert (E2 : Nat.even (2 * m + 3) = false). { rewrite <- Nat.negb_odd. apply negb_false_iff. apply Nat.odd_spec. exists (m + 1)%nat. lia. }
    unfold inner at 2 3. rewrite E1, E2. replace (2 * S m + 1)%nat with (2 * m + 3)%nat by lia. ring.
Qed.
Lemma one_sum (g : nat -> R) k l : NoDup l -> In k l -> Rsum (map (fun i => if (i =? k)%nat then g i else 0) l) = g k.
Proof.
  induction l as [|i l IH]; [intros _ []|]. intros N H. inversion_clear N. cbn [map]. rewrite Rsum_cons. destruct (i =? k)%nat eqn:E.
  - apply Nat.eqb_eq in E. subst i. enough (Z : Rsum (map (fun i => if (i =? k)%nat then g i else 0) l) = 0) by (rewrite Z; ring).
    clear IH H. induction l as [|j l IH]; [reflexivity|]. cbn [map]. rewrite Rsum_cons, IH.
    + rewrite (proj2 (Nat.eqb_neq j k)); [ring|]. intros ->. apply H0. now left.
    + intros X. apply H0. now right.
    + now inversion H1.
  - destruct H as [->|H]; [rewrite Nat.eqb_refl in E; discriminate|]. rewrite IH by assumption. ring.
Qed.
Lemma simpson_sum m (g : nat -> R) : (1 <= m)%nat -> Rsum (map (fun k => simpson_step (2 * m + 1) k * g k) (seq 1 (2 * m + 1)))
  = fortran_pi / (3 * (2 * INR m)) * Rsum (map (fun p => g (2 * p + 1)%nat + 4 * g (2 * p + 2)%nat + g (2 * p + 3)%nat) (seq 0 m)).
Proof.
  intros Hm. assert (Pm : 0 < INR m) by (apply lt_0_INR; lia). rewrite <- inner_sum.
  rewrite <- (one_sum g 1 (seq 1 (2 * m + 1))) at 1 by (try apply seq_NoDup; apply in_seq; lia).
  rewrite <- (one_sum g (2 * m + 1) (seq 1 (2 * m + 1))) at 1 by (try apply seq_NoDup; apply in_seq; lia).
  replace (Rsum (map (fun k => inner k * g k) (seq 1 (2 * m + 1))) - Rsum (map (fun i => if (i =? 1)%nat then g i else 0) (seq 1 (2 * m + 1))) - Rsum (map (fun i => if (i =? 2 * m + 1)%nat then g i else 0) (seq 1 (2 * m + 1))))
    with (Rsum (map (fun k => inner k * g k) (seq 1 (2 * m + 1))) + ((-1) * Rsum (map (fun i => if (i =? 1)%nat then g i else 0) (seq 1 (2 * m + 1))) + (-1) * Rsum (map (fun i => if (i =? 2 * m + 1)%nat then g i else 0) (seq 1 (2 * m + 1))))) by ring.
  rewrite <- !Rsum_scal, <- !Rsum_plus, <- Rsum_scal. apply Rsum_ext. intros k Hk. apply in_seq in Hk.
  unfold simpson_step, inner. replace (INR (2 * m + 1) - 1) with (2 * INR m) by (rewrite plus_INR, mult_INR; cbn; ring).
  destruct (k =? 1)%nat eqn:E1; destruct (k =? 2 * m + 1)%nat eqn:E2; cbn [orb].
  - apply Nat.eqb_eq in E1. apply Nat.eqb_eq in E2. lia.
  - apply Nat.eqb_eq in E1. subst k. cbn [Nat.even]. field. lra.
  - apply Nat.eqb_eq in E2. assert (E : Nat.even k = false). { rewrite <- Nat.negb_odd. apply negb_false_iff. apply Nat.odd_spec. exists m. lia. } rewrite E. field. lra.
  - destruct (Nat.even k); field; lra.
Qed.
Lemma angle_step m k : (1 <= m)%nat -> simpson_angle (2 * m + 1) (S k) = - fortran_pi / 2 + INR k * (fortran_pi / (2 * INR m)).
Proof.
  intros Hm. assert (Pm : 0 < INR m) by (apply lt_0_INR; lia). unfold simpson_angle. replace (INR (2 * m + 1) - 1) with (2 * INR m) by (rewrite plus_INR, mult_INR; cbn; ring).
  rewrite S_INR. field. lra.
Qed.
Definition weighted (n : nat) (l : list nat) (f : R -> R) : R := Rsum (map (fun k => simpson_step n k * f (simpson_angle n k)) l).
Lemma simpson_composite m (f : R -> R) : (1 <= m)%nat ->
  weighted (2 * m + 1) (seq 1 (2 * m + 1)) f = composite_simpson m (- fortran_pi / 2) (fortran_pi / (2 * INR m)) f.
Proof.
  intros Hm. assert (Pm : 0 < INR m) by (apply lt_0_INR; lia). unfold weighted. rewrite (simpson_sum m (fun k => f (simpson_angle (2 * m + 1) k)) Hm). unfold composite_simpson. rewrite <- Rsum_scal. apply Rsum_ext. intros p _.
  replace (2 * p + 1)%nat with (S (2 * p)) by lia. replace (2 * p + 2)%nat with (S (2 * p + 1)) by lia. replace (2 * p + 3)%nat with (S (2 * p + 2)) by lia.
  rewrite !angle_step by exact Hm. rewrite !plus_INR, !mult_INR. cbn [INR].
  replace (- fortran_pi / 2 + (1 + 1) * INR p * (fortran_pi / (2 * INR m))) with (- fortran_pi / 2 + 2 * INR p * (fortran_pi / (2 * INR m))) by (field; lra).
  replace (- fortran_pi / 2 + ((1 + 1) * INR p + 1) * (fortran_pi / (2 * INR m))) with (- fortran_pi / 2 + (2 * INR p + 1) * (fortran_pi / (2 * INR m))) by (field; lra).
  replace (- fortran_pi / 2 + ((1 + 1) * INR p + (1 + 1)) * (fortran_pi / (2 * INR m))) with (- fortran_pi / 2 + (2 * INR p + 2) * (fortran_pi / (2 * INR m))) by (field; lra).
  generalize (f (- fortran_pi / 2 + 2 * INR p * (fortran_pi / (2 * INR m)))) (f (- fortran_pi / 2 + (2 * INR p + 1) * (fortran_pi / (2 * INR m)))) (f (- fortran_pi / 2 + (2 * INR p + 2) * (fortran_pi / (2 * INR m)))). intros. field. lra.
Qed.
(** The loop is a sum. *)
Lemma fold_sum exp_e1 n r z : forall l acc s,
  fold_left (fun acc k => obind acc (fun a => obind (simpson_term exp_e1 n r z k) (fun b => Some (add_integrals a b)))) l (Some acc) = Some s ->
  I1 s = I1 acc + weighted n l (fun th => fst (j_at exp_e1 r z th)) /\ I2 s = I2 acc + weighted n l (fun th => fst (Cminus (j_at exp_e1 r z th) (Cinv (zeta_at r z th))))
  /\ I3 s = I3 acc + weighted n l (fun th => fst (exponential_at r z th)) /\ I4 s = I4 acc + weighted n l (fun th => - (cos th * snd (Cminus (j_at exp_e1 r z th) (Cinv (zeta_at r z th)))))
  /\ I5 s = I5 acc + weighted n l (fun th => - (cos th * snd (exponential_at r z th))).
Proof.
  induction l as [|k l IH]; intros acc s H; unfold weighted in *.
  - cbn in H. injection H as <-. cbn [map]. rewrite !Rsum_nil. repeat split; ring.
  - cbn [fold_left] in H. destruct (simpson_term exp_e1 n r z k) as [b|] eqn:Eb.
    2:{ exfalso. cbn [obind] in H. clear -H. revert H. induction l as [|j l IHl]; cbn [fold_left obind]; [discriminate|exact IHl]. }
    cbn [obind] in H. specialize (IH _ _ H). cbn [map]. rewrite !Rsum_cons. clear H.
    assert (Ex : (if Rleb z (-30) then RtoC 0 else Cexp (z, r * cos (simpson_angle n k))) = exponential_at r z (simpson_angle n k)).
    { unfold exponential_at, Rleb. destruct (Rle_dec z (-30)); reflexivity. }
    unfold simpson_term in Eb. cbv zeta in Eb. rewrite Ex in Eb. destruct (Reqb z 0 && Reqb (r * cos (simpson_angle n k)) 0); [discriminate|].
    apply (f_equal (fun o => match o with Some x => x | None => b end)) in Eb. cbv beta iota in Eb. subst b.
    fold (zeta_at r z (simpson_angle n k)) in IH. fold (j_at exp_e1 r z (simpson_angle n k)) in IH.
    destruct IH as (A1 & A2 & A3 & A4 & A5). rewrite A1, A2, A3, A4, A5. cbn [I1 I2 I3 I4 I5 add_integrals]. repeat split; ring.
Qed.
Lemma odd_number_form nb : (2 <= nb)%nat -> exists m, (1 <= m)%nat /\ odd_number nb = (2 * m + 1)%nat /\ (nb = 2 * m \/ nb = 2 * m + 1)%nat.
Proof.
  intros H. unfold odd_number. destruct (Nat.even nb) eqn:E.
  - apply Nat.even_spec in E. destruct E as (m & ->). exists m. lia.
  - rewrite <- Nat.negb_odd in E. apply negb_false_iff in E. apply Nat.odd_spec in E. destruct E as (m & ->). exists m. lia.
Qed.
Lemma integration_simpson exp_e1 r z nb v m : (1 <= m)%nat -> (nb = 2 * m \/ nb = 2 * m + 1)%nat -> numerical_integration exp_e1 r z nb = Some v ->
  let S f := composite_simpson m (- fortran_pi / 2) (fortran_pi / (2 * INR m)) f in
  I1 v = 2 / fortran_pi * S (fun th => fst (j_at exp_e1 r z th)) /\ I2 v = 2 / fortran_pi * S (fun th => fst (Cminus (j_at exp_e1 r z th) (Cinv (zeta_at r z th))))
  /\ I3 v = 2 * S (fun th => fst (exponential_at r z th)) /\ I4 v = 2 / fortran_pi * S (fun th => - (cos th * snd (Cminus (j_at exp_e1 r z th) (Cinv (zeta_at r z th)))))
  /\ I5 v = 2 * S (fun th => - (cos th * snd (exponential_at r z th))).
Proof.
  intros Hm Hnb H S. assert (Pp : fortran_pi <> 0) by (unfold fortran_pi; lra).
  assert (On : odd_number nb = (2 * m + 1)%nat).
  { unfold odd_number. destruct Hnb as [->| ->]; [rewrite (proj2 (Nat.even_spec (2 * m)) (ex_intro _ m eq_refl)); lia|].
    assert (E : Nat.even (2 * m + 1) = false). { rewrite <- Nat.negb_odd. apply negb_false_iff. apply Nat.odd_spec. exists m. lia. } now rewrite E. }
  unfold numerical_integration in H. cbv zeta in H. rewrite On in H. rewrite (proj2 (Nat.eqb_neq (2 * m + 1) 1)) in H by lia.
  destruct (fold_left _ _ _) as [s|] eqn:E; [|discriminate]. cbn [obind] in H. apply (f_equal (fun o => match o with Some x => x | None => v end)) in H. cbv beta iota in H. subst v.
  apply fold_sum in E. rewrite !simpson_composite in E by exact Hm. cbn [I1 I2 I3 I4 I5 zero_integrals] in E. destruct E as (A1 & A2 & A3 & A4 & A5). cbn [I1 I2 I3 I4 I5]. rewrite A1, A2, A3, A4, A5.
  unfold S. repeat split; try ring; field; exact Pp.
Qed.
(** Simpson's rule is exact for the cubics. *)
Lemma composite_exact m a h c0 c1 c2 c3 :
  composite_simpson m a h (fun x => c0 + c1 * x + c2 * (x * x) + c3 * (x * x * x))
  = let P x := c0 * x + c1 / 2 * (x * x) + c2 / 3 * (x * x * x) + c3 / 4 * (x * x * x * x) in P (a + 2 * INR m * h) - P a.
Proof.
  cbv zeta. unfold composite_simpson. induction m as [|m IH].
  - cbn [seq map INR]. rewrite Rsum_nil. field.
  - rewrite seq_S, map_app, Rsum_app, IH. cbn [map Nat.add]. rewrite Rsum_cons, Rsum_nil, S_INR. field.
Qed.
