(** The direct solver solves the full system. *)
From Coq Require Import List Arith Bool Lia Ring.
From Verif Require Import Model_Base Model_Ring Spec_Ring Proofs_Ring Model_Block Spec_Block
  Proofs_Block Proofs_Block2 Proofs_Block3 Proofs_Block4 Model_LinSolve Spec_LinSolve.
Import ListNotations.
Open Scope nat_scope.

Section Direct.
Context {A : coeffs}.
Hypothesis HA : ring_laws A.
Let HA' : ring_theory (@k0 A) k1 kadd kmul ksub kopp eq := HA.
Add Ring Aring : HA'.
Hypothesis HFo : fourier_laws A.

(** ** Inverse Fourier transforms *)
Lemma fft_delta n k : 0 < n -> fft n (fun i => if i =? 0 then @k1 A else k0) k = k1.
Proof.
  intros Hn. unfold fft. rewrite (ksum_single A HA n 0); [cbn; ring|exact Hn|].
  intros i Hi Hne. rewrite (proj2 (Nat.eqb_neq i 0) Hne). ring.
Qed.
Lemma ifft_fft n (c : nat -> A) I : I < n -> ifft n (fft n c) I = c I.
Proof.
  intros HI.
  rewrite (ifft_ext A n _ (fun k => kmul (fft n c k) (fft n (fun i => if i =? 0 then k1 else k0) k))).
  2:{ intros k Hk. rewrite fft_delta by lia. ring. }
  rewrite (convolution A HA HFo) by exact HI.
  rewrite (ksum_single A HA n 0); [|lia|].
  - rewrite Nat.eqb_refl, Nat.sub_0_r. replace (I + n) with (I + 1 * n) by lia.
    rewrite Nat.mod_add by lia. rewrite Nat.mod_small by exact HI. ring.
  - intros i Hi Hne. rewrite (proj2 (Nat.eqb_neq i 0) Hne). ring.
Qed.
Lemma fft_ifft n (x : nat -> A) J : J < n -> fft n (ifft n x) J = x J.
Proof.
  intros HJ.
  rewrite (fft_ext A n _ (fun k => kmul (ifft n x k) (fft n (fun i => if i =? 0 then k1 else k0) k))).
  2:{ intros k Hk. rewrite fft_delta by lia. ring. }
  rewrite (correlation A HA HFo) by exact HJ.
  rewrite (ksum_single A HA n J); [|exact HJ|].
  - replace (J + (n - J)) with (0 + 1 * n) by lia. rewrite Nat.mod_add, Nat.mod_0_l by lia. cbn [Nat.eqb]. ring.
  - intros i Hi Hne. destruct (Nat.eqb_spec ((i + (n - J)) mod n) 0) as [E|E]; [|ring].
    exfalso. destruct (Nat.lt_ge_cases i J).
    + rewrite Nat.mod_small in E by lia. lia.
    + replace (i + (n - J)) with (i - J + 1 * n) in E by lia. rewrite Nat.mod_add in E by lia.
      rewrite Nat.mod_small in E by lia. lia.
Qed.

(** ** Circulant systems *)
Lemma split_index h i : 0 < h -> exists a, a < h /\ i = i / h * h + a /\ i mod h = a.
Proof.
  intros H. exists (i mod h). split; [apply Nat.mod_upper_bound; lia|]. split; [|reflexivity].
  rewrite (Nat.mul_comm (i / h)). apply Nat.div_mod. lia.
Qed.

Lemma circulant_solution c nc hs ws (b : nat -> nat -> mat A) F (X : nat -> nat -> A) rhs :
  circular c -> wf (Blk c 1 nc hs ws b) -> represents (Blk c 1 nc hs ws b) F -> hs 0 = ws 0 ->
  let n := nblocks c nc in let h := hs 0 in
  (forall k, k < n -> solution h (fun a j => fft n (fun t => F (t * h + a) j) k) (X k)
                               (fun a => fft n (fun t => rhs (t * h + a)) k)) ->
  solution (n * h) F (fun j => ifft n (fun k => X k (j mod h)) (j / h)) rhs.
Proof.
  intros Hcirc Hwf HF Hsq n h HX i Hi.
  assert (Hh : 0 < h) by (destruct h; [rewrite Nat.mul_0_r in Hi|]; lia).
  destruct (split_index h i Hh) as (a & Ha & Ei & _). set (I := i / h) in *.
  assert (HI : I < n) by (apply Nat.div_lt_upper_bound; lia).
  unfold times_vec. rewrite ksum_blocks_const, ksum_swap by exact HA.
  rewrite (ksum_ext A h _ (fun q => ifft n (fun k => kmul (fft n (fun t => F (t * h + a) q) k) (X k q)) I)).
  2:{ intros q Hq.
      rewrite (ifft_ext A n _ (fun k => kmul (fft n (fun t => F (t * h + a) q) k) (fft n (ifft n (fun k => X k q)) k))).
      2:{ intros k Hk. now rewrite (fft_ifft n (fun k => X k q) k Hk). }
      rewrite (convolution A HA HFo) by exact HI. apply ksum_ext. intros J HJ.
      rewrite Ei. f_equal.
      - symmetry. unfold n, h. rewrite (circular_entries c nc hs ws b F I J a q) by (rewrite <- ?Hsq; auto). now rewrite <- Hsq.
      - replace ((J * h + q) / h) with J; [replace ((J * h + q) mod h) with q; [reflexivity|]|].
        + rewrite Nat.add_comm, Nat.mod_add, Nat.mod_small by lia. reflexivity.
        + rewrite Nat.add_comm, Nat.div_add, Nat.div_small by lia. reflexivity. }
  rewrite <- (ifft_sum A HA n h (fun q k => kmul (fft n (fun t => F (t * h + a) q) k) (X k q))).
  rewrite (ifft_ext A n _ (fft n (fun t => rhs (t * h + a)))).
  2:{ intros k Hk. exact (HX k Hk a Ha). }
  rewrite ifft_fft by exact HI. now rewrite <- Ei.
Qed.

Lemma circulant_nonsingular c nc hs ws (b : nat -> nat -> mat A) F k :
  circular c -> wf (Blk c 1 nc hs ws b) -> represents (Blk c 1 nc hs ws b) F -> hs 0 = ws 0 ->
  let n := nblocks c nc in let h := hs 0 in
  nonsingular (n * h) F -> k < n -> nonsingular h (fun a j => fft n (fun t => F (t * h + a) j) k).
Proof.
  intros Hcirc Hwf HF Hsq n h Hns Hk y Hy q Hq.
  set (X := fun k' j => if k' =? k then y j else k0).
  pose proof (circulant_solution c nc hs ws b F X (fun _ => k0) Hcirc Hwf HF Hsq) as Hsol. fold n h in Hsol. cbv zeta in Hsol.
  assert (Z : forall k', fft n (fun _ => @k0 A) k' = k0).
  { intros k'. unfold fft. transitivity (ksum n (fun _ => @k0 A)); [apply ksum_ext; intros; ring|now apply ksum_zero]. }
  assert (HX : forall k', k' < n -> solution h (fun a j => fft n (fun t => F (t * h + a) j) k') (X k') (fun a => fft n (fun t => k0) k')).
  { intros k' Hk' a Ha. rewrite Z. unfold X. destruct (Nat.eqb_spec k' k) as [->|Hne].
    - exact (Hy a Ha).
    - unfold times_vec. transitivity (ksum h (fun _ => @k0 A)); [apply ksum_ext; intros; ring|now apply ksum_zero]. }
  pose proof (Hns _ (Hsol HX)) as H0.
  assert (E : X k q = k0).
  { rewrite <- (fft_ifft n (fun k' => X k' q) k Hk). rewrite <- (Z k). apply fft_ext. intros J HJ.
    assert (Hj : J * h + q < n * h) by nia.
    specialize (H0 (J * h + q) Hj). cbv beta in H0.
    replace ((J * h + q) / h) with J in H0 by (rewrite Nat.add_comm, Nat.div_add, Nat.div_small by lia; reflexivity).
    replace ((J * h + q) mod h) with q in H0 by (rewrite Nat.add_comm, Nat.mod_add, Nat.mod_small by lia; reflexivity).
    exact H0. }
  unfold X in E. now rewrite Nat.eqb_refl in E.
Qed.

(** ** Symmetric 2x2 systems *)
Lemma half_two : kmul (@ninv A 2) (kadd k1 k1) = k1.
Proof. pose proof (ninv_law A HFo 2 ltac:(lia)) as E. cbn [ksum] in E.
  transitivity (kmul (@ninv A 2) (kadd (kadd k0 k1) k1)); [ring|exact E]. Qed.

Definition two_by_two_of (F1 F2 F : nat -> nat -> A) (h : nat) : Prop :=
  forall i j, i < h -> j < h ->
    F i j = F1 i j /\ F (h + i) (h + j) = F1 i j /\ F i (h + j) = F2 i j /\ F (h + i) j = F2 i j.

Lemma sum_pair h (f : nat -> A) : ksum (h + h) f = kadd (ksum h f) (ksum h (fun j => f (h + j))).
Proof. now apply ksum_split. Qed.

Lemma recombine_low h (xp xm : nat -> A) j : j < h -> recombine h xp xm j = kmul (ninv 2) (kadd (xp j) (xm j)).
Proof. intros H. unfold recombine. now rewrite (proj2 (Nat.ltb_lt j h) H). Qed.
Lemma recombine_high h (xp xm : nat -> A) j : recombine h xp xm (h + j) = kmul (ninv 2) (ksub (xp j) (xm j)).
Proof. unfold recombine. rewrite (proj2 (Nat.ltb_ge (h + j) h)) by lia. now replace (h + j - h) with j by lia. Qed.

Lemma pair_solution h F1 F2 F xp xm (rhs : nat -> A) : two_by_two_of F1 F2 F h ->
  solution h (fun i j => kadd (F1 i j) (F2 i j)) xp (fun i => kadd (rhs i) (rhs (h + i))) ->
  solution h (fun i j => ksub (F1 i j) (F2 i j)) xm (fun i => ksub (rhs i) (rhs (h + i))) ->
  solution (h + h) F (recombine h xp xm) rhs.
Proof.
  intros HF Hp Hm. unfold solution, times_vec in *. 
  assert (Hi : forall i, i < h ->
    kadd (ksum h (fun j => kmul (F1 i j) (kmul (ninv 2) (kadd (xp j) (xm j)))))
         (ksum h (fun j => kmul (F2 i j) (kmul (ninv 2) (ksub (xp j) (xm j))))) = rhs i /\
    kadd (ksum h (fun j => kmul (F2 i j) (kmul (ninv 2) (kadd (xp j) (xm j)))))
         (ksum h (fun j => kmul (F1 i j) (kmul (ninv 2) (ksub (xp j) (xm j))))) = rhs (h + i)).
  { intros i Hi. specialize (Hp i Hi). specialize (Hm i Hi).
    rewrite (ksum_ext A h _ (fun j => kadd (kmul (F1 i j) (xp j)) (kmul (F2 i j) (xp j)))) in Hp by (intros; ring).
    rewrite ksum_add in Hp by exact HA.
    rewrite (ksum_ext A h _ (fun j => ksub (kmul (F1 i j) (xm j)) (kmul (F2 i j) (xm j)))) in Hm by (intros; ring).
    rewrite ksum_sub in Hm by exact HA.
    set (p1 := ksum h (fun j => kmul (F1 i j) (xp j))) in *. set (p2 := ksum h (fun j => kmul (F2 i j) (xp j))) in *.
    set (m1 := ksum h (fun j => kmul (F1 i j) (xm j))) in *. set (m2 := ksum h (fun j => kmul (F2 i j) (xm j))) in *.
    rewrite (ksum_ext A h (fun j => kmul (F1 i j) (kmul (ninv 2) (kadd (xp j) (xm j)))) (fun j => kmul (ninv 2) (kadd (kmul (F1 i j) (xp j)) (kmul (F1 i j) (xm j))))) by (intros; ring).
    rewrite (ksum_ext A h (fun j => kmul (F2 i j) (kmul (ninv 2) (ksub (xp j) (xm j)))) (fun j => kmul (ninv 2) (ksub (kmul (F2 i j) (xp j)) (kmul (F2 i j) (xm j))))) by (intros; ring).
    rewrite (ksum_ext A h (fun j => kmul (F2 i j) (kmul (ninv 2) (kadd (xp j) (xm j)))) (fun j => kmul (ninv 2) (kadd (kmul (F2 i j) (xp j)) (kmul (F2 i j) (xm j))))) by (intros; ring).
    rewrite (ksum_ext A h (fun j => kmul (F1 i j) (kmul (ninv 2) (ksub (xp j) (xm j)))) (fun j => kmul (ninv 2) (ksub (kmul (F1 i j) (xp j)) (kmul (F1 i j) (xm j))))) by (intros; ring).
    rewrite !ksum_mul_l, !ksum_add, !ksum_sub by exact HA. fold p1 p2 m1 m2.
    pose proof half_two as E2.
    split.
    - transitivity (kmul (ninv 2) (kadd (kadd p1 p2) (ksub m1 m2))); [ring|]. rewrite Hp, Hm.
      transitivity (kmul (kmul (ninv 2) (kadd k1 k1)) (rhs i)); [ring|]. rewrite E2. ring.
    - transitivity (kmul (ninv 2) (ksub (kadd p1 p2) (ksub m1 m2))); [ring|]. rewrite Hp, Hm.
      transitivity (kmul (kmul (ninv 2) (kadd k1 k1)) (rhs (h + i))); [ring|]. rewrite E2. ring. }
  intros i Hlt. rewrite sum_pair. destruct (Nat.lt_ge_cases i h) as [H|H].
  - destruct (Hi i H) as [<- _]. f_equal; apply ksum_ext; intros j Hj.
    + rewrite recombine_low by exact Hj. f_equal. apply HF; auto.
    + rewrite recombine_high. f_equal. apply HF; auto.
  - assert (H' : i - h < h) by lia. destruct (Hi (i - h) H') as [_ E]. replace (h + (i - h)) with i in E by lia. rewrite <- E.
    f_equal; apply ksum_ext; intros j Hj.
    + rewrite recombine_low by exact Hj. f_equal. destruct (HF (i - h) j H' Hj) as (_ & _ & _ & E4).
      now replace (h + (i - h)) with i in E4 by lia.
    + rewrite recombine_high. f_equal. destruct (HF (i - h) j H' Hj) as (_ & E4 & _).
      now replace (h + (i - h)) with i in E4 by lia.
Qed.

Lemma pair_nonsingular h F1 F2 F : two_by_two_of F1 F2 F h -> nonsingular (h + h) F ->
  nonsingular h (fun i j => kadd (F1 i j) (F2 i j)) /\ nonsingular h (fun i j => ksub (F1 i j) (F2 i j)).
Proof.
  intros HF Hns.
  assert (K : forall (s : A) y,
    (forall i, i < h -> kadd (ksum h (fun j => kmul (F1 i j) (y j))) (ksum h (fun j => kmul (F2 i j) (kmul s (y j)))) = k0) ->
    (forall i, i < h -> kadd (ksum h (fun j => kmul (F2 i j) (y j))) (ksum h (fun j => kmul (F1 i j) (kmul s (y j)))) = k0) ->
    forall i, i < h -> y i = k0).
  { intros s y H1 H2 i Hi. specialize (Hns (fun j => if j <? h then y j else kmul s (y (j - h)))).
    assert (S : solution (h + h) F (fun j => if j <? h then y j else kmul s (y (j - h))) (fun _ => k0)).
    { intros a Ha. unfold times_vec. rewrite sum_pair.
      rewrite (ksum_ext A h _ (fun j => kmul (F a j) (y j))) by (intros j Hj; now rewrite (proj2 (Nat.ltb_lt j h) Hj)).
      rewrite (ksum_ext A h (fun j => kmul (F a (h + j)) _) (fun j => kmul (F a (h + j)) (kmul s (y j)))).
      2:{ intros j Hj. rewrite (proj2 (Nat.ltb_ge (h + j) h)) by lia. now replace (h + j - h) with j by lia. }
      destruct (Nat.lt_ge_cases a h) as [H|H].
      - rewrite <- (H1 a H). f_equal; apply ksum_ext; intros j Hj; f_equal; apply HF; auto.
      - assert (H' : a - h < h) by lia. rewrite <- (H2 (a - h) H').
        f_equal; apply ksum_ext; intros j Hj; f_equal;
          destruct (HF (a - h) j H' Hj) as (_ & E2 & _ & E4); replace (h + (a - h)) with a in * by lia; auto. }
    specialize (Hns S i ltac:(lia)). cbv beta in Hns. now rewrite (proj2 (Nat.ltb_lt i h) Hi) in Hns. }
  split; intros y Hy i Hi.
  - assert (E : forall a, a < h -> times_vec h (fun i j => kadd (F1 i j) (F2 i j)) y a = k0) by exact Hy.
    apply (K k1 y); auto; intros a Ha; rewrite <- ksum_add by exact HA;
      (transitivity (times_vec h (fun i j => kadd (F1 i j) (F2 i j)) y a);
       [apply ksum_ext; intros; ring|exact (E a Ha)]).
  - apply (K (kopp k1) y); auto; intros a Ha.
    + transitivity (times_vec h (fun i j => ksub (F1 i j) (F2 i j)) y a); [|exact (Hy a Ha)]. unfold times_vec. rewrite <- ksum_add by exact HA. apply ksum_ext; intros; ring.
    + transitivity (kmul (kopp k1) (times_vec h (fun i j => ksub (F1 i j) (F2 i j)) y a)).
      2:{ rewrite (Hy a Ha). ring. }
      unfold times_vec. rewrite <- ksum_add by exact HA. rewrite <- ksum_mul_l by exact HA. apply ksum_ext; intros; ring.
Qed.
End Direct.
