(** The algebra of the preconditioner: a step of block Jacobi iteration followed by a coarse correction. *)
From Coq Require Import List Arith Bool Lia Ring_theory Ring.
From Verif Require Import Model_Base Model_Ring Spec_Ring Proofs_Ring Model_Block Spec_Block Model_LinSolve Spec_LinSolve.
Import ListNotations.
Open Scope nat_scope.

Section Algebra.
Context {A : coeffs}.
Hypothesis HA : ring_laws A.
Let HA' : ring_theory (@k0 A) k1 kadd kmul ksub kopp eq := HA.
Add Ring Aring : HA'.
Notation vec := (nat -> K A).
Notation entries := (nat -> nat -> K A).
Variables (N n : nat) (leaf : nat -> nat) (F : entries).
Hypothesis Hleaf : forall j, j < N -> leaf j < n.

Definition ind (k j : nat) : A := if leaf j =? k then k1 else k0.
Definition D (i j : nat) : A := if leaf i =? leaf j then F i j else k0.
Definition Z (i j : nat) : A := if leaf i =? leaf j then k0 else F i j.
Definition RA (k j : nat) : A := ksum N (fun i => kmul (ind k i) (F i j)).
Definition Ac (k l : nat) : A := ksum N (fun j => kmul (RA k j) (ind l j)).
Definition restrict (b : vec) (k : nat) : A := ksum N (fun j => kmul (ind k j) (b j)).
(** The step from x with the right-hand side b gives X + E. *)
Definition step_of (b x X E : vec) : Prop :=
  solution N D X (fun i => ksub (b i) (times_vec N Z x i))
  /\ solution n Ac E (fun k => ksub (restrict b k) (times_vec N RA X k)).

Lemma split_F x i : times_vec N F x i = kadd (times_vec N D x i) (times_vec N Z x i).
Proof. unfold times_vec. rewrite <- (ksum_add A HA). apply ksum_ext. intros j _. unfold D, Z. destruct (leaf i =? leaf j); ring. Qed.
Lemma times_add m (G : entries) x y i : times_vec m G (fun j => kadd (x j) (y j)) i = kadd (times_vec m G x i) (times_vec m G y i).
Proof. unfold times_vec. rewrite <- (ksum_add A HA). apply ksum_ext. intros. ring. Qed.
Lemma times_sub m (G : entries) x y i : times_vec m G (fun j => ksub (x j) (y j)) i = ksub (times_vec m G x i) (times_vec m G y i).
Proof. unfold times_vec. rewrite <- (ksum_sub A HA). apply ksum_ext. intros. ring. Qed.
Lemma times_ext m (G : entries) x y i : (forall j, j < m -> x j = y j) -> times_vec m G x i = times_vec m G y i.
Proof. intros H. unfold times_vec. apply ksum_ext. intros j Hj. now rewrite H. Qed.
Lemma times_zero m (G : entries) i : times_vec m G (fun _ => k0) i = k0.
Proof. unfold times_vec. transitivity (ksum m (fun _ => @k0 A)); [apply ksum_ext; intros; ring|apply (ksum_zero A HA)]. Qed.
Lemma unique_solution m (G : entries) x y b : nonsingular m G -> solution m G x b -> solution m G y b -> forall i, i < m -> x i = y i.
Proof.
  intros HN Hx Hy i Hi. assert (Hd : ksub (x i) (y i) = k0).
  { apply (HN (fun j => ksub (x j) (y j))); [|exact Hi]. intros j Hj. rewrite times_sub, Hx, Hy by assumption. ring. }
  transitivity (kadd (ksub (x i) (y i)) (y i)); [ring|rewrite Hd; ring].
Qed.
Lemma ind_sum (e : vec) j : j < N -> ksum n (fun k => kmul (ind k j) (e k)) = e (leaf j).
Proof.
  intros Hj. rewrite (ksum_single A HA n (leaf j)) by (try apply Hleaf, Hj; intros i _ Hi; unfold ind; replace (leaf j =? i) with false
    by (symmetry; apply Nat.eqb_neq; congruence); ring).
  unfold ind. rewrite Nat.eqb_refl. ring.
Qed.
Lemma restrict_F x k : restrict (times_vec N F x) k = times_vec N RA x k.
Proof.
  unfold restrict, times_vec, RA.
  transitivity (ksum N (fun i => ksum N (fun j => kmul (kmul (ind k i) (F i j)) (x j)))).
  - apply ksum_ext. intros i _. rewrite <- (ksum_mul_l A HA). apply ksum_ext. intros. ring.
  - rewrite (ksum_swap A HA). apply ksum_ext. intros j _. now rewrite (ksum_mul_r A HA).
Qed.
Lemma coarse_prolong (e : vec) k : times_vec N RA (fun j => e (leaf j)) k = times_vec n Ac e k.
Proof.
  unfold times_vec, Ac.
  transitivity (ksum N (fun j => ksum n (fun l => kmul (kmul (RA k j) (ind l j)) (e l)))).
  - apply ksum_ext. intros j Hj. rewrite <- (ind_sum e j Hj), <- (ksum_mul_l A HA). apply ksum_ext. intros. ring.
  - rewrite (ksum_swap A HA). apply ksum_ext. intros l _. now rewrite (ksum_mul_r A HA).
Qed.
Lemma restrict_sub a b k : restrict (fun i => ksub (a i) (b i)) k = ksub (restrict a k) (restrict b k).
Proof. unfold restrict. rewrite <- (ksum_sub A HA). apply ksum_ext. intros. ring. Qed.
Lemma restrict_add a b k : restrict (fun i => kadd (a i) (b i)) k = kadd (restrict a k) (restrict b k).
Proof. unfold restrict. rewrite <- (ksum_add A HA). apply ksum_ext. intros. ring. Qed.
Lemma restrict_ext a b k : (forall i, i < N -> a i = b i) -> restrict a k = restrict b k.
Proof. intros H. unfold restrict. apply ksum_ext. intros i Hi. now rewrite H. Qed.
Lemma restrict_zero k : restrict (fun _ => k0) k = k0.
Proof. unfold restrict. transitivity (ksum N (fun _ => @k0 A)); [apply ksum_ext; intros; ring|apply (ksum_zero A HA)]. Qed.

(** The sum of the coefficients of a diagonal block. *)
Definition diag_sum (k : nat) : A := ksum N (fun i => ksum N (fun j => kmul (kmul (ind k i) (F i j)) (ind k j))).
Lemma diag_sum_Ac k : diag_sum k = Ac k k.
Proof.
  unfold diag_sum, Ac, RA. rewrite (ksum_swap A HA). apply ksum_ext. intros j _. now rewrite (ksum_mul_r A HA).
Qed.
Lemma restrict_D (e : vec) k : restrict (times_vec N D (fun j => e (leaf j))) k = kmul (diag_sum k) (e k).
Proof.
  unfold restrict, diag_sum, times_vec. rewrite <- (ksum_mul_r A HA). apply ksum_ext. intros i _.
  rewrite <- (ksum_mul_l A HA), <- (ksum_mul_r A HA). apply ksum_ext. intros j _.
  unfold ind, D. destruct (leaf i =? k) eqn:E1; [|ring]. apply Nat.eqb_eq in E1. subst k.
  destruct (leaf i =? leaf j) eqn:E2.
  - apply Nat.eqb_eq in E2. rewrite E2, Nat.eqb_refl. ring.
  - rewrite Nat.eqb_sym, E2. ring.
Qed.

Lemma steps_add b1 x1 X1 E1 b2 x2 X2 E2 : step_of b1 x1 X1 E1 -> step_of b2 x2 X2 E2 ->
  step_of (fun i => kadd (b1 i) (b2 i)) (fun i => kadd (x1 i) (x2 i)) (fun i => kadd (X1 i) (X2 i)) (fun i => kadd (E1 i) (E2 i)).
Proof.
  intros [H1 K1] [H2 K2]. split; intros i Hi.
  - rewrite times_add, H1, H2, times_add by assumption. ring.
  - rewrite times_add, K1, K2, restrict_add, times_add by assumption. ring.
Qed.
Lemma step_ext b x X E b' x' : (forall i, i < N -> b i = b' i) -> (forall i, i < N -> x i = x' i) -> step_of b x X E -> step_of b' x' X E.
Proof.
  intros Hb Hx [H1 H2]. split; intros i Hi.
  - rewrite H1, Hb by assumption. f_equal. now apply times_ext.
  - rewrite H2 by assumption. f_equal. now apply restrict_ext.
Qed.

Hypothesis HD : nonsingular N D.
Hypothesis HC : nonsingular n Ac.

(** A solution is not moved. *)
Lemma fixed_by_step b x X E : step_of b x X E -> solution N F x b -> forall i, i < N -> x i = kadd (X i) (E (leaf i)).
Proof using HA HD HC Hleaf.
  intros [H1 H2] HF.
  assert (EX : forall i, i < N -> X i = x i).
  { apply (unique_solution N D X x _ HD H1). intros i Hi. rewrite <- (HF i Hi), split_F. ring. }
  assert (EE : forall k, k < n -> E k = k0).
  { apply HC. intros k Hk. rewrite H2 by exact Hk. rewrite (times_ext N RA X x k EX), <- restrict_F.
    rewrite (restrict_ext (times_vec N F x) b k) by (intros i Hi; now apply HF). ring. }
  intros i Hi. rewrite EX, EE by auto. ring.
Qed.
(** What is not moved is a solution, if the sums of the diagonal blocks are not zero. *)
Lemma fixed_solution b x X E : (forall a c : A, kmul a c = k0 -> a = k0 \/ c = k0) -> (forall k, k < n -> diag_sum k <> k0) ->
  step_of b x X E -> (forall i, i < N -> x i = kadd (X i) (E (leaf i))) -> solution N F x b.
Proof using HA Hleaf.
  intros Hdom Hs [H1 H2] Hx.
  assert (Fx : forall i, i < N -> times_vec N F x i = kadd (b i) (times_vec N D (fun j => E (leaf j)) i)).
  { intros i Hi. rewrite split_F, (times_ext N D x _ i Hx), times_add, H1 by exact Hi. ring. }
  assert (EE : forall k, k < n -> E k = k0).
  { intros k Hk. assert (P : kmul (diag_sum k) (E k) = k0).
    { rewrite <- restrict_D.
      rewrite (restrict_ext _ (fun i => ksub (times_vec N F x i) (b i))) by (intros i Hi; rewrite Fx by exact Hi; ring).
      rewrite restrict_sub, restrict_F, (times_ext N RA x _ k Hx), times_add, coarse_prolong, H2 by exact Hk. ring. }
    destruct (Hdom _ _ P) as [P'|P']; [destruct (Hs k Hk P')|exact P']. }
  intros i Hi. rewrite Fx by exact Hi.
  rewrite (times_ext N D _ (fun _ => k0) i) by (intros j Hj; apply EE, Hleaf, Hj). rewrite times_zero. ring.
Qed.
(** Some vector other than zero is not moved when the sum of a diagonal block is zero. *)
Lemma singular_step k : k < n -> (exists j, j < N /\ leaf j = k) -> @k1 A <> k0 -> diag_sum k = k0 ->
  forall x, solution N F x (times_vec N D (ind k)) ->
  ~ (forall j, j < N -> x j = k0) /\
  forall X E, step_of (fun _ => k0) x X E -> forall i, i < N -> x i = kadd (X i) (E (leaf i)).
Proof using HA HD HC Hleaf.
  intros Hk (j0 & Hj0 & Lj0) H10 Hs x HF. split.
  - intros H. apply H10. transitivity (ind k j0); [unfold ind; now rewrite Lj0, Nat.eqb_refl|].
    apply (HD (ind k)); [|exact Hj0]. intros i Hi. rewrite <- (HF i Hi). rewrite (times_ext N F x (fun _ => k0) i H). apply times_zero.
  - intros X E [H1 H2]. set (e := fun l => if l =? k then @k1 A else k0).
    assert (Ie : forall j, ind k j = e (leaf j)) by reflexivity.
    assert (EX : forall i, i < N -> X i = ksub (x i) (ind k i)).
    { apply (unique_solution N D X _ _ HD H1). intros i Hi. rewrite times_sub, <- (HF i Hi), split_F. ring. }
    assert (EE : forall l, l < n -> E l = e l).
    { apply (unique_solution n Ac E _ _ HC H2). intros l Hl. rewrite restrict_zero, (times_ext N RA X _ l EX), times_sub.
      rewrite (times_ext N RA (ind k) (fun j => e (leaf j))) by reflexivity. rewrite coarse_prolong, <- restrict_F.
      rewrite (restrict_ext (times_vec N F x) (times_vec N D (fun j => e (leaf j)))) by (intros i Hi; rewrite HF by exact Hi; reflexivity).
      rewrite restrict_D. unfold e at 2. destruct (l =? k) eqn:El; [apply Nat.eqb_eq in El; subst l; rewrite Hs|]; ring. }
    intros i Hi. rewrite EX, EE, Ie by auto. ring.
Qed.
End Algebra.
