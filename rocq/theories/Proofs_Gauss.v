(** An exact solver exists: Gauss elimination over a field. Used only to show that the hypothesis
    [exact_solver] of the theorems can be met. *)
From Coq Require Import Reals.
From Coquelicot Require Import Complex.
From Coq Require Import List Arith Bool Lia Ring.
From Verif Require Import Model_Base Model_Ring Spec_Ring Proofs_Ring Model_Block Spec_Block Model_LinSolve Spec_LinSolve.
Import ListNotations.
Open Scope nat_scope.

Section Gauss.
Context {A : coeffs}.
Hypothesis HA : ring_laws A.
Let HA' : ring_theory (@k0 A) k1 kadd kmul ksub kopp eq := HA.
Add Ring Aring : HA'.
Variable inv : A -> A.
Hypothesis Hinv : forall x : A, x <> k0 -> kmul (inv x) x = k1.
Hypothesis H10 : @k1 A <> k0.
Variable dec : forall x y : A, {x = y} + {x <> y}.

Definition other (p i : nat) : nat := if i <? p then i else S i.
Definition reduced (p : nat) (F : nat -> nat -> A) (i j : nat) : A :=
  ksub (F (other p i) (S j)) (kmul (kmul (F (other p i) 0) (inv (F p 0))) (F p (S j))).
Definition reduced_rhs (p : nat) (F : nat -> nat -> A) (b : nat -> A) (i : nat) : A :=
  ksub (b (other p i)) (kmul (kmul (F (other p i) 0) (inv (F p 0))) (b p)).
Definition back (n p : nat) (F : nat -> nat -> A) (b y : nat -> A) (j : nat) : A :=
  match j with
  | O => kmul (inv (F p 0)) (ksub (b p) (ksum n (fun j => kmul (F p (S j)) (y j))))
  | S j => y j
  end.
Definition pivot (n : nat) (F : nat -> nat -> A) : option nat :=
  List.find (fun p => if dec (F p 0) k0 then false else true) (seq 0 n).
Fixpoint gauss (n : nat) (F : nat -> nat -> A) (b : nat -> A) : option (nat -> A) :=
  match n with
  | O => Some (fun _ => k0)
  | S n =>
      match pivot (S n) F with
      | None => None
      | Some p => match gauss n (reduced p F) (reduced_rhs p F b) with
                  | Some y => Some (back n p F b y)
                  | None => None
                  end
      end
  end.

Lemma ksum_first n (f : nat -> A) : ksum (S n) f = kadd (f 0) (ksum n (fun j => f (S j))).
Proof.
  change (S n) with (1 + n). rewrite (ksum_split A HA). cbn [ksum]. cbn [Nat.add]. ring.
Qed.
Lemma pivot_some n F p : pivot n F = Some p -> p < n /\ F p 0 <> k0.
Proof.
  unfold pivot. intros H. apply find_some in H. destruct H as [H1 H2]. apply in_seq in H1.
  destruct (dec (F p 0) k0); [discriminate|]. split; [lia|assumption].
Qed.
Lemma pivot_none n F : pivot n F = None -> forall p, p < n -> F p 0 = k0.
Proof.
  unfold pivot. intros H p Hp. pose proof (find_none _ _ H p) as H'. specialize (H' ltac:(apply in_seq; lia)).
  cbv beta in H'. destruct (dec (F p 0) k0); [assumption|discriminate].
Qed.
(** A row is the pivot or another one. *)
Lemma rows n p i : p < S n -> i < S n -> i <> p -> exists i', i' < n /\ other p i' = i.
Proof.
  intros Hp Hi Hne. unfold other. destruct (Nat.lt_ge_cases i p).
  - exists i. split; [lia|]. now rewrite (proj2 (Nat.ltb_lt i p)).
  - exists (i - 1). split; [lia|]. rewrite (proj2 (Nat.ltb_ge (i - 1) p)) by lia. lia.
Qed.
Lemma other_lt n p i : i < n -> other p i < S n /\ other p i <> p.
Proof. intros H. unfold other. destruct (Nat.ltb_spec i p); lia. Qed.

Lemma back_solution n p F b y : p < S n -> F p 0 <> k0 ->
  solution n (reduced p F) y (reduced_rhs p F b) -> solution (S n) F (back n p F b y) b.
Proof.
  intros Hp Hnz Hy i Hi. unfold times_vec. rewrite ksum_first. cbn [back].
  destruct (Nat.eq_dec i p) as [->|Hne].
  - transitivity (kadd (kmul (kmul (inv (F p 0)) (F p 0)) (ksub (b p) (ksum n (fun j => kmul (F p (S j)) (y j)))))
                       (ksum n (fun j => kmul (F p (S j)) (y j)))); [ring|].
    rewrite Hinv by exact Hnz. ring.
  - destruct (rows n p i Hp Hi Hne) as (i' & Hi' & Eo). specialize (Hy i' Hi').
    unfold times_vec, reduced, reduced_rhs in Hy. rewrite Eo in Hy.
    rewrite (ksum_ext A n _ (fun j => ksub (kmul (F i (S j)) (y j)) (kmul (kmul (F i 0) (inv (F p 0))) (kmul (F p (S j)) (y j))))) in Hy by (intros; ring).
    rewrite ksum_sub, ksum_mul_l in Hy by exact HA.
    set (si := ksum n (fun j => kmul (F i (S j)) (y j))) in *. set (sp := ksum n (fun j => kmul (F p (S j)) (y j))) in *.
    transitivity (kadd (ksub si (kmul (kmul (F i 0) (inv (F p 0))) sp)) (kmul (kmul (F i 0) (inv (F p 0))) (b p))); [ring|].
    rewrite Hy. ring.
Qed.

Lemma gauss_sound n : forall F b x, gauss n F b = Some x -> solution n F x b.
Proof.
  induction n; intros F b x H; [intros i Hi; lia|]. cbn [gauss] in H.
  destruct (pivot (S n) F) as [p|] eqn:Ep; [|discriminate].
  destruct (gauss n _ _) as [y|] eqn:Ey; [|discriminate]. injection H as <-.
  destruct (pivot_some _ _ _ Ep). apply back_solution; auto.
Qed.
Lemma gauss_total n : forall F b, nonsingular n F -> exists x, gauss n F b = Some x.
Proof.
  induction n; intros F b Hn; [cbn; eauto|]. cbn [gauss].
  destruct (pivot (S n) F) as [p|] eqn:Ep.
  - destruct (pivot_some _ _ _ Ep) as [Hp Hnz].
    destruct (IHn (reduced p F) (reduced_rhs p F b)) as (y & ->); [|eauto].
    intros y Hy j Hj.
    assert (Sol : solution (S n) F (back n p F (fun _ => k0) y) (fun _ => k0)).
    { apply back_solution; auto. intros i Hi. rewrite (Hy i Hi). unfold reduced_rhs. ring. }
    exact (Hn _ Sol (S j) ltac:(lia)).
  - exfalso. apply H10.
    refine (Hn (fun j => if j =? 0 then k1 else k0) _ 0 ltac:(lia)).
    intros i Hi. unfold times_vec. rewrite ksum_first. cbn [Nat.eqb]. rewrite (pivot_none _ _ Ep) by exact Hi.
    rewrite (ksum_ext A n _ (fun _ => k0)) by (intros; ring). rewrite ksum_zero by exact HA. ring.
Qed.
Lemma gauss_exact : exact_solver gauss.
Proof. split; [exact gauss_sound|exact gauss_total]. Qed.
(** The same elimination as a "decomposition": the array itself. *)
Lemma gauss_lu : exact_lu (fun h w f => if h =? w then Some (h, f) else None)
  (fun l b => match gauss (fst l) (snd l) b with Some x => x | None => b end).
Proof.
  split.
  - intros n f _. rewrite Nat.eqb_refl. eauto.
  - intros n f l b Hn E. rewrite Nat.eqb_refl in E. injection E as <-. cbn [fst snd].
    destruct (gauss_total n f b Hn) as (x & Ex). rewrite Ex. now apply gauss_sound.
Qed.
End Gauss.

Definition complex_dec (x y : complexes) : {x = y} + {x <> y}.
Proof.
  destruct x as [a b], y as [c d]. destruct (Req_EM_T a c) as [->|H]; [|right; congruence].
  destruct (Req_EM_T b d) as [->|H]; [left; reflexivity|right; congruence].
Defined.
Lemma complex_inv (x : complexes) : x <> k0 -> kmul (Cinv x : complexes) x = k1.
Proof. intros H. exact (Cinv_l x H). Qed.
Lemma complex_one : @k1 complexes <> k0.
Proof. intros H. apply (f_equal fst) in H. cbn in H. exact (R1_neq_R0 H). Qed.
Definition complex_gauss := @gauss complexes Cinv complex_dec.
Lemma complex_gauss_exact : exact_solver complex_gauss.
Proof. exact (gauss_exact complexes_ring Cinv complex_inv complex_one complex_dec). Qed.
Definition complex_lu_factor (h w : nat) (f : nat -> nat -> complexes) : option (nat * (nat -> nat -> complexes)) :=
  if h =? w then Some (h, f) else None.
Definition complex_lu_solve (l : nat * (nat -> nat -> complexes)) (b : nat -> complexes) : nat -> complexes :=
  match complex_gauss (fst l) (snd l) b with Some x => x | None => b end.
Lemma complex_lu_exact : exact_lu complex_lu_factor complex_lu_solve.
Proof. exact (gauss_lu complexes_ring Cinv complex_inv complex_one complex_dec). Qed.
