(** One step of the iteration, and the system that is given to GMRES. *)
From Coq Require Import List Arith Bool Lia Ring_theory Ring.
From Verif Require Import Model_Base Model_Ring Spec_Ring Proofs_Ring Model_Block Spec_Block Proofs_Block2 Proofs_Block4
  Model_LinSolve Spec_LinSolve Proofs_LinSolve2 Model_Mesh Proofs_Mesh Model_Engine Model_Tree Spec_Tree
  Model_Precond Spec_Precond Proofs_Precond Proofs_Precond2 Proofs_Precond3 Proofs_Precond4.
Import ListNotations.
Open Scope nat_scope.

Lemma last_written {X} (inside : X -> nat -> bool) {Y} (g : X -> nat -> Y) x j : forall (L : list X) (z : nat -> Y),
  In x L -> inside x j = true -> (forall y, In y L -> inside y j = true -> y = x) ->
  fold_left (fun a y i => if inside y i then g y i else a i) L z j = g x j.
Proof.
  induction L as [|y L IH] using rev_ind; intros z Hx Hi Hu; [destruct Hx|]. rewrite fold_left_app. cbn [fold_left].
  destruct (inside y j) eqn:E.
  - now rewrite (Hu y) by (try exact E; apply in_or_app; right; now left).
  - apply IH; [|exact Hi|intros w Hw; apply Hu, in_or_app; now left].
    apply in_app_or in Hx. destruct Hx as [Hx|[->|[]]]; [exact Hx|congruence].
Qed.
Lemma combine_seq_in {X} (l : list X) s k x : In (k, x) (combine (seq s (length l)) l) <-> s <= k /\ nth_error l (k - s) = Some x.
Proof.
  revert s. induction l as [|y l IH]; intros s; cbn [length seq combine].
  - split; [intros []|]. intros (_ & H). destruct (k - s); discriminate.
  - split.
    + intros [E|H]; [injection E as <- <-; split; [lia|]; now rewrite Nat.sub_diag|]. apply IH in H. destruct H as (H1 & H2).
      split; [lia|]. now replace (k - s) with (S (k - S s)) by lia.
    + intros (H1 & H2). destruct (Nat.eq_dec k s) as [->|Hn]; [left; rewrite Nat.sub_diag in H2; injection H2 as ->; reflexivity|].
      right. apply IH. split; [lia|]. now replace (k - s) with (S (k - S s)) in H2 by lia.
Qed.

Section Step.
Context {A : coeffs}.
Hypothesis HA : ring_laws A.
Let HA' : ring_theory (@k0 A) k1 kadd kmul ksub kopp eq := HA.
Add Ring Aring : HA'.
Notation vec := (nat -> K A).
Notation entries := (nat -> nat -> K A).
Hypothesis HF : fourier_laws A.
Variable lu : Type.
Variable lu_solve : lu -> vec -> vec.
Variables (d : nat) (l : list nat) (F : entries) (p : precond A lu).
Hypothesis U : usable lu lu_solve d l F p.
Notation N := (list_sum l).
Notation n := (length l).
Notation lf := (leaf_of l).

Lemma smoothed_at q j : j < N -> exists f, nth_error (pc_lus _ p) (lf j) = Some f
  /\ smoothed lu lu_solve p q j = lu_solve f (slice q (before l (lf j))) (j - before l (lf j)).
Proof using U.
  intros Hj. destruct (leaf_of_spec l j Hj) as (Hk & Hb). pose proof (u_number _ _ _ _ _ _ U) as Hn. pose proof (u_shapes _ _ _ _ _ _ U) as Hs.
  destruct (nth_error (pc_lus lu p) (lf j)) as [f|] eqn:Ef; [|apply nth_error_None in Ef; lia].
  exists f. split; [reflexivity|]. unfold smoothed. rewrite Hs. change (offset l) with (before l).
  assert (I1 : In (lf j, f) (combine (seq 0 (length (pc_lus lu p))) (pc_lus lu p))).
  { apply combine_seq_in. split; [lia|]. now rewrite Nat.sub_0_r. }
  assert (I2 : (before l (lf j) <=? j) && (j <? before l (S (lf j))) = true).
  { apply andb_true_intro. split; [now apply Nat.leb_le|now apply Nat.ltb_lt]. }
  refine (last_written (fun kl j => (before l (fst kl) <=? j) && (j <? before l (S (fst kl))))
    (fun kl j => lu_solve (snd kl) (slice q (before l (fst kl))) (j - before l (fst kl))) (lf j, f) j _ _ I1 I2 _).
  intros [k x] Hx Hi. apply combine_seq_in in Hx. destruct Hx as (_ & Hx). rewrite Nat.sub_0_r in Hx. cbn [fst] in Hi.
  apply andb_prop in Hi. destruct Hi as [H1 H2]. apply Nat.leb_le in H1. apply Nat.ltb_lt in H2.
  assert (Hk' : k < n) by (rewrite <- Hn; apply nth_error_Some; congruence).
  assert (lf j = k) as <- by (apply leaf_of_unique; [lia|exact Hk']). congruence.
Qed.
Lemma smoothed_solution q : solution N (D lf F) (smoothed lu lu_solve p q) q.
Proof using HA U.
  intros i Hi. rewrite (D_row HA) by exact Hi. cbv zeta. destruct (leaf_of_spec l i Hi) as (Hk & Hb). rewrite before_S in Hb by exact Hk.
  set (k := lf i) in *. destruct (nth_error (pc_lus lu p) k) as [f|] eqn:Ef; [|apply nth_error_None in Ef; rewrite (u_number _ _ _ _ _ _ U) in Ef; lia].
  transitivity (times_vec (nth k l 0) (diagonal_block F l k) (lu_solve f (slice q (before l k))) (i - before l k)).
  - apply ksum_ext. intros j Hj. f_equal. pose proof (part_bound l k Hk).
    destruct (smoothed_at q (before l k + j)) as (f' & Ef' & E); [lia|]. rewrite E.
    assert (El : lf (before l k + j) = k) by (apply leaf_of_unique; [rewrite before_S by exact Hk; lia|exact Hk]).
    rewrite El in *. rewrite Ef in Ef'. injection Ef' as <-. f_equal. lia.
  - rewrite (u_lus _ _ _ _ _ _ U k f Ef) by lia. unfold slice. f_equal. lia.
Qed.

Variable fuel : nat.
Hypothesis Hfuel : d < fuel.
Lemma jacobi_step b x : exists X E y, jacobi_coarse lu lu_solve fuel p b x = Ok y /\ step_of N n lf F b x X E
  /\ forall j, j < N -> y j = kadd (X j) (E (lf j)).
Proof using HA HF U Hfuel.
  destruct (u_good _ _ _ _ _ _ U) as (W & Fr & Dp).
  destruct (matvec_ok HA HF fuel d (pc_matrix _ p) _ x Hfuel W Fr Dp (u_zero _ _ _ _ _ _ U)) as (ax & Ea & Ha).
  pose proof (u_shape _ _ _ _ _ _ U) as Sh.
  assert (Hh : height (pc_matrix _ p) = N) by (unfold height; now rewrite Sh). assert (Hw : width (pc_matrix _ p) = N) by (unfold width; now rewrite Sh).
  unfold jacobi_coarse. rewrite Ea. cbn [bind]. rewrite Hh, Hw in *. rewrite (u_shapes _ _ _ _ _ _ U), (u_number _ _ _ _ _ _ U).
  set (X := smoothed _ _ _ _). set (rc := fun k => ksub _ _). exists X, (lu_solve (pc_coarse_lu lu p) rc). eexists. split; [reflexivity|]. split; [split|].
  - intros i Hi. unfold X. rewrite smoothed_solution by exact Hi. now rewrite Ha.
  - intros k Hk. rewrite (u_coarse_lu _ _ _ _ _ _ U) by exact Hk. unfold rc, restrict, times_vec. f_equal.
    + apply ksum_ext. intros j Hj. now rewrite restriction_ind.
    + apply ksum_ext. intros j Hj. now rewrite (u_coarse _ _ _ _ _ _ U).
  - intros j Hj. cbn beta. f_equal. rewrite <- (ind_sum HA N n lf (lf_bound l) _ j Hj). apply ksum_ext. intros k Hk. now rewrite restriction_ind.
Qed.

Hypothesis HD : invertible_parts F l.
Let HDn : nonsingular N (D lf F) := D_nonsingular HA l F (proj1 HD).
Let HCn : nonsingular n (Ac N lf F).
Proof using HA HD. eapply nonsingular_ext; [|exact (proj2 HD)]. intros i j Hi Hj. symmetry. now apply Ac_interaction. Qed.

(** The equation given to GMRES: [PinvA x = Pinvb]. *)
Definition preconditioned (b x : vec) : Prop :=
  exists c y, Pinvb lu lu_solve fuel p b = Ok c /\ PinvA lu lu_solve fuel p x = Ok y /\ forall j, j < N -> y j = c j.

(** It says that the step with the right-hand side b does not move x. *)
Lemma preconditioned_step b x : exists X E, step_of N n lf F b x X E /\
  (preconditioned b x <-> forall j, j < N -> x j = kadd (X j) (E (lf j))).
Proof using HA HF U Hfuel HD.
  destruct (jacobi_step b zeros) as (X1 & E1 & c & Ec & S1 & Hc). destruct (jacobi_step zeros x) as (X2 & E2 & y & Ey & S2 & Hy).
  pose proof (steps_add HA N n lf F _ _ _ _ _ _ _ _ S1 S2) as S3.
  eexists. eexists. split.
  - eapply step_ext; [| |exact S3]; intros i _; unfold zeros; ring.
  - unfold preconditioned, Pinvb, PinvA. rewrite Ec, Ey. cbn [bind]. split.
    + intros (c' & y' & E' & E'' & H) j Hj. injection E' as <-. injection E'' as <-. specialize (H j Hj). cbn beta in H. rewrite Hc, Hy in H by exact Hj.
      transitivity (kadd (ksub (x j) (kadd (X2 j) (E2 (lf j)))) (kadd (X2 j) (E2 (lf j)))); [ring|]. rewrite H. ring.
    + intros H. exists c. eexists. split; [reflexivity|]. split; [reflexivity|]. intros j Hj. cbn beta. rewrite Hc, Hy, (H j Hj) by exact Hj. ring.
Qed.

Lemma solution_preconditioned b x : solution N F x b -> preconditioned b x.
Proof using HA HF U Hfuel HD.
  intros H. destruct (preconditioned_step b x) as (X & E & Hst & Hq). apply Hq. exact (fixed_by_step HA N n lf F (lf_bound l) HDn HCn b x X E Hst H).
Qed.
Lemma diag_sum_interaction k : k < n -> diag_sum N lf F k = interaction F l k k.
Proof using HA. intros Hk. rewrite (diag_sum_Ac HA). now apply Ac_interaction. Qed.
Lemma preconditioned_solution b x : no_zero_divisor (A := A) -> (forall k, k < n -> interaction F l k k <> k0) ->
  preconditioned b x -> solution N F x b.
Proof using HA HF U Hfuel HD.
  intros H0 Hs Hp. destruct (preconditioned_step b x) as (X & E & Hst & Hq).
  apply (fixed_solution HA N n lf F (lf_bound l) b x X E H0); [|exact Hst|now apply Hq].
  intros k Hk. rewrite diag_sum_interaction by exact Hk. now apply Hs.
Qed.
(** When the sum of a diagonal block is zero, another vector than zero satisfies the equation with the right-hand side zero. *)
Lemma preconditioned_singular k : k < n -> 0 < nth k l 0 -> @k1 A <> k0 -> interaction F l k k = k0 ->
  forall x, solution N F x (fun i => if lf i =? k then ksum (nth k l 0) (fun j => F i (before l k + j)) else k0) ->
  preconditioned zeros x /\ ~ (forall j, j < N -> x j = k0).
Proof using HA HF U Hfuel HD.
  intros Hk Hs H1 Hz x Hx.
  assert (Hx' : solution N F x (times_vec N (D lf F) (ind lf k))).
  { intros i Hi. rewrite Hx by exact Hi. symmetry. destruct (Nat.eqb_spec (lf i) k) as [E|E].
    - rewrite (D_row HA) by exact Hi. cbv zeta. rewrite E. unfold times_vec. apply ksum_ext. intros j Hj.
      rewrite ind_part by assumption. unfold diagonal_block. destruct (leaf_of_spec l i Hi) as (_ & Hb). rewrite E in Hb.
      replace (before l k + (i - before l k)) with i by lia. ring.
    - unfold times_vec. transitivity (ksum N (fun _ => @k0 A)); [|apply (ksum_zero A HA)]. apply ksum_ext. intros j Hj. unfold D, ind.
      destruct (Nat.eqb_spec (lf i) (lf j)); [|ring]. destruct (Nat.eqb_spec (lf j) k); [congruence|]. ring. }
  pose proof (part_bound l k Hk) as Pb.
  destruct (singular_step HA N n lf F (lf_bound l) HDn HCn k Hk) with (x := x) as (Hn & Hf); try assumption.
  { exists (before l k). split; [lia|]. apply leaf_of_unique; [rewrite before_S by exact Hk; lia|exact Hk]. }
  { now rewrite diag_sum_interaction. }
  split; [|exact Hn]. destruct (preconditioned_step zeros x) as (X & E & Hst & Hq). apply Hq. now apply Hf.
Qed.
End Step.
