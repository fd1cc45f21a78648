(** Proofs about the function decomposed in the finite depth Green function. *)
From Coq Require Import Reals Lra Psatz.
From Verif Require Import Proofs_Problem Model_PronyGreen Spec_PronyGreen.
Open Scope R_scope.

Lemma cosh_pos : forall x, 0 < cosh x.
Proof. intros; unfold cosh. pose proof (exp_pos x); pose proof (exp_pos (- x)); lra. Qed.

Lemma tanh_odd : forall x, tanh (- x) = - tanh x.
Proof.
  intros; unfold tanh. pose proof (cosh_pos x). pose proof (cosh_pos (- x)).
  assert (E : cosh (- x) = cosh x) by (unfold cosh; rewrite Ropp_involutive; lra).
  assert (S : sinh (- x) = - sinh x) by (unfold sinh; rewrite Ropp_involutive; lra).
  rewrite E, S. field. lra.
Qed.

Lemma denominator_factor : forall K K0,
  K * sinh K - K0 * cosh K = (K * tanh K - K0) * cosh K.
Proof. intros; unfold tanh. pose proof (cosh_pos K). field. lra. Qed.

(** The denominator is zero exactly at the wavenumber and its opposite. *)
Lemma denominator_zero : forall K M0, 0 < M0 ->
  K * sinh K - M0 * tanh M0 * cosh K = 0 <-> K = M0 \/ K = - M0.
Proof.
  intros K M0 P. rewrite denominator_factor. pose proof (cosh_pos K) as C.
  pose proof (tanh_pos M0 P) as T. split.
  - intros H. apply Rmult_integral in H. destruct H as [H | H]; [| lra].
    assert (H' : K * tanh K = M0 * tanh M0) by lra.
    destruct (Rtotal_order K 0) as [N | [-> | N]].
    + right. enough (- K = M0) by lra.
      apply (ktanh_inj 1); try lra. rewrite !Rmult_1_r, tanh_odd. lra.
    + exfalso. pose proof (Rmult_lt_0_compat _ _ P T). lra.
    + left. apply (ktanh_inj 1); try lra. rewrite !Rmult_1_r. exact H'.
  - intros [-> | ->]; [ring |]. rewrite tanh_odd. ring.
Qed.

Lemma quotient_some : forall x y, y <> 0 -> quotient x y = Some (x / y).
Proof. intros; unfold quotient. destruct (Req_EM_T y 0); [tauto | reflexivity]. Qed.

Lemma tanh_below_1 : forall x, tanh x < 1.
Proof.
  intros; unfold tanh. pose proof (cosh_pos x). pose proof (exp_pos (- x)).
  apply (Rmult_lt_reg_r (cosh x)); [assumption |].
  unfold Rdiv. rewrite Rmult_assoc, Rinv_l by lra. unfold sinh, cosh. lra.
Qed.

Lemma coef_denominator : forall M0, 0 < M0 ->
  0 < M0 ^ 2 - (M0 * tanh M0) ^ 2 + M0 * tanh M0.
Proof.
  intros M0 P. pose proof (tanh_pos M0 P) as T. pose proof (tanh_below_1 M0) as U.
  assert (0 < M0 * tanh M0) by (apply Rmult_lt_0_compat; assumption).
  assert (M0 * tanh M0 < M0) by nra.
  nra.
Qed.

Lemma far_defined : forall K M0, 0 < M0 -> K <> M0 -> K <> - M0 ->
  let K0 := M0 * tanh M0 in
  ff_far ((M0 + K0) ^ 2 / (M0 ^ 2 - K0 ^ 2 + K0)) K K0 M0 = Some (thesis K K0 M0).
Proof.
  intros K M0 P N1 N2 K0. unfold ff_far.
  rewrite !quotient_some; [reflexivity | lra |].
  unfold K0. rewrite denominator_zero by exact P. tauto.
Qed.
