(** An exact root finder exists, so the hypothesis [exact_root_finder] can be met. *)
From Coq Require Import Reals Lra Ranalysis.
From Verif Require Import Model_Base Model_Problem Spec_Problem Proofs_Problem.
Open Scope R_scope.

Lemma tanh_continuity : continuity tanh.
Proof.
  unfold tanh. apply (continuity_div sinh cosh).
  - apply derivable_continuous, derivable_sinh.
  - apply derivable_continuous, derivable_cosh.
  - intros x. pose proof (cosh_pos x). lra.
Qed.

Definition residual (d y k : R) : R := k * tanh (k * d) - y.
Lemma residual_continuity d y : continuity (residual d y).
Proof.
  unfold residual. apply continuity_minus; [|apply continuity_const; intros a b; reflexivity].
  apply (continuity_mult (fun k => k) (fun k => tanh (k * d))).
  - apply derivable_continuous, derivable_id.
  - apply (continuity_comp (fun k => k * d) tanh); [|apply tanh_continuity].
    apply (continuity_mult (fun k => k) (fun _ => d)); [apply derivable_continuous, derivable_id|].
    apply continuity_const. intros a b. reflexivity.
Qed.

Definition upper (d y : R) : R := 1 / d + (y + 1) / tanh 1.
Lemma residual_0 d y : 0 < y -> residual d y 0 < 0.
Proof. intros. unfold residual. lra. Qed.
Lemma residual_upper d y : 0 < d -> 0 < y -> 0 < residual d y (upper d y).
Proof.
  intros Hd Hy. unfold residual, upper. pose proof (tanh_pos 1 Rlt_0_1) as T.
  assert (A : 0 < 1 / d) by (apply Rdiv_lt_0_compat; lra).
  assert (B : 0 < (y + 1) / tanh 1) by (apply Rdiv_lt_0_compat; lra).
  set (k := 1 / d + (y + 1) / tanh 1).
  assert (1 <= k * d).
  { unfold k. replace ((1 / d + (y + 1) / tanh 1) * d) with (1 + (y + 1) / tanh 1 * d) by (field; lra).
    assert (0 < (y + 1) / tanh 1 * d) by (apply Rmult_lt_0_compat; auto). lra. }
  assert (T1 : tanh 1 <= tanh (k * d)).
  { destruct (Req_dec 1 (k * d)) as [<-|]; [lra|]. left. apply tanh_incr. lra. }
  assert (K : (y + 1) / tanh 1 <= k) by (unfold k; lra).
  assert ((y + 1) / tanh 1 * tanh 1 <= k * tanh (k * d)).
  { apply Rmult_le_compat; lra. }
  replace ((y + 1) / tanh 1 * tanh 1) with (y + 1) in H0 by (field; lra). lra.
Qed.
Lemma upper_pos d y : 0 < d -> 0 < y -> 0 < upper d y.
Proof.
  intros. unfold upper. pose proof (tanh_pos 1 Rlt_0_1).
  assert (A : 0 < 1 / d) by (apply Rdiv_lt_0_compat; lra).
  assert (B : 0 < (y + 1) / tanh 1) by (apply Rdiv_lt_0_compat; lra). lra.
Qed.

Definition root_finder (h y : ext) : result ext :=
  match h, y with
  | Fin d, Fin t =>
    match Rlt_dec 0 d, Rlt_dec 0 t with
    | left Hd, left Ht =>
      Ok (Fin (proj1_sig (IVT (residual d t) 0 (upper d t) (residual_continuity d t)
                              (upper_pos d t Hd Ht) (residual_0 d t Ht) (residual_upper d t Hd Ht))))
    | _, _ => Err RuntimeError
    end
  | _, _ => Err RuntimeError
  end.

Lemma root_finder_exact : exact_root_finder root_finder.
Proof.
  intros d y Hd Hy. unfold root_finder.
  destruct (Rlt_dec 0 d) as [Hd'|]; [|contradiction]. destruct (Rlt_dec 0 y) as [Hy'|]; [|contradiction].
  set (z := IVT _ _ _ _ _ _ _). destruct z as [k [Hk E]]. cbn. exists k. split; [reflexivity|].
  unfold residual in E. split; [|lra]. destruct (Req_dec k 0) as [->|]; [exfalso; lra|lra].
Qed.
