(** Proofs about the timers. *)
From Coq Require Import Reals List String Bool Lra Lia.
From Verif Require Import Model_Timer Spec_Timer.
Import ListNotations.
Open Scope R_scope.
Open Scope list_scope.

Lemma never_nested_incl : forall ts ts' p,
  incl ts ts' -> never_nested ts' p -> never_nested ts p.
Proof.
  intros ts ts' p I; induction p; simpl; intuition.
  eapply H0; eauto.
Qed.

Lemma run_spec : forall p c,
  never_restarted p ->
  let (c', ok) := run p c in
  ok = completes p /\ now c' = now c + lasts p /\
  (forall t, ~ uses t p -> start_time c' t = start_time c t) /\
  (forall t, timings c' t = timings c t ++ blocks t p).
Proof.
  induction p; intros c H; simpl.
  - repeat split; auto. intros; now rewrite app_nil_r.
  - repeat split; auto; [lra | intros; now rewrite app_nil_r].
  - assert (Hq : never_restarted p) by (intros s; exact (proj2 (H s))).
    specialize (IHp (enter t c) Hq).
    destruct (run p (enter t c)) as [c' ok].
    destruct IHp as (Ho & Hn & Hs & Ht).
    assert (U : ~ uses t p) by (apply (proj1 (H t)); left; reflexivity).
    repeat split; auto.
    + intros s Hu; simpl. rewrite Hs by tauto. simpl; unfold update.
      destruct (String.eqb_spec s t); [subst; tauto | reflexivity].
    + intros s; simpl; unfold update.
      rewrite (String.eqb_sym t s).
      destruct (String.eqb_spec s t).
      * subst s. rewrite Ht, <- app_assoc. simpl. do 3 f_equal.
        rewrite Hs, Hn by exact U. simpl; unfold update; rewrite String.eqb_refl. lra.
      * rewrite Ht, app_nil_r. reflexivity.
  - assert (H1 : never_restarted p1) by (intros s; exact (proj1 (H s))).
    assert (H2 : never_restarted p2) by (intros s; exact (proj2 (H s))).
    specialize (IHp1 c H1). destruct (run p1 c) as [c' ok].
    destruct IHp1 as (Ho & Hn & Hs & Ht). subst ok.
    destruct (completes p1).
    + specialize (IHp2 c' H2). destruct (run p2 c') as [c'' ok'].
      destruct IHp2 as (Ho' & Hn' & Hs' & Ht').
      split; [assumption | split; [lra | split]].
      * intros t Hu. rewrite Hs', Hs by tauto; reflexivity.
      * intros t. rewrite Ht', Ht, app_assoc; reflexivity.
    + split; [reflexivity | split; [lra | split]].
      * intros t Hu; apply Hs; tauto.
      * intros t; rewrite app_nil_r; apply Ht.
  - specialize (IHp c H). destruct (run p c) as [c' ok]. intuition.
Qed.

Lemma total_sum_acc : forall l a, fold_left Rplus l a = a + sum l.
Proof. induction l; intros; simpl; [lra | rewrite IHl; lra]. Qed.

Lemma total_sum : forall l, total l = sum l.
Proof. intros; unfold total; rewrite total_sum_acc; lra. Qed.

Lemma sum_cons : forall x l, sum (x :: l) = x + sum l.
Proof. reflexivity. Qed.

Lemma sum_app : forall l m, sum (l ++ m) = sum l + sum m.
Proof. induction l; intros; simpl; [lra | rewrite IHl; lra]. Qed.

Lemma lasts_nonneg : forall p, forward p -> 0 <= lasts p.
Proof.
  induction p; simpl; intros; try lra; auto.
  destruct H. specialize (IHp1 H); specialize (IHp2 H0).
  destruct (completes p1); lra.
Qed.

Lemma blocks_unused : forall t p, ~ uses t p -> blocks t p = [].
Proof.
  induction p; simpl; intros U; auto.
  - rewrite IHp by tauto. destruct (String.eqb_spec t0 t); [tauto | reflexivity].
  - rewrite IHp1, IHp2 by tauto. now destruct (completes p1).
Qed.

(** Time under the timers of a list. *)
Definition under (ts : list string) (p : activity) : R :=
  sum (map (fun t => sum (blocks t p)) ts).

Lemma under_then : forall ts p q,
  under ts (Then p q) = under ts p + (if completes p then under ts q else 0).
Proof.
  intros ts p q; induction ts.
  - unfold under; simpl; destruct (completes p); lra.
  - unfold under in *. rewrite !map_cons, !sum_cons, IHts. simpl blocks. rewrite sum_app. destruct (completes p); simpl; lra.
Qed.

Lemma under_with_out : forall ts s p, ~ In s ts -> under ts (With s p) = under ts p.
Proof.
  intros ts s p; unfold under; induction ts; intros H; [reflexivity |].
  simpl in H. rewrite !map_cons, !sum_cons, IHts by tauto. simpl blocks.
  destruct (String.eqb_spec s a); [subst; tauto | now rewrite app_nil_r].
Qed.

Lemma under_unused : forall ts p, (forall t, In t ts -> ~ uses t p) -> under ts p = 0.
Proof.
  intros ts p; unfold under; induction ts; intros U; [reflexivity |].
  rewrite map_cons, sum_cons, IHts by (intros; apply U; right; assumption).
  rewrite blocks_unused by (apply U; left; reflexivity). simpl; lra.
Qed.

Lemma under_with_in : forall ts s p, NoDup ts -> In s ts ->
  (forall t, In t ts -> ~ uses t p) -> under ts (With s p) = lasts p.
Proof.
  induction ts; intros s p N I U; [destruct I |].
  inversion N; subst.
  change (under (a :: ts) (With s p)) with (sum (blocks a (With s p)) + under ts (With s p)).
  destruct (String.eqb_spec s a).
  - subst s. rewrite under_with_out by assumption.
    rewrite under_unused by (intros; apply U; right; assumption).
    simpl. rewrite String.eqb_refl, blocks_unused by (apply U; left; reflexivity).
    simpl; lra.
  - destruct I as [I | I]; [congruence |].
    rewrite IHts by (auto; intros; apply U; right; assumption).
    rewrite blocks_unused; [simpl; lra |].
    simpl. intros [E | E]; [congruence |]. revert E; apply U; left; reflexivity.
Qed.

Lemma under_lasts : forall ts p, NoDup ts -> never_nested ts p -> forward p ->
  under ts p <= lasts p.
Proof.
  intros ts p N; induction p; intros H F.
  - rewrite under_unused by (simpl; auto). exact F.
  - rewrite under_unused by (simpl; auto). simpl; lra.
  - destruct H as [H1 H2]. destruct (in_dec string_dec t ts).
    + rewrite under_with_in by auto. simpl; lra.
    + rewrite under_with_out by auto. exact (IHp H2 F).
  - destruct H, F. rewrite under_then; simpl.
    specialize (IHp1 H H1); specialize (IHp2 H0 H2). destruct (completes p1); lra.
  - exact (IHp H F).
Qed.

Lemma blocks_nonneg : forall t p, forward p -> 0 <= sum (blocks t p).
Proof.
  induction p; simpl; intros F; try lra; auto.
  - rewrite sum_app. specialize (IHp F).
    destruct (String.eqb t0 t); simpl; pose proof (lasts_nonneg p F); lra.
  - destruct F. rewrite sum_app. specialize (IHp1 H); specialize (IHp2 H0).
    destruct (completes p1); simpl; lra.
Qed.

Lemma under_within : forall s ts p, NoDup ts -> ~ In s ts ->
  never_nested ts p -> only_within s ts p -> forward p ->
  under ts p <= sum (blocks s p).
Proof.
  intros s ts p N I; induction p; intros H W F.
  - rewrite under_unused by (simpl; auto). simpl; lra.
  - rewrite under_unused by (simpl; auto). simpl; lra.
  - destruct H as [H1 H2]. simpl in W. simpl blocks. rewrite sum_app.
    destruct W as [W | [W W']].
    + subst t. rewrite under_with_out by auto. rewrite String.eqb_refl.
      pose proof (under_lasts ts p N H2 F).
      pose proof (blocks_nonneg s p F). simpl; lra.
    + rewrite under_with_out by auto. specialize (IHp H2 W' F).
      pose proof (lasts_nonneg p F).
      destruct (String.eqb t s); simpl; lra.
  - destruct H, W, F. rewrite under_then. simpl blocks. rewrite sum_app.
    specialize (IHp1 H H1 H3); specialize (IHp2 H0 H2 H4).
    destruct (completes p1); simpl; lra.
  - exact (IHp H W F).
Qed.

Lemma untimed_nested : forall ts p, untimed p -> never_nested ts p.
Proof.
  intros ts p; induction p; intros U; simpl; auto.
  - exfalso; apply (U t); simpl; auto.
  - split; [apply IHp1 | apply IHp2]; intros t E; apply (U t); simpl; auto.
Qed.

Lemma untimed_within : forall s ts p, untimed p -> only_within s ts p.
Proof.
  intros s ts p; induction p; intros U; simpl; auto.
  - exfalso; apply (U t); simpl; auto.
  - split; [apply IHp1 | apply IHp2]; intros t E; apply (U t); simpl; auto.
Qed.

Open Scope string_scope.
Open Scope list_scope.

Ltac unused :=
  simpl; intros;
  repeat match goal with
         | H : _ /\ _ |- _ => destruct H
         | E : _ \/ _ |- _ => destruct E
         end;
  try discriminate; try contradiction;
  match goal with H : untimed ?q, E : uses ?t ?q |- _ => exact (H t E) end.

Lemma solve_nested : forall ts p, untimed_parts p ->
  ts = ["  Green function"; "  Linear solver"] \/ (exists t, ts = [t]) ->
  never_nested ts (solve p).
Proof.
  intros ts p (H1 & H2 & H3 & H4 & H5 & H6 & H7) T.
  unfold solve. simpl. split.
  - intros I t It.
    assert (E : t = "Solve total").
    { destruct T as [-> | [u ->]]; simpl in *; [| intuition congruence].
      destruct I as [I | [I | []]]; discriminate. }
    subst t. destruct (gradient p) as [[a b]|]; intros E; simpl in E; unused.
  - repeat (split; [| ]);
      try (apply untimed_nested; assumption);
      try (intros _ t _; solve [apply H2 | apply H4]).
    destruct (gradient p) as [[a b]|]; simpl; auto. destruct H7.
    repeat split; try (apply untimed_nested; assumption). intros _ t _; apply H0.
Qed.

Lemma call_nested : forall ts k, untimed_call k ->
  ts = ["  Green function"; "  Linear solver"] \/ (exists t, ts = [t]) ->
  never_nested ts (call_activity k).
Proof.
  intros ts [p | p | a b c] U T; simpl in U.
  - apply solve_nested; assumption.
  - apply (solve_nested ts p); assumption.
  - destruct U as (Ha & Hb & Hc). simpl.
    repeat split; try (apply untimed_nested; assumption). intros _ t _; apply Hb.
Qed.

Lemma session_nested : forall ts l, Forall untimed_call l ->
  ts = ["  Green function"; "  Linear solver"] \/ (exists t, ts = [t]) ->
  never_nested ts (session l).
Proof.
  intros ts l U T; induction U; simpl; auto.
  split; [apply call_nested; assumption | assumption].
Qed.

Lemma session_within : forall l, Forall (fun k => is_solve k = true) l ->
  only_within "Solve total" ["  Green function"; "  Linear solver"] (session l).
Proof.
  intros l S; induction S; simpl; auto.
  split; [| assumption]. destruct x; simpl in *; auto; discriminate.
Qed.

Lemma solve_blocks : forall p, untimed_parts p ->
  List.length (blocks "Solve total" (solve p)) = 1%nat.
Proof.
  intros p (H1 & H2 & H3 & H4 & H5 & H6 & H7). simpl.
  rewrite !(blocks_unused "Solve total") by
    (try (match goal with H : untimed ?q |- ~ uses _ ?q => apply H end);
     destruct (gradient p) as [[a b]|]; intros E; simpl in E; unused).
  simpl. repeat (match goal with |- context [if ?b then _ else _] => destruct b end); reflexivity.
Qed.

Lemma session_solves : forall l, Forall untimed_call l ->
  List.length (blocks "Solve total" (session l)) = List.length (filter is_solve l).
Proof.
  intros l U; induction U; [reflexivity |].
  change (blocks "Solve total" (session (x :: l))) with
    (blocks "Solve total" (call_activity x) ++ blocks "Solve total" (session l)).
  rewrite app_length, IHU. destruct x as [p | p | a b c]; simpl call_activity.
  - rewrite solve_blocks by assumption. reflexivity.
  - change (blocks "Solve total" (Catch (solve p))) with (blocks "Solve total" (solve p)).
    rewrite solve_blocks by assumption. reflexivity.
  - destruct H as (Ha & Hb & Hc). rewrite blocks_unused; [reflexivity |].
    intros E; simpl in E; unused.
Qed.
