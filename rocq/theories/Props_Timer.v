(** C91: the timers of the solver. *)
From Coq Require Import Reals List String Bool Lra Lia.
From Verif Require Import Model_Timer Spec_Timer Proofs_Timer.
Import ListNotations.
Open Scope R_scope.
Open Scope string_scope.
Open Scope list_scope.

(** When no timer is started again before it is stopped, each timer records the
    exact duration of each of its blocks, in order, whether the block ends
    normally or by an exception; and it never hides an exception. *)
Theorem timers_exact : forall p c,
  never_restarted p ->
  snd (run p c) = completes p /\
  now (fst (run p c)) = now c + lasts p /\
  forall t, timings (fst (run p c)) t = timings c t ++ blocks t p.
Proof.
  intros p c H. pose proof (run_spec p c H) as S.
  destruct (run p c) as [c' ok]. simpl. intuition.
Qed.
Print Assumptions timers_exact.

(** Timers that are never used inside one another share the time spent. *)
Theorem timers_share : forall ts p c,
  NoDup ts -> never_nested ts p -> never_restarted p -> forward p ->
  (forall t, timings c t = []) ->
  sum (map (fun t => total (timings (fst (run p c)) t)) ts)
  <= now (fst (run p c)) - now c.
Proof.
  intros ts p c N H R F E. destruct (timers_exact p c R) as (_ & -> & T).
  rewrite (map_ext _ (fun t => sum (blocks t p))).
  - pose proof (under_lasts ts p N H F). unfold under in H0. lra.
  - intros t. rewrite T, E, total_sum. reflexivity.
Qed.
Print Assumptions timers_share.

(** A timer that is started again before it is stopped is wrong: the outer
    block of two seconds is recorded as one second. *)
Theorem timers_restarted_refuted :
  exists p c, forward p /\ (forall t, timings c t = []) /\
    timings (fst (run p c)) "t" <> blocks "t" p /\
    total (timings (fst (run p c)) "t") <> sum (blocks "t" p).
Proof.
  exists (With "t" (Then (Pass 1) (With "t" (Pass 1)))), (new_solver 0).
  split; [simpl; lra |]. split; [reflexivity |].
  rewrite total_sum. simpl. unfold update; simpl.
  split; [intros E; injection E; intros; lra | lra].
Qed.
Print Assumptions timers_restarted_refuted.

Example restarted_values :
  timings (fst (run (With "t" (Then (Pass 1) (With "t" (Pass 1)))) (new_solver 0))) "t" = [1; 1] /\
  blocks "t" (With "t" (Then (Pass 1) (With "t" (Pass 1)))) = [1; 2].
Proof. split; simpl; unfold update; simpl; repeat f_equal; lra. Qed.

(** For every history of a solver, of resolutions and evaluations that succeed
    or fail: the timers are exact, the number of calls of "Solve total" is that
    of the resolutions, failed ones included, and the times of the Green
    function and of the linear solver do not overlap. *)
Theorem solver_timers_exact : forall l time,
  Forall untimed_call l -> forward (session l) ->
  let c := fst (run (session l) (new_solver time)) in
  (forall t, timings c t = blocks t (session l)) /\
  nb_timings (timings c "Solve total") = List.length (filter is_solve l) /\
  total (timings c "  Green function") + total (timings c "  Linear solver")
  <= now c - time.
Proof.
  intros l time U F c.
  assert (R : never_restarted (session l))
    by (intros t; apply session_nested; [assumption | right; exists t; reflexivity]).
  destruct (timers_exact (session l) (new_solver time) R) as (_ & _ & T).
  fold c in T. simpl in T.
  split; [exact T |]. split.
  - unfold nb_timings. rewrite T. apply session_solves; assumption.
  - assert (N : NoDup ["  Green function"; "  Linear solver"])
      by (repeat constructor; simpl; intuition discriminate).
    pose proof (timers_share _ (session l) (new_solver time) N
      (session_nested _ l U (or_introl eq_refl)) R F (fun t => eq_refl)) as S.
    fold c in S. simpl in S. simpl. lra.
Qed.
Print Assumptions solver_timers_exact.

(** When the solver is used only for resolutions, the two parts displayed below
    the total do not exceed it. *)
Theorem solver_parts_partial : forall l time,
  Forall untimed_call l -> forward (session l) ->
  Forall (fun k => is_solve k = true) l ->
  let c := fst (run (session l) (new_solver time)) in
  total (timings c "  Green function") + total (timings c "  Linear solver")
  <= total (timings c "Solve total").
Proof.
  intros l time U F S c.
  destruct (solver_timers_exact l time U F) as (T & _ & _). fold c in T.
  rewrite !total_sum, !T.
  assert (N : NoDup ["  Green function"; "  Linear solver"])
    by (repeat constructor; simpl; intuition discriminate).
  assert (I : ~ In "Solve total" ["  Green function"; "  Linear solver"])
    by (simpl; intuition discriminate).
  pose proof (under_within "Solve total" _ (session l) N I
    (session_nested _ l U (or_introl eq_refl)) (session_within l S) F) as H.
  unfold under in H. simpl in H. lra.
Qed.
Print Assumptions solver_parts_partial.

(** They do when the potential is evaluated at points after a resolution,
    although the summary displays them as parts of the total. *)
Theorem solver_parts_refuted : exists l,
  Forall untimed_call l /\ forward (session l) /\
  let c := fst (run (session l) (new_solver 0)) in
  total (timings c "Solve total") < total (timings c "  Green function").
Proof.
  exists [Solve (Parts (Pass 0) (Pass 1) (Pass 0) (Pass 1) (Pass 0) None (Pass 0));
          Evaluate (Pass 0) (Pass 5) (Pass 0)].
  split.
  - repeat constructor; simpl; unfold untimed; simpl; tauto.
  - split; [simpl; repeat split; lra |].
    cbv zeta. rewrite !total_sum. simpl. unfold update; simpl. lra.
Qed.
Print Assumptions solver_parts_refuted.

(** The summary has one row for each timer; its mean times its number of calls
    is its total, and there is a mean exactly when there was a call. *)
Theorem summary_rows : forall c,
  map (fun r => fst (fst (fst r))) (timer_summary c)
    = ["Solve total"; "  Green function"; "  Linear solver"] /\
  forall t tot n m, In (t, tot, n, m) (timer_summary c) ->
    tot = sum (timings c t) /\ n = List.length (timings c t) /\
    match m with None => n = 0%nat | Some x => n <> 0%nat /\ x * INR n = tot end.
Proof.
  intros c. split; [reflexivity |]. intros t tot n m I.
  unfold timer_summary in I. apply in_map_iff in I. destruct I as (s & E & _).
  injection E; intros <- <- <- <-. split; [apply total_sum | split; [reflexivity |]].
  unfold mean. destruct (Nat.eqb_spec (nb_timings (timings c s)) 0) as [Z | Z].
  - exact Z.
  - split; [exact Z |]. field. apply not_0_INR. exact Z.
Qed.
Print Assumptions summary_rows.

(** A resolution without error: its duration, that of its linear solver, and
    those of its evaluations of the Green function. *)
Theorem solve_times : forall p time,
  untimed_parts p -> completes (solve p) = true ->
  let c := fst (run (solve p) (new_solver time)) in
  timings c "Solve total" = [now c - time] /\
  timings c "  Linear solver" = [lasts (linear_solver p)] /\
  timings c "  Green function" = lasts (matrices p) ::
    match gradient p with None => [] | Some (_, evaluation) => [lasts evaluation] end.
Proof.
  intros p time U C c.
  assert (R : never_restarted (solve p))
    by (intros t; apply solve_nested; [assumption | right; exists t; reflexivity]).
  destruct (timers_exact (solve p) (new_solver time) R) as (_ & N & T).
  fold c in N, T. rewrite !T, N.
  destruct U as (H1 & H2 & H3 & H4 & H5 & H6 & H7).
  simpl in C. repeat rewrite andb_true_iff in C.
  destruct C as (C1 & C2 & C3 & C4 & C5 & C6 & C7).
  destruct (gradient p) as [[a b] |] eqn:G.
  - destruct H7 as [Ha Hb]. simpl in C6. apply andb_true_iff in C6. destruct C6 as [Ca Cb].
    simpl. rewrite G. simpl. rewrite C1, C2, C3, C4, C5, Ca, Cb. simpl.
    rewrite !(blocks_unused _ (before p) (H1 _)), !(blocks_unused _ (matrices p) (H2 _)),
      !(blocks_unused _ (right_hand_side p) (H3 _)), !(blocks_unused _ (linear_solver p) (H4 _)),
      !(blocks_unused _ (shapes p) (H5 _)), !(blocks_unused _ (after p) (H6 _)),
      !(blocks_unused _ a (Ha _)), !(blocks_unused _ b (Hb _)).
    simpl. repeat split. f_equal. lra.
  - simpl. rewrite G. simpl. rewrite C1, C2, C3, C4, C5. simpl.
    rewrite !(blocks_unused _ (before p) (H1 _)), !(blocks_unused _ (matrices p) (H2 _)),
      !(blocks_unused _ (right_hand_side p) (H3 _)), !(blocks_unused _ (linear_solver p) (H4 _)),
      !(blocks_unused _ (shapes p) (H5 _)), !(blocks_unused _ (after p) (H6 _)).
    simpl. repeat split. f_equal. lra.
Qed.
Print Assumptions solve_times.

Example solve_times_meets :
  let p := Parts (Pass 1) (Pass 2) (Pass 0) (Pass 3) (Pass 0) (Some (Pass 1, Pass 4)) (Pass 1) in
  untimed_parts p /\ completes (solve p) = true.
Proof. repeat split; intros t E; exact E. Qed.

(** Two resolutions, with forward speed and with a failure of the linear solver,
    and an evaluation. *)
Definition history : list call :=
  [SolveCaught (Parts (Pass 1) (Pass 2) (Pass 0) (Pass 3) (Pass 0)
     (Some (Pass 1, Pass 4)) (Pass 1));
   SolveCaught (Parts (Pass 1) (Pass 2) (Pass 0) (Then (Pass 1) Raise) (Pass 0) None (Pass 1))].

Example history_meets :
  Forall untimed_call history /\ forward (session history) /\
  Forall (fun k => is_solve k = true) history /\
  blocks "Solve total" (session history) = [12; 4] /\
  blocks "  Green function" (session history) = [2; 4; 2] /\
  blocks "  Linear solver" (session history) = [3; 1].
Proof.
  unfold history. repeat split; try (simpl; lra).
  - repeat constructor; simpl; unfold untimed; simpl; tauto.
  - repeat constructor.
  - simpl. repeat f_equal; lra.
  - simpl. repeat f_equal; lra.
Qed.

Example history_share :
  NoDup ["  Green function"; "  Linear solver"] /\
  never_nested ["  Green function"; "  Linear solver"] (session history) /\
  never_restarted (session history).
Proof.
  split; [repeat constructor; simpl; intuition discriminate |].
  split; [| intros t]; apply session_nested; try apply history_meets;
    [left; reflexivity | right; exists t; reflexivity].
Qed.

Example history_summary :
  map (fun r => snd (fst r)) (timer_summary (fst (run (session history) (new_solver 0))))
  = [2%nat; 3%nat; 2%nat].
Proof. reflexivity. Qed.
