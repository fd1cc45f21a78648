(** Every interleaving of the threads. *)
From Coq Require Import Reals.
From Coquelicot Require Import Complex.
From Coq Require Import List Bool Arith Lia Permutation.
From Verif Require Import Model_Base Model_Mesh Model_Assembly Spec_Assembly Proofs_Assembly Proofs_Assembly2.
Import ListNotations.
Open Scope nat_scope.

Lemma replace_split {X} t (l : list X) x y : nth_error l t = Some x -> exists l1 l2, l = l1 ++ x :: l2 /\ replace_nth t y l = l1 ++ y :: l2.
Proof.
  revert t. induction l as [|z l IH]; intros [|t] H; try discriminate; cbn in *.
  - injection H as ->. exists [], l. auto.
  - destruct (IH t H) as (l1 & l2 & E1 & E2). exists (z :: l1), l2. cbn. rewrite <- E1, <- E2. auto.
Qed.
Lemma remove_perm k (l : list nat) j : nth_error l k = Some j -> forall x, count_occ Nat.eq_dec l x = count_occ Nat.eq_dec [j] x + count_occ Nat.eq_dec (remove_nth k l) x.
Proof.
  revert k. induction l as [|z l IH]; intros [|k] H x; try discriminate; cbn [nth_error] in H.
  - injection H as ->. cbn. destruct (Nat.eq_dec j x); lia.
  - cbn [remove_nth]. specialize (IH k H x). cbn in *. destruct (Nat.eq_dec z x), (Nat.eq_dec j x); lia.
Qed.
Definition pair_dec (x y : nat * nat) : {x = y} + {x <> y}.
Proof. decide equality; apply Nat.eq_dec. Defined.
Notation cn := (count_occ Nat.eq_dec).
Notation cp := (count_occ pair_dec).

Section Threads.
  Variable rankine : bool -> vec -> source_panel -> R * vec.
  Variable reflected : bool -> (R * R) -> vec -> source_panel -> R * vec.
  Variable one_point : bool -> (R * R) -> vec -> source_panel -> R * vec.
  Variable wave_part : singularities -> depth_method -> ext -> ext -> bool -> vec -> source_panel -> C * (C * C * C).
  Variable a : inputs.
  Notation computations := (computations rankine reflected one_point wave_part a).
  Notation iteration := (iteration rankine reflected one_point wave_part a).
  Notation K_value := (K_value a).
  Notation thread_step := (thread_step rankine reflected one_point wave_part a).
  Notation S_entry := (S_entry rankine reflected one_point wave_part a).
  Let n1 := nb_1 a.

  (** The columns in execution, and the entries that a thread has written in its column. *)
  Definition running (t : registers * control) : list nat := match snd t with Executing j _ _ => [j] | _ => [] end.
  Definition column (n j : nat) : list (nat * nat) := map (fun i => (i, j)) (seq 0 n).
  Definition written_S (t : registers * control) : list (nat * nat) :=
    match snd t with Executing j i todo => column (if Nat.leb (length todo) 1 then S i else i) j | _ => [] end.
  Definition written_K (t : registers * control) : list (nat * nat) :=
    match snd t with Executing j i todo => column (match todo with [] => S i | _ => i end) j | _ => [] end.
  Definition thread_ok (t : registers * control) : Prop :=
    match snd t with
    | Executing j i todo => i < n1 /\
      ((exists pre post r0, computations i j = pre ++ post /\ todo = post ++ [WriteS i j int_G; WriteK i j (K_value i j)] /\ fst t = exec pre r0)
       \/ (todo = [WriteK i j (K_value i j)] /\ exists r0, fst t = exec (computations i j) r0)
       \/ todo = [])
    | _ => True
    end.
  Variable s0 : nat -> nat -> C.
  Variable k0 : nat -> nat -> list num.
  Definition memory_ok (st : machine) : Prop :=
    (forall i j, In (i, j) (log_S st) -> matrix_S st i j = S_entry i j) /\ (forall i j, ~ In (i, j) (log_S st) -> matrix_S st i j = s0 i j)
    /\ (forall i j, In (i, j) (log_K st) -> exists r0, matrix_K st i j = K_value i j (exec (computations i j) r0))
    /\ (forall i j, ~ In (i, j) (log_K st) -> matrix_K st i j = k0 i j).
  Definition invariant (st : machine) : Prop :=
    exists done, (forall x, cn (pending st) x + cn (flat_map running (threads st)) x + cn done x = cn (seq 0 (nb_2 a)) x)
    /\ (forall x, cp (log_S st) x = cp (flat_map (column n1) done) x + cp (flat_map written_S (threads st)) x)
    /\ (forall x, cp (log_K st) x = cp (flat_map (column n1) done) x + cp (flat_map written_K (threads st)) x)
    /\ Forall thread_ok (threads st) /\ memory_ok st.

  Lemma launched regs : invariant (launch a regs s0 k0).
  Proof.
    exists []. unfold launch. cbn [pending threads log_S log_K flat_map].
    assert (E : forall {X} (f : registers * control -> list X), (forall r, f (r, Waiting) = []) -> flat_map f (map (fun r => (r, Waiting)) regs) = []).
    { intros X f H. induction regs as [|r l IH]; cbn; [reflexivity|]. now rewrite H, IH. }
    rewrite !E by reflexivity. split; [intros x; cbn; lia|]. split; [reflexivity|]. split; [reflexivity|]. split.
    - apply Forall_forall. intros t Ht. apply in_map_iff in Ht. destruct Ht as (r & <- & _). exact I.
    - repeat split; cbn; contradiction || auto.
  Qed.
  Lemma column_S n j : column (S n) j = column n j ++ [(n, j)].
  Proof. unfold column. rewrite seq_S, map_app. reflexivity. Qed.
  Lemma start_ok j i r : i < n1 -> thread_ok (r, Executing j i (iteration i j)) /\ written_S (r, Executing j i (iteration i j)) = column i j /\ written_K (r, Executing j i (iteration i j)) = column i j.
  Proof.
    intros L. rewrite iteration_split. split; [|split].
    - split; [exact L|]. left. exists [], (computations i j), r. auto.
    - unfold written_S. cbn [snd]. rewrite app_length. cbn [length]. replace (Nat.leb _ 1) with false by (symmetry; apply Nat.leb_gt; lia). reflexivity.
    - unfold written_K. cbn [snd]. destruct (computations i j); reflexivity.
  Qed.
  Lemma update_same {X} (m : nat -> nat -> X) i j x : update m i j x i j = x.
  Proof. unfold update. now rewrite !Nat.eqb_refl. Qed.
  Lemma update_other {X} (m : nat -> nat -> X) i j x i' j' : (i', j') <> (i, j) -> update m i j x i' j' = m i' j'.
  Proof.
    intros N. unfold update. destruct (Nat.eqb_spec i' i) as [->|]; [|reflexivity]. destruct (Nat.eqb_spec j' j) as [->|]; [|reflexivity]. now contradiction N.
  Qed.
  Ltac counts := intros x; rewrite ?flat_map_app, ?count_occ_app; cbn [flat_map]; rewrite ?count_occ_app.

  Lemma step_ok st e : invariant st -> invariant (thread_step st e).
  Proof.
    destruct e as [t pick]. intros I0. pose proof I0 as (done & P & LS & LK & T & M). unfold Model_Assembly.thread_step.
    destruct (nth_error (threads st) t) as [[r c]|] eqn:N; [|exact I0].
    assert (Tt : thread_ok (r, c)) by (rewrite Forall_forall in T; apply T; now apply nth_error_In in N).
    assert (Split : forall y, exists l1 l2, threads st = l1 ++ (r, c) :: l2 /\ replace_nth t y (threads st) = l1 ++ y :: l2) by (intros y; now apply replace_split).
    destruct c as [|j i todo|]; [| |exact I0].
    - (* waiting *)
      destruct (pending st) as [|p0 ps] eqn:Pe.
      + destruct (Split (r, Finished)) as (l1 & l2 & E1 & E2). exists done. cbn [pending threads log_S log_K matrix_S matrix_K]. rewrite E2.
        rewrite E1 in P, LS, LK, T. split; [|split; [|split; [|split]]].
        * intros x. specialize (P x). rewrite !flat_map_app, !count_occ_app in P |- *. cbn [flat_map running snd app] in P |- *. exact P.
        * intros x. rewrite (LS x), !flat_map_app. reflexivity.
        * intros x. rewrite (LK x), !flat_map_app. reflexivity.
        * apply Forall_app in T. destruct T as (T1 & T2). inversion T2; subst. apply Forall_app. split; [assumption|constructor; [exact I|assumption]].
        * exact M.
      + destruct (nth_error (p0 :: ps) (pick mod length (p0 :: ps))) as [j|] eqn:Nk; [|exact I0]. pose proof (remove_perm _ _ _ Nk) as Rm.
        set (rest := remove_nth (pick mod length (p0 :: ps)) (p0 :: ps)) in *. fold n1. destruct (Nat.ltb_spec 0 n1) as [L|L].
        * destruct (Split (r, Executing j 0 (iteration 0 j))) as (l1 & l2 & E1 & E2). destruct (start_ok j 0 r L) as (O1 & O2 & O3).
          exists done. cbn [pending threads log_S log_K matrix_S matrix_K]. rewrite E2. rewrite E1 in P, LS, LK, T. split; [|split; [|split; [|split]]].
          -- intros x. specialize (P x). specialize (Rm x). rewrite !flat_map_app, !count_occ_app in P |- *. cbn [flat_map running snd app] in P |- *.
             change (cn (j :: flat_map running l2) x) with (cn ([j] ++ flat_map running l2) x). rewrite count_occ_app. lia.
          -- intros x. rewrite (LS x), !flat_map_app. cbn [flat_map]. rewrite O2. reflexivity.
          -- intros x. rewrite (LK x), !flat_map_app. cbn [flat_map]. rewrite O3. reflexivity.
          -- apply Forall_app in T. destruct T as (T1 & T2). inversion T2; subst. apply Forall_app. split; [assumption|constructor; assumption].
          -- exact M.
        * destruct (Split (r, Waiting)) as (l1 & l2 & E1 & E2). exists (j :: done). cbn [pending threads log_S log_K matrix_S matrix_K]. rewrite E2. rewrite E1 in P, LS, LK, T.
          assert (Z : n1 = 0) by lia. split; [|split; [|split; [|split]]].
          -- intros x. specialize (P x). specialize (Rm x). rewrite !flat_map_app, !count_occ_app in P |- *. cbn [flat_map running snd app] in P |- *.
             change (cn (j :: done) x) with (cn ([j] ++ done) x). rewrite count_occ_app. lia.
          -- intros x. rewrite (LS x), !flat_map_app. cbn [flat_map]. unfold column at 2. rewrite Z at 2. reflexivity.
          -- intros x. rewrite (LK x), !flat_map_app. cbn [flat_map]. unfold column at 2. rewrite Z at 2. reflexivity.
          -- exact T.
          -- exact M.
    - (* executing *)
      destruct todo as [|[f|i' j' f|i' j' f] todo].
      + (* end of the iteration *)
        destruct Tt as (Li & _). cbn [fst snd] in Li. fold n1. destruct (Nat.ltb_spec (S i) n1) as [L|L].
        * destruct (Split (r, Executing j (S i) (iteration (S i) j))) as (l1 & l2 & E1 & E2). destruct (start_ok j (S i) r L) as (O1 & O2 & O3).
          exists done. cbn [pending threads log_S log_K matrix_S matrix_K]. rewrite E2. rewrite E1 in P, LS, LK, T. split; [|split; [|split; [|split]]].
          -- intros x. specialize (P x). rewrite !flat_map_app, !count_occ_app in P |- *. cbn [flat_map running snd app] in P |- *. exact P.
          -- intros x. rewrite (LS x), !flat_map_app. cbn [flat_map]. rewrite O2. reflexivity.
          -- intros x. rewrite (LK x), !flat_map_app. cbn [flat_map]. rewrite O3. reflexivity.
          -- apply Forall_app in T. destruct T as (T1 & T2). inversion T2; subst. apply Forall_app. split; [assumption|constructor; assumption].
          -- exact M.
        * destruct (Split (r, Waiting)) as (l1 & l2 & E1 & E2). exists (j :: done). cbn [pending threads log_S log_K matrix_S matrix_K]. rewrite E2. rewrite E1 in P, LS, LK, T.
          assert (Z : n1 = S i) by lia. split; [|split; [|split; [|split]]].
          -- intros x. specialize (P x). rewrite !flat_map_app, !count_occ_app in P |- *. cbn [flat_map running snd app] in P |- *.
             change (cn (j :: flat_map running l2) x) with (cn ([j] ++ flat_map running l2) x) in P. change (cn (j :: done) x) with (cn ([j] ++ done) x). rewrite count_occ_app in *. lia.
          -- intros x. rewrite (LS x), !flat_map_app. cbn [flat_map]. rewrite !count_occ_app. replace (written_S (r, Executing j i [])) with (column n1 j) by (rewrite Z; reflexivity). change (written_S (r, Waiting)) with (@nil (nat * nat)). cbn [count_occ]. lia.
          -- intros x. rewrite (LK x), !flat_map_app. cbn [flat_map]. rewrite !count_occ_app. replace (written_K (r, Executing j i [])) with (column n1 j) by (rewrite Z; reflexivity). change (written_K (r, Waiting)) with (@nil (nat * nat)). cbn [count_occ]. lia.
          -- apply Forall_app in T. destruct T as (T1 & T2). inversion T2; subst. apply Forall_app. split; [assumption|constructor; [exact I|assumption]].
          -- exact M.
      + (* a private statement *)
        destruct Tt as (Li & Tt). cbn [fst snd] in Li, Tt.
        destruct Tt as [(pre & post & r0 & Ec & Et & Er)|[(Et & _)|Et]]; try discriminate.
        destruct post as [|s post]; [discriminate|]. cbn [app] in Et. injection Et as <- ->.
        set (todo := post ++ _). destruct (Split (f r, Executing j i todo)) as (l1 & l2 & E1 & E2).
        exists done. cbn [pending threads log_S log_K matrix_S matrix_K]. rewrite E2. rewrite E1 in P, LS, LK, T.
        assert (Lt : 2 <= length todo) by (unfold todo; rewrite app_length; cbn; lia). split; [|split; [|split; [|split]]].
        * intros x. specialize (P x). rewrite !flat_map_app, !count_occ_app in P |- *. cbn [flat_map running snd app] in P |- *. exact P.
        * intros x. rewrite (LS x), !flat_map_app. cbn [flat_map]. f_equal. replace (written_S (f r, Executing j i todo)) with (written_S (r, Executing j i (Compute f :: todo))); [reflexivity|].
          unfold written_S. cbn [snd length]. replace (Nat.leb (S (length todo)) 1) with false by (symmetry; apply Nat.leb_gt; lia). replace (Nat.leb (length todo) 1) with false by (symmetry; apply Nat.leb_gt; lia). reflexivity.
        * intros x. rewrite (LK x), !flat_map_app. cbn [flat_map]. f_equal. replace (written_K (f r, Executing j i todo)) with (written_K (r, Executing j i (Compute f :: todo))); [reflexivity|].
          unfold written_K. cbn [snd]. destruct todo; [cbn in Lt; lia|]. reflexivity.
        * apply Forall_app in T. destruct T as (T1 & T2). inversion T2; subst. apply Forall_app. split; [assumption|constructor; [|assumption]].
          split; [exact Li|]. left. exists (pre ++ [Compute f]), post, r0. rewrite <- app_assoc. split; [exact Ec|]. split; [reflexivity|].
          cbn [fst]. rewrite exec_app. cbn [exec]. reflexivity.
        * exact M.
      + (* S(I, J) = int_G *)
        destruct Tt as (Li & Tt). cbn [fst snd] in Li, Tt. pose proof (computations_compute rankine reflected one_point wave_part a i j) as CC.
        destruct Tt as [(pre & post & r0 & Ec & Et & Er)|[(Et & _)|Et]]; try discriminate.
        destruct post as [|s post].
        2:{ exfalso. cbn [app] in Et. injection Et as <- _. rewrite Ec in CC. apply Forall_app in CC. destruct CC as (_ & CC). inversion CC; subst. contradiction. }
        cbn [app] in Et. injection Et as -> -> -> ->. rewrite app_nil_r in Ec. subst pre.
        destruct (Split (r, Executing j i [WriteK i j (K_value i j)])) as (l1 & l2 & E1 & E2).
        exists done. cbn [pending threads log_S log_K matrix_S matrix_K]. rewrite E2. rewrite E1 in P, LS, LK, T. split; [|split; [|split; [|split]]].
        * intros x. specialize (P x). rewrite !flat_map_app, !count_occ_app in P |- *. cbn [flat_map running snd app] in P |- *. exact P.
        * intros x. change (cp ((i, j) :: log_S st) x) with (cp ([(i, j)] ++ log_S st) x). rewrite count_occ_app, (LS x), !flat_map_app. cbn [flat_map]. rewrite !count_occ_app.
          change (written_S (r, Executing j i [WriteK i j (K_value i j)])) with (column (S i) j). change (written_S (r, Executing j i [WriteS i j int_G; WriteK i j (K_value i j)])) with (column i j).
          rewrite column_S, count_occ_app. lia.
        * intros x. rewrite (LK x), !flat_map_app. cbn [flat_map]. reflexivity.
        * apply Forall_app in T. destruct T as (T1 & T2). inversion T2; subst. apply Forall_app. split; [assumption|constructor; [|assumption]].
          split; [exact Li|]. right. left. split; [reflexivity|]. exists r0. reflexivity.
        * destruct M as (M1 & M2 & M3). cbn [fst] in Er. split; [|split; [|exact M3]]; cbn [log_S matrix_S]; intros i' j' H.
          -- destruct (pair_dec (i', j') (i, j)) as [E|Ne].
             ++ injection E as -> ->. rewrite update_same, Er. apply S_computed.
             ++ rewrite update_other by exact Ne. apply M1. destruct H as [H|H]; [congruence|exact H].
          -- rewrite update_other; [apply M2; intros K; apply H; now right|]. intros E. apply H. left. congruence.
      + (* K(I, J, :) = ... *)
        destruct Tt as (Li & Tt). cbn [fst snd] in Li, Tt. pose proof (computations_compute rankine reflected one_point wave_part a i j) as CC.
        destruct Tt as [(pre & post & r0 & Ec & Et & Er)|[(Et & r0 & Er)|Et]]; try discriminate.
        { exfalso. destruct post as [|s post]; [discriminate|]. cbn [app] in Et. injection Et as <- _. rewrite Ec in CC. apply Forall_app in CC. destruct CC as (_ & CC). inversion CC; subst. contradiction. }
        injection Et as -> -> -> ->. destruct (Split (r, Executing j i [])) as (l1 & l2 & E1 & E2).
        exists done. cbn [pending threads log_S log_K matrix_S matrix_K]. rewrite E2. rewrite E1 in P, LS, LK, T. split; [|split; [|split; [|split]]].
        * intros x. specialize (P x). rewrite !flat_map_app, !count_occ_app in P |- *. cbn [flat_map running snd app] in P |- *. exact P.
        * intros x. rewrite (LS x), !flat_map_app. cbn [flat_map]. reflexivity.
        * intros x. change (cp ((i, j) :: log_K st) x) with (cp ([(i, j)] ++ log_K st) x). rewrite count_occ_app, (LK x), !flat_map_app. cbn [flat_map]. rewrite !count_occ_app.
          change (written_K (r, Executing j i [WriteK i j (K_value i j)])) with (column i j). change (written_K (r, Executing j i [])) with (column (S i) j).
          rewrite column_S, count_occ_app. lia.
        * apply Forall_app in T. destruct T as (T1 & T2). inversion T2; subst. apply Forall_app. split; [assumption|constructor; [|assumption]].
          split; [exact Li|]. right. now right.
        * destruct M as (M1 & M2 & M3 & M4). cbn [fst] in Er. split; [exact M1|split; [exact M2|split]]; cbn [log_K matrix_K]; intros i' j' H.
          -- destruct (pair_dec (i', j') (i, j)) as [E|Ne].
             ++ injection E as -> ->. rewrite update_same. exists r0. now rewrite Er.
             ++ rewrite update_other by exact Ne. apply M3. destruct H as [H|H]; [congruence|exact H].
          -- rewrite update_other; [apply M4; intros K; apply H; now right|]. intros E. apply H. left. congruence.
  Qed.
  Lemma execute_ok schedule st : invariant st -> invariant (execute rankine reflected one_point wave_part a schedule st).
  Proof. revert st. induction schedule as [|e l IH]; intros st H; cbn; [exact H|]. apply IH. now apply step_ok. Qed.
End Threads.
