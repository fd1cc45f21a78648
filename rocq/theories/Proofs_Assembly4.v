(** When the threads have finished; and they do finish. *)
From Coq Require Import Reals.
From Coquelicot Require Import Complex.
From Coq Require Import List Bool Arith Lia Permutation.
From Verif Require Import Model_Base Model_Mesh Model_Assembly Spec_Assembly Proofs_Assembly Proofs_Assembly2 Proofs_Assembly3 Proofs_TestMatrix.
Import ListNotations.
Open Scope nat_scope.

Lemma replace_length {X} t (x : X) l : length (replace_nth t x l) = length l.
Proof. revert t. induction l as [|y l IH]; intros [|t]; cbn; auto. Qed.
Lemma replace_nth_same {X} t (x : X) l : t < length l -> nth_error (replace_nth t x l) t = Some x.
Proof. revert t. induction l as [|y l IH]; intros [|t] H; cbn in *; try lia; [reflexivity|]. apply IH. lia. Qed.
Lemma replace_nth_other {X} t t' (x : X) l : t' <> t -> nth_error (replace_nth t x l) t' = nth_error l t'.
Proof. revert t t'. induction l as [|y l IH]; intros [|t] [|t'] H; cbn; try reflexivity; try lia. apply IH. lia. Qed.
Lemma columns_entries n1 n2 : Permutation (flat_map (column n1) (seq 0 n2)) (all_entries n1 n2).
Proof.
  symmetry. apply NoDup_Permutation_bis.
  - apply nodup_prod; apply seq_NoDup.
  - unfold all_entries. rewrite prod_length, !seq_length.
    assert (E : forall l, length (flat_map (column n1) l) = n1 * length l).
    { induction l as [|j l IH]; cbn [flat_map length]; [lia|]. rewrite app_length, IH. unfold column. rewrite map_length, seq_length. lia. }
    rewrite E, seq_length. lia.
  - intros [i j] H. apply in_prod_iff in H. destruct H as (Hi & Hj). apply in_flat_map. exists j. split; [exact Hj|]. apply in_map_iff. eauto.
Qed.

Section Finished.
  Variable rankine : bool -> vec -> source_panel -> R * vec.
  Variable reflected : bool -> (R * R) -> vec -> source_panel -> R * vec.
  Variable one_point : bool -> (R * R) -> vec -> source_panel -> R * vec.
  Variable wave_part : singularities -> depth_method -> ext -> ext -> bool -> vec -> source_panel -> C * (C * C * C).
  Variable a : inputs.
  Notation computations := (computations rankine reflected one_point wave_part a).
  Notation iteration := (iteration rankine reflected one_point wave_part a).
  Notation thread_step := (thread_step rankine reflected one_point wave_part a).
  Notation execute := (execute rankine reflected one_point wave_part a).
  Notation S_entry := (S_entry rankine reflected one_point wave_part a).

  (** A thread stops only when there is no column left. *)
  Definition no_early_stop (st : machine) : Prop := (exists t r, nth_error (threads st) t = Some (r, Finished)) -> pending st = [].
  Ltac step_cases st t pick :=
    unfold Model_Assembly.thread_step; destruct (nth_error (threads st) t) as [[r c]|] eqn:N; [destruct c as [|j i [|[f|i' j' f|i' j' f] todo]|]|];
    [destruct (pending st) as [|p0 ps] eqn:Pe; [|destruct (nth_error (p0 :: ps) (pick mod length (p0 :: ps))) as [j|] eqn:Nk]|..].
  Lemma threads_number st e : length (threads (thread_step st e)) = length (threads st).
  Proof. destruct e as [t pick]. step_cases st t pick; cbn [threads]; rewrite ?replace_length; reflexivity. Qed.
  Lemma stop_step st e : no_early_stop st -> no_early_stop (thread_step st e).
  Proof.
    destruct e as [t pick]. intros H. unfold no_early_stop in *. step_cases st t pick; cbn [threads pending]; try exact H; try (rewrite Pe; exact H).
    all: intros (u & ru & Hu); destruct (Nat.eq_dec u t) as [->|Ne];
      [rewrite replace_nth_same in Hu by (apply nth_error_Some; congruence)|rewrite replace_nth_other in Hu by exact Ne].
    - first [exact Pe|reflexivity].
    - first [exact Pe|reflexivity].
    - exfalso. destruct (Nat.ltb 0 (nb_1 a)); discriminate.
    - exfalso. assert (X : p0 :: ps = []) by (apply H; eauto). discriminate.
    - exfalso. destruct (Nat.ltb (S i) (nb_1 a)); discriminate.
    - apply H; eauto.
    - discriminate.
    - apply H; eauto.
    - discriminate.
    - apply H; eauto.
    - discriminate.
    - apply H; eauto.
  Qed.
  Lemma execute_stop schedule st : no_early_stop st -> no_early_stop (execute schedule st) /\ length (threads (execute schedule st)) = length (threads st).
  Proof.
    revert st. induction schedule as [|e l IH]; intros st H; cbn; [auto|]. destruct (IH (thread_step st e) (stop_step st e H)) as (A & B). split; [exact A|].
    unfold Model_Assembly.execute in B. rewrite B. apply threads_number.
  Qed.
  Lemma launch_stop regs s0 k0 : no_early_stop (launch a regs s0 k0).
  Proof. intros (t & r & H). cbn in H. rewrite nth_error_map in H. destruct (nth_error regs t); discriminate. Qed.

  Lemma finished_matrices regs s0 k0 schedule : regs <> [] -> let st := execute schedule (launch a regs s0 k0) in all_finished st ->
    Permutation (log_S st) (all_entries (nb_1 a) (nb_2 a)) /\ Permutation (log_K st) (all_entries (nb_1 a) (nb_2 a))
    /\ (forall i j, i < nb_1 a -> j < nb_2 a -> matrix_S st i j = S_entry i j /\ exists r0, matrix_K st i j = K_value a i j (exec (computations i j) r0))
    /\ (forall i j, ~ (i < nb_1 a /\ j < nb_2 a) -> matrix_S st i j = s0 i j /\ matrix_K st i j = k0 i j).
  Proof.
    intros Ne st Fi. destruct (execute_stop schedule (launch a regs s0 k0) (launch_stop regs s0 k0)) as (St & Ln). fold st in St, Ln.
    destruct (execute_ok rankine reflected one_point wave_part a s0 k0 schedule _ (launched rankine reflected one_point wave_part a s0 k0 regs)) as (done & P & LS & LK & T & (M1 & M2 & M3 & M4)). fold st in P, LS, LK, T, M1, M2, M3, M4.
    assert (Pe : pending st = []).
    { apply St. destruct (threads st) as [|[r c] l] eqn:E; [cbn in Ln; rewrite map_length in Ln; destruct regs; [contradiction|discriminate]|].
      unfold all_finished in Fi. rewrite E in Fi. inversion Fi; subst. cbn in H1. subst. exists 0, r. reflexivity. }
    assert (Fl : forall {X} (f : registers * control -> list X), (forall r, f (r, Finished) = []) -> flat_map f (threads st) = []).
    { intros X f Hf. revert Fi. unfold all_finished. generalize (threads st). clear -Hf. intros ts Fi. induction Fi as [|[r c] l Hc Hl IH]; [reflexivity|]. cbn in Hc. subst. cbn [flat_map]. now rewrite Hf, IH. }
    rewrite Pe, Fl in P by reflexivity. rewrite Fl in LS, LK by reflexivity.
    assert (Pd : Permutation done (seq 0 (nb_2 a))) by (apply (Permutation_count_occ Nat.eq_dec); intros x; specialize (P x); cbn in P; lia).
    assert (Pf : Permutation (flat_map (column (nb_1 a)) done) (all_entries (nb_1 a) (nb_2 a))) by (apply (Permutation_trans (l' := flat_map (column (nb_1 a)) (seq 0 (nb_2 a)))); [exact (Permutation_flat_map _ Pd)|apply columns_entries]).
    assert (PS : Permutation (log_S st) (all_entries (nb_1 a) (nb_2 a))).
    { rewrite <- Pf. apply (Permutation_count_occ pair_dec). intros x. rewrite (LS x). cbn [count_occ]. lia. }
    assert (PK : Permutation (log_K st) (all_entries (nb_1 a) (nb_2 a))).
    { rewrite <- Pf. apply (Permutation_count_occ pair_dec). intros x. rewrite (LK x). cbn [count_occ]. lia. }
    assert (In1 : forall i j, In (i, j) (all_entries (nb_1 a) (nb_2 a)) <-> i < nb_1 a /\ j < nb_2 a).
    { intros i j. unfold all_entries. rewrite in_prod_iff, !in_seq. lia. }
    split; [exact PS|]. split; [exact PK|]. split; intros i j H.
    - intros H2. split; [apply M1; apply (Permutation_in _ (Permutation_sym PS)); now apply In1|apply M3; apply (Permutation_in _ (Permutation_sym PK)); now apply In1].
    - split; [apply M2; intros K; apply H, In1; exact (Permutation_in _ PS K)|apply M4; intros K; apply H, In1; exact (Permutation_in _ PK K)].
  Qed.

  (** ** Termination *)
  Definition row_cost (j i : nat) : nat := S (length (iteration i j)).
  Definition rows_cost (j from : nat) : nat := list_sum (map (row_cost j) (seq from (nb_1 a - from))).
  Definition control_cost (c : control) : nat :=
    match c with Waiting => 1 | Finished => 0 | Executing j i todo => 1 + S (length todo) + rows_cost j (S i) end.
  Definition cost (st : machine) : nat :=
    list_sum (map (fun j => S (rows_cost j 0)) (pending st)) + list_sum (map (fun t => control_cost (snd t)) (threads st)).
  Lemma rows_cost_next j i : i < nb_1 a -> rows_cost j i = row_cost j i + rows_cost j (S i).
  Proof. intros H. unfold rows_cost. replace (nb_1 a - i) with (S (nb_1 a - S i)) by lia. reflexivity. Qed.
  Lemma rows_cost_end j i : nb_1 a <= i -> rows_cost j i = 0.
  Proof. intros H. unfold rows_cost. now replace (nb_1 a - i) with 0 by lia. Qed.
  Lemma sum_remove (f : nat -> nat) k l j : nth_error l k = Some j -> list_sum (map f l) = f j + list_sum (map f (remove_nth k l)).
  Proof.
    revert k. induction l as [|y l IH]; intros [|k] H; try discriminate; cbn [nth_error] in H.
    - injection H as ->. reflexivity.
    - cbn [remove_nth map]. change (list_sum (f y :: ?x)) with (f y + list_sum x). rewrite (IH k H). change (list_sum (f y :: ?x)) with (f y + list_sum x). lia.
  Qed.
  Lemma sum_replace {X} (f : X -> nat) t l x y : nth_error l t = Some x -> list_sum (map f (replace_nth t y l)) + f x = list_sum (map f l) + f y.
  Proof.
    revert t. induction l as [|z l IH]; intros [|t] H; try discriminate; cbn [nth_error] in H; cbn [replace_nth map].
    - injection H as ->. change (list_sum (?u :: ?v)) with (u + list_sum v). lia.
    - specialize (IH t H). change (list_sum (f z :: ?v)) with (f z + list_sum v). lia.
  Qed.
  Lemma step_cost st t pick : (forall r, nth_error (threads st) t <> Some (r, Finished)) -> t < length (threads st) -> cost (thread_step st (t, pick)) < cost st.
  Proof.
    intros NF Lt. unfold cost. step_cases st t pick; cbn [threads pending].
    - pose proof (sum_replace (fun x => control_cost (snd x)) t _ _ (r, Finished) N) as H. cbn [snd control_cost] in H. lia.
    - pose proof (sum_remove (fun j => S (rows_cost j 0)) _ _ _ Nk) as E. rewrite E.
      pose proof (sum_replace (fun x => control_cost (snd x)) t _ _ (r, if Nat.ltb 0 (nb_1 a) then Executing j 0 (iteration 0 j) else Waiting) N) as H. cbn [snd] in H.
      destruct (Nat.ltb_spec 0 (nb_1 a)) as [L|L]; cbn [control_cost] in H; [rewrite (rows_cost_next j 0 L); unfold row_cost|]; lia.
    - exfalso. apply nth_error_None in Nk. assert (0 < length (p0 :: ps)) by (cbn; lia). pose proof (Nat.mod_upper_bound pick (length (p0 :: ps)) ltac:(lia)). lia.
    - pose proof (sum_replace (fun x => control_cost (snd x)) t _ _ (r, if Nat.ltb (S i) (nb_1 a) then Executing j (S i) (iteration (S i) j) else Waiting) N) as H. cbn [snd] in H.
      destruct (Nat.ltb_spec (S i) (nb_1 a)) as [L|L]; cbn [control_cost length] in H; [rewrite (rows_cost_next j (S i) L) in H; unfold row_cost in H|]; lia.
    - pose proof (sum_replace (fun x => control_cost (snd x)) t _ _ (f r, Executing j i todo) N) as H. cbn [snd control_cost length] in H. lia.
    - pose proof (sum_replace (fun x => control_cost (snd x)) t _ _ (r, Executing j i todo) N) as H. cbn [snd control_cost length] in H. lia.
    - pose proof (sum_replace (fun x => control_cost (snd x)) t _ _ (r, Executing j i todo) N) as H. cbn [snd control_cost length] in H. lia.
    - now contradiction (NF r).
    - apply nth_error_None in N. lia.
  Qed.
  Lemma step_finished st e u ru : nth_error (threads st) u = Some (ru, Finished) -> nth_error (threads (thread_step st e)) u = Some (ru, Finished).
  Proof.
    intros H. destruct e as [t pick]. step_cases st t pick; cbn [threads]; try exact H;
      (destruct (Nat.eq_dec u t) as [->|Ne]; [congruence|rewrite replace_nth_other by exact Ne; exact H]).
  Qed.
  Lemma cost_le st e : cost (thread_step st e) <= cost st.
  Proof.
    destruct e as [t pick]. destruct (nth_error (threads st) t) as [[r c]|] eqn:N.
    - destruct (Nat.eq_dec (control_cost c) 0) as [Z|Z].
      + assert (c = Finished) as -> by (destruct c; cbn in Z; try lia; reflexivity). unfold Model_Assembly.thread_step. rewrite N. lia.
      + apply Nat.lt_le_incl, step_cost; [|apply nth_error_Some; congruence]. intros r' K. rewrite N in K. injection K as -> ->. now apply Z.
    - unfold Model_Assembly.thread_step. rewrite N. lia.
  Qed.
  Lemma turns_finish schedule : forall st t, t < length (threads st) -> cost st < turns_of t schedule -> exists r, nth_error (threads (execute schedule st)) t = Some (r, Finished).
  Proof.
    induction schedule as [|[u pick] l IH]; intros st t Lt H; [cbn in H; lia|].
    assert (St : forall st' l r, nth_error (threads st') t = Some (r, Finished) -> nth_error (threads (execute l st')) t = Some (r, Finished)).
    { clear. intros st' l. revert st'. induction l as [|e l IH]; intros st' r H; cbn; [exact H|]. apply IH. now apply step_finished. }
    destruct (nth_error (threads st) t) as [[r c]|] eqn:N; [|apply nth_error_None in N; lia].
    destruct (Nat.eq_dec (control_cost c) 0) as [Z|Z].
    - assert (c = Finished) as -> by (destruct c; cbn in Z; try lia; reflexivity). exists r. now apply St.
    - cbn [execute fold_left]. unfold Model_Assembly.execute in *. cbn [fold_left].
      change (fold_left thread_step l (thread_step st (u, pick))) with (Model_Assembly.execute rankine reflected one_point wave_part a l (thread_step st (u, pick))). apply IH.
      + rewrite threads_number. exact Lt.
      + unfold turns_of in *. cbn [filter fst] in H. destruct (Nat.eqb_spec u t) as [->|Ne].
        * cbn [length] in H. assert (cost (thread_step st (t, pick)) < cost st); [|lia]. apply step_cost; [|exact Lt]. intros r' K. rewrite N in K. injection K as -> ->. now apply Z.
        * pose proof (cost_le st (u, pick)). lia.
  Qed.
  Lemma enough_turns regs s0 k0 : exists n, forall schedule, (forall t, t < length regs -> n < turns_of t schedule) -> all_finished (execute schedule (launch a regs s0 k0)).
  Proof.
    exists (cost (launch a regs s0 k0)). intros schedule H. apply Forall_forall. intros x Hx. apply In_nth_error in Hx. destruct Hx as (t & Ht).
    destruct (execute_stop schedule (launch a regs s0 k0) (launch_stop regs s0 k0)) as (_ & Ln).
    assert (Lt : t < length (threads (launch a regs s0 k0))) by (rewrite <- Ln; apply nth_error_Some; congruence).
    assert (Lr : t < length regs) by (cbn in Lt; now rewrite map_length in Lt).
    destruct (turns_finish schedule _ t Lt (H t Lr)) as (r & E). rewrite Ht in E. injection E as ->. reflexivity.
  Qed.
End Finished.
