(** The constructions that share a disk. *)
From Coq Require Import String Ascii.
From Coq Require Import List Bool Arith ZArith Lia.
From Verif Require Import Model_Base Model_Text Proofs_Text Model_TabCache Spec_TabCache Proofs_TabCache.
Import ListNotations.

Section Disk.
  Variable T : Type.
  Notation find_file := (find_file T). Notation write_file := (write_file T). Notation remove_file := (remove_file T).
  Lemma find_removed_same p l : find_file p (remove_file p l) = None.
  Proof.
    induction l as [|(q, c) l IH]; [reflexivity|]. unfold remove_file in *. cbn [filter fst]. destruct (text_eqb_spec p q) as [->|N]; cbn [negb]; [exact IH|].
    cbn [Model_TabCache.find_file]. now rewrite text_eqb_other.
  Qed.
  Lemma find_removed_other p q l : p <> q -> find_file p (remove_file q l) = find_file p l.
  Proof.
    intros N. induction l as [|(x, c) l IH]; [reflexivity|]. unfold remove_file in *. cbn [filter fst Model_TabCache.find_file].
    destruct (text_eqb_spec q x) as [->|M]; cbn [negb]; [now rewrite IH, (text_eqb_other p x N)|]. cbn [Model_TabCache.find_file]. now rewrite IH.
  Qed.
  Lemma find_written_same p c l : find_file p (write_file p c l) = Some c.
  Proof. unfold write_file. cbn [Model_TabCache.find_file]. now rewrite text_eqb_same. Qed.
  Lemma find_written_other p q c l : p <> q -> find_file p (write_file q c l) = find_file p l.
  Proof. intros N. unfold write_file. cbn [Model_TabCache.find_file]. rewrite text_eqb_other by exact N. now apply find_removed_other. Qed.
  Lemma find_removed p q l c : find_file p (remove_file q l) = Some c -> find_file p l = Some c.
  Proof. destruct (text_eqb_spec p q) as [->|N]; [now rewrite find_removed_same|]. now rewrite find_removed_other. Qed.
End Disk.

Lemma nth_set_same {A} i (x : A) l : (i < length l)%nat -> nth_error (set_nth i x l) i = Some x.
Proof. revert i. induction l as [|y l IH]; intros [|i] H; cbn in *; try reflexivity; try lia. apply IH. lia. Qed.
Lemma nth_set_other {A} i j (x : A) l : i <> j -> nth_error (set_nth i x l) j = nth_error l j.
Proof. revert i j. induction l as [|y l IH]; intros [|i] [|j] H; cbn; try congruence; try reflexivity. apply IH. congruence. Qed.
Lemma length_set {A} i (x : A) l : length (set_nth i x l) = length l.
Proof. revert i. induction l as [|y l IH]; intros [|i]; cbn; congruence. Qed.

Section Shared.
  Variable F : Type.
  Variable show : F -> text.
  Variable T : Type.
  Variable make : text -> text -> nat -> F -> nat -> F -> nat -> T.
  Notation arguments := (arguments F). Notation process := (process F T). Notation system := (system F T). Notation disk := (disk T).
  Notation table_of := (table_of F T make). Notation find_file := (find_file T). Notation write_file := (write_file T). Notation remove_file := (remove_file T).
  Notation advance := (advance F show T make). Notation happen := (happen F show T make). Notation history := (history F show T make).
  Notation path_of := (path_of F show).
  Notation Complete := (Complete T). Notation Unfinished := (Unfinished T). Notation files := (files T). Notation directories := (directories T).
  Notation right_disk := (right_disk F show T make).

  (** What a process knows is right. *)
  Definition right_progress (p : process) : Prop :=
    match p_progress F T p with
    | Called | Raised _ | Killed => True
    | Absent => known_names F (p_arguments F T p)
    | Computed t | Opened t | Done t => known_names F (p_arguments F T p) /\ t = table_of (p_arguments F T p)
    end.
  Definition right_system (s : system) : Prop := right_disk (s_disk F T s) /\ forall i p, nth_error (s_processes F T s) i = Some p -> right_progress p.

  Section Readable.
  Hypothesis R : readable_numbers show.
  Lemma same_table a b : same_parameters F a b -> table_of a = table_of b.
  Proof. intros (E1 & E2 & E3 & E4 & E5 & E6 & E7). unfold Model_TabCache.table_of. now rewrite E1, E2, E3, E4, E5, E6, E7. Qed.
  Lemma right_write d p c : right_disk d -> (forall t, c = Complete t -> exists a dir, known_names F a /\ p = path_of a dir /\ t = table_of a) ->
    right_disk (Disk T (directories d) (write_file p c (files d))).
  Proof.
    intros H Hc b dir t Kb E. cbn [Model_TabCache.files] in E. destruct (text_eqb_spec (path_of b dir) p) as [Ep|N].
    - rewrite Ep, find_written_same in E. injection E as E. destruct (Hc t E) as (a & dir' & Ka & Pa & ->). apply same_table. apply (path_inj F show R a b dir' dir Ka Kb). congruence.
    - rewrite find_written_other in E by exact N. exact (H b dir t Kb E).
  Qed.
  Lemma advance_right i mixed d p d' g : right_disk d -> right_progress p -> advance i mixed d p = (d', g) -> right_disk d' /\ right_progress (Process F T (p_arguments F T p) g).
  Proof.
    destruct p as [a g0]. intros Hd Hp. unfold Model_TabCache.advance. cbn [p_arguments p_progress] in *. cbv zeta. unfold right_progress in *. cbn [p_arguments p_progress] in *.
    destruct g0 as [| |t|t|t|e|].
    - destruct (known_precision (a_precision F a)) eqn:K1; cbn [negb]; [|intros H; injection H as <- <-; now split].
      destruct (known_shape (a_shape F a)) eqn:K2; cbn [negb]; [|intros H; injection H as <- <-; now split].
      assert (K : known_names F a) by now split.
      destruct (a_directory F a) as [dir|]; [|intros H; injection H as <- <-; now repeat split].
      destruct (find_file (join_path dir (file_name F show a)) (files d)) as [[t|w]|] eqn:E; intros H; injection H as <- <-; split; try assumption; try exact I.
      split; [exact K|]. exact (Hd a dir t K E).
    - intros H. injection H as <- <-. split; [exact Hd|split; [exact Hp|reflexivity]].
    - destruct (a_directory F a) as [dir|]; [|intros H; injection H as <- <-; tauto]. destruct (text_in dir (directories d)); [|intros H; injection H as <- <-; tauto].
      intros H. injection H as <- <-. split; [|exact Hp]. apply right_write; [exact Hd|discriminate].
    - destruct (a_directory F a) as [dir|]; [|intros H; injection H as <- <-; tauto].
      destruct (find_file (join_path dir (file_name F show a)) (files d)) as [[u|w]|] eqn:E; intros H; injection H as <- <-; split; try assumption.
      apply right_write; [exact Hd|]. intros u Hu. exists a, dir. split; [tauto|]. split; [reflexivity|].
      destruct (filter _ w); [injection Hu as <-; tauto|]. destruct mixed; [injection Hu as <-; tauto|discriminate].
    - intros H. injection H as <- <-. now split.
    - intros H. injection H as <- <-. now split.
    - intros H. injection H as <- <-. now split.
  Qed.
  Lemma happen_right s e : right_system s -> right_system (happen s e).
  Proof.
    intros (Hd & Hp). destruct e as [a|i mixed|i|p|dir]; cbn [Model_TabCache.happen].
    - split; [exact Hd|]. cbn [s_processes]. intros i p H. destruct (Nat.lt_ge_cases i (length (s_processes F T s))) as [L|L].
      + rewrite nth_error_app1 in H by exact L. exact (Hp i p H).
      + rewrite nth_error_app2 in H by exact L. destruct (i - length (s_processes F T s))%nat as [|k]; cbn in H; [|destruct k; discriminate]. injection H as <-. exact I.
    - destruct (nth_error (s_processes F T s) i) as [p|] eqn:E; [|now split]. destruct (advance i mixed (s_disk F T s) p) as [d g] eqn:A.
      destruct (advance_right _ _ _ _ _ _ Hd (Hp i p E) A) as (Hd' & Hg). split; [exact Hd'|]. cbn [s_processes]. intros j q H.
      destruct (Nat.eq_dec i j) as [->|N]; [rewrite nth_set_same in H by (apply nth_error_Some; congruence); injection H as <-; exact Hg|]. rewrite nth_set_other in H by exact N. exact (Hp j q H).
    - destruct (nth_error (s_processes F T s) i) as [p|] eqn:E; [|now split].
      assert (G : right_system (System F T (s_disk F T s) (set_nth i (Process F T (p_arguments F T p) (Killed T)) (s_processes F T s)))).
      { split; [exact Hd|]. cbn [s_processes]. intros j q H. destruct (Nat.eq_dec i j) as [->|N]; [rewrite nth_set_same in H by (apply nth_error_Some; congruence); injection H as <-; exact I|]. rewrite nth_set_other in H by exact N. exact (Hp j q H). }
      destruct (p_progress F T p); try exact G; now split.
    - split; [|exact Hp]. intros a dir t K H. cbn [s_disk Model_TabCache.files] in H. apply find_removed in H. exact (Hd a dir t K H).
    - split; [|exact Hp]. intros a dir' t K H. exact (Hd a dir' t K H).
  Qed.
  Lemma history_right l : forall s, right_system s -> right_system (history s l).
  Proof. induction l as [|e l IH]; intros s H; [exact H|]. cbn. apply IH. now apply happen_right. Qed.
  End Readable.

  (** ** One construction at a time *)
  Lemma nth_last {A} (l : list A) x : nth_error (l ++ [x]) (length l) = Some x.
  Proof. rewrite nth_error_app2 by lia. now rewrite Nat.sub_diag. Qed.
  Lemma set_last {A} (l : list A) x y : set_nth (length l) y (l ++ [x]) = l ++ [y].
  Proof. induction l as [|z l IH]; [reflexivity|]. cbn [length app set_nth]. now rewrite IH. Qed.
  Lemma step_last ps d a g mixed : happen (System F T d (ps ++ [Process F T a g])) (Step F (length ps) mixed)
    = (let '(d', g') := advance (length ps) mixed d (Process F T a g) in System F T d' (ps ++ [Process F T a g'])).
  Proof. cbn [Model_TabCache.happen s_processes s_disk]. rewrite nth_last. destruct (advance _ _ _ _) as [d' g']. cbn [p_arguments]. now rewrite set_last. Qed.
  Lemma call_last ps d a : happen (System F T d ps) (Call F a) = System F T d (ps ++ [Process F T a (Called T)]). Proof. reflexivity. Qed.
  Lemma text_in_In t l : In t l -> text_in t l = true.
  Proof. intros H. unfold text_in. apply existsb_exists. exists t. split; [exact H|apply text_eqb_same]. Qed.
  (** A complete construction on a clean disk. *)
  Lemma construction ps d a dirs : correct_call F dirs a -> (forall x, In x dirs -> In x (directories d)) -> no_unfinished T d ->
    exists d' t, history (System F T d ps) (one_at_a_time F (length ps) [Construct F a]) = System F T d' (ps ++ [Process F T a (Done T t)]) /\ no_unfinished T d' /\ directories d' = directories d
      /\ (forall p c, find_file p (files d) = Some c -> find_file p (files d') = Some c)
      /\ (forall dir, a_directory F a = Some dir -> exists u, find_file (path_of a dir) (files d') = Some (Complete u)).
  Proof.
    intros ((K1 & K2) & Hdir) Hdirs Hu. cbn [one_at_a_time]. unfold Model_TabCache.history. cbn [fold_left]. rewrite call_last.
    assert (Fin : forall d t m, advance (length ps) m d (Process F T a (Done T t)) = (d, Done T t)) by reflexivity.
    rewrite step_last. unfold Model_TabCache.advance at 1. cbn [p_arguments p_progress]. cbv zeta. rewrite K1, K2. cbn [negb].
    destruct (a_directory F a) as [dir|] eqn:Ed.
    2:{ repeat (rewrite step_last, Fin). exists d, (table_of a). repeat split; auto. discriminate. }
    destruct (find_file (join_path dir (file_name F show a)) (files d)) as [[t|w]|] eqn:E.
    - repeat (rewrite step_last, Fin). exists d, t. repeat split; auto. intros dir' H. injection H as <-. exists t. exact E.
    - exfalso. exact (Hu _ _ E).
    - rewrite step_last. unfold Model_TabCache.advance at 1. cbn [p_progress p_arguments].
      rewrite step_last. unfold Model_TabCache.advance at 1. cbn [p_progress p_arguments]. cbv zeta. rewrite Ed, (text_in_In dir (directories d)), E by (apply Hdirs, Hdir; reflexivity).
      rewrite step_last. unfold Model_TabCache.advance at 1. cbn [p_progress p_arguments Model_TabCache.files Model_TabCache.directories]. cbv zeta. rewrite Ed, find_written_same. cbn [filter]. rewrite Nat.eqb_refl. cbn [negb].
      eexists _, (table_of a). split; [reflexivity|]. split; [|split; [reflexivity|split]].
      + intros p w H. cbn [Model_TabCache.files] in H. destruct (text_eqb_spec p (join_path dir (file_name F show a))) as [->|N]; [rewrite find_written_same in H; discriminate|]. rewrite !find_written_other in H by exact N. exact (Hu p w H).
      + intros p c H. cbn [Model_TabCache.files]. rewrite !find_written_other; [exact H| |]; congruence.
      + intros dir' H. injection H as <-. cbn [Model_TabCache.files]. unfold Spec_TabCache.path_of. rewrite find_written_same. eauto.
  Qed.
  Lemma history_app l m s : history s (l ++ m) = history (history s l) m.
  Proof. apply fold_left_app. Qed.
  Lemma one_app n a l : one_at_a_time F n (Construct F a :: l) = one_at_a_time F n [Construct F a] ++ one_at_a_time F (S n) l. Proof. reflexivity. Qed.
  Definition finished (p : process) : Prop := exists t, p_progress F T p = Done T t.
  Notation constructions := (constructions F).
  Lemma sequential_done dirs l : forall ps d, (forall a, In a (constructions l) -> correct_call F dirs a) -> (forall x, In x dirs -> In x (directories d)) -> no_unfinished T d ->
    exists d' qs, history (System F T d ps) (one_at_a_time F (length ps) l) = System F T d' (ps ++ qs) /\ map (p_arguments F T) qs = constructions l /\ Forall finished qs /\ no_unfinished T d'
      /\ (forall x, In x dirs -> In x (directories d')) /\ (forall p c, ~ In (Delete F p) l -> find_file p (files d) = Some c -> find_file p (files d') = Some c).
  Proof.
    induction l as [|[a|p|dir] l IH]; intros ps d Hc Hd Hu.
    - exists d, []. cbn. rewrite app_nil_r. repeat split; auto.
    - rewrite one_app, history_app. destruct (construction ps d a dirs) as (d1 & t & -> & Hu1 & Hd1 & K1 & _); [apply Hc; now left|exact Hd|exact Hu|].
      replace (Datatypes.S (length ps)) with (length (ps ++ [Process F T a (Done T t)])) by (rewrite app_length; cbn; lia).
      destruct (IH (ps ++ [Process F T a (Done T t)]) d1) as (d' & qs & -> & M & Q & U & D & K2); [intros b Hb; apply Hc; now right|intros x Hx; rewrite Hd1; auto|exact Hu1|].
      exists d', (Process F T a (Done T t) :: qs). rewrite <- app_assoc. split; [reflexivity|]. split; [cbn; now rewrite M|]. split; [constructor; [now exists t|exact Q]|]. split; [exact U|]. split; [exact D|]. intros p c Hn Hc'. apply K2; [intros X; apply Hn; now right|]. now apply K1.
    - cbn [one_at_a_time constructions]. unfold Model_TabCache.history. cbn [fold_left]. cbn [Model_TabCache.happen s_disk s_processes]. destruct (IH ps (Disk T (directories d) (remove_file p (files d)))) as (d' & qs & E & M & Q & U & D & K2); [exact Hc|exact Hd| |].
      + intros q w H. cbn [Model_TabCache.files] in H. apply find_removed in H. exact (Hu q w H).
      + exists d', qs. repeat (split; [assumption|]). intros q c Hn Hq. apply K2; [intros X; apply Hn; now right|]. cbn [Model_TabCache.files]. rewrite find_removed_other; [exact Hq|]. intros ->. apply Hn. now left.
    - cbn [one_at_a_time constructions]. unfold Model_TabCache.history. cbn [fold_left]. cbn [Model_TabCache.happen s_disk s_processes]. destruct (IH ps (Disk T (dir :: directories d) (files d))) as (d' & qs & E & M & Q & U & D & K2); [exact Hc|intros x Hx; right; auto|exact Hu|].
      exists d', qs. repeat (split; [assumption|]). intros q c Hn Hq. apply K2; [intros X; apply Hn; now right|exact Hq].
  Qed.

  (** ** A process killed while it writes *)
  Definition waiting (p : process) : Prop := match p_progress F T p with Called | Raised _ | Killed => True | _ => False end.
  Definition stuck (path : text) (w : list nat) (s : system) : Prop :=
    find_file path (files (s_disk F T s)) = Some (Unfinished w)
    /\ forall i p dir, nth_error (s_processes F T s) i = Some p -> a_directory F (p_arguments F T p) = Some dir -> path_of (p_arguments F T p) dir = path -> waiting p.
  Lemma advance_stuck path w i mixed d p d' g : find_file path (files d) = Some (Unfinished w) ->
    (forall dir, a_directory F (p_arguments F T p) = Some dir -> path_of (p_arguments F T p) dir = path -> waiting p) -> advance i mixed d p = (d', g) ->
    find_file path (files d') = Some (Unfinished w) /\ (forall dir, a_directory F (p_arguments F T p) = Some dir -> path_of (p_arguments F T p) dir = path -> waiting (Process F T (p_arguments F T p) g)).
  Proof.
    destruct p as [a g0]. intros Hf Hp. unfold Model_TabCache.advance. cbn [p_arguments p_progress] in *. cbv zeta. unfold waiting in *. cbn [p_arguments p_progress] in *.
    destruct g0 as [| |t|t|t|e|].
    - destruct (known_precision (a_precision F a)); cbn [negb]; [|intros H; injection H as <- <-; now split].
      destruct (known_shape (a_shape F a)); cbn [negb]; [|intros H; injection H as <- <-; now split].
      destruct (a_directory F a) as [dir|]; [|intros H; injection H as <- <-; split; [exact Hf|discriminate]].
      destruct (find_file (join_path dir (file_name F show a)) (files d)) as [[t|w']|] eqn:E; intros H; injection H as <- <-; split; try assumption; intros dir' Ed Ep; injection Ed as <-; unfold Spec_TabCache.path_of in Ep; rewrite Ep in E; congruence || exact I.
    - intros H. injection H as <- <-. now split.
    - destruct (a_directory F a) as [dir|]; [|intros H; injection H as <- <-; now split].
      destruct (text_in dir (directories d)); [|intros H; injection H as <- <-; now split].
      intros H. injection H as <- <-. split; [|exact Hp]. cbn [Model_TabCache.files]. rewrite find_written_other; [exact Hf|]. intros E. exact (Hp dir eq_refl (eq_sym E)).
    - destruct (a_directory F a) as [dir|]; [|intros H; injection H as <- <-; now split].
      destruct (find_file (join_path dir (file_name F show a)) (files d)) as [[u|w']|] eqn:E; intros H; injection H as <- <-; split; try assumption.
      cbn [Model_TabCache.files]. rewrite find_written_other; [exact Hf|]. intros E'. exact (Hp dir eq_refl (eq_sym E')).
    - intros H. injection H as <- <-. now split.
    - intros H. injection H as <- <-. now split.
    - intros H. injection H as <- <-. now split.
  Qed.
  Lemma happen_stuck path w s e : e <> Remove F path -> stuck path w s -> stuck path w (happen s e).
  Proof.
    intros Ne (Hf & Hp). destruct e as [a|i mixed|i|p|dir]; cbn [Model_TabCache.happen].
    - split; [exact Hf|]. cbn [s_processes]. intros i p dir H. destruct (Nat.lt_ge_cases i (length (s_processes F T s))) as [L|L].
      + rewrite nth_error_app1 in H by exact L. exact (Hp i p dir H).
      + rewrite nth_error_app2 in H by exact L. destruct (i - length (s_processes F T s))%nat as [|k]; cbn in H; [|destruct k; discriminate]. injection H as <-. intros _ _. exact I.
    - destruct (nth_error (s_processes F T s) i) as [p|] eqn:E; [|now split]. destruct (advance i mixed (s_disk F T s) p) as [d g] eqn:A.
      destruct (advance_stuck path w i mixed (s_disk F T s) p d g Hf (fun dir => Hp i p dir E) A) as (Hd' & Hg). split; [exact Hd'|]. cbn [s_processes]. intros j q dir H.
      destruct (Nat.eq_dec i j) as [->|N]; [rewrite nth_set_same in H by (apply nth_error_Some; congruence); injection H as <-; exact (Hg dir)|]. rewrite nth_set_other in H by exact N. exact (Hp j q dir H).
    - destruct (nth_error (s_processes F T s) i) as [p|] eqn:E; [|now split].
      assert (G : stuck path w (System F T (s_disk F T s) (set_nth i (Process F T (p_arguments F T p) (Killed T)) (s_processes F T s)))).
      { split; [exact Hf|]. cbn [s_processes]. intros j q dir H. destruct (Nat.eq_dec i j) as [->|N]; [rewrite nth_set_same in H by (apply nth_error_Some; congruence); injection H as <-; intros _ _; exact I|]. rewrite nth_set_other in H by exact N. exact (Hp j q dir H). }
      destruct (p_progress F T p); try exact G; now split.
    - split; [|exact Hp]. cbn [s_disk Model_TabCache.files]. rewrite find_removed_other; [exact Hf|]. intros E. apply Ne. now rewrite E.
    - split; [|exact Hp]. exact Hf.
  Qed.
  Lemma history_stuck path w l : forall s, ~ In (Remove F path) l -> stuck path w s -> stuck path w (history s l).
  Proof. induction l as [|e l IH]; intros s H Hs; [exact Hs|]. cbn. apply IH; [intros X; apply H; now right|]. apply happen_stuck; [|exact Hs]. intros ->. apply H. now left. Qed.
  (** The first steps of a construction. *)
  Lemma three_steps ps d a dir : correct_call F (directories d) a -> a_directory F a = Some dir -> find_file (path_of a dir) (files d) = None ->
    history (System F T d ps) [Call F a; Step F (length ps) false; Step F (length ps) false; Step F (length ps) false]
    = System F T (Disk T (directories d) (write_file (path_of a dir) (Unfinished [length ps]) (files d))) (ps ++ [Process F T a (Opened T (table_of a))]).
  Proof.
    intros ((K1 & K2) & Hdir) Ed E. unfold Model_TabCache.history. cbn [fold_left]. rewrite call_last.
    rewrite step_last. unfold Model_TabCache.advance at 1. cbn [p_arguments p_progress]. cbv zeta. rewrite K1, K2. cbn [negb]. rewrite Ed. unfold Spec_TabCache.path_of in E. rewrite E.
    rewrite step_last. unfold Model_TabCache.advance at 1. cbn [p_progress p_arguments].
    rewrite step_last. unfold Model_TabCache.advance at 1. cbn [p_progress p_arguments]. cbv zeta. rewrite Ed, (text_in_In dir (directories d)), E by (apply Hdir; exact Ed). reflexivity.
  Qed.
End Shared.
