(** C67: the tabulations kept on disk. *)
From Coq Require Import String Ascii.
From Coq Require Import List Bool Arith ZArith Lia.
From Verif Require Import Model_Base Model_Text Proofs_Text Model_TabCache Spec_TabCache Proofs_TabCache Proofs_TabCache2.
Import ListNotations.
Open Scope nat_scope.

(** Every Green function whose construction succeeds has the table of its own parameters, for all the interleavings of the constructions
    of any number of processes, with processes killed at any time and files removed, starting from any right disk. *)
Theorem cached_tables_are_right :
  forall F (show : F -> text) T make, readable_numbers show ->
  forall d, right_disk F show T make d -> forall l i a t,
  nth_error (s_processes F T (history F show T make (System F T d []) l)) i = Some (Process F T a (Done T t)) ->
  t = make (a_precision F a) (a_shape F a) (a_nr F a) (a_rmax F a) (a_nz F a) (a_zmin F a) (a_points F a).
Proof.
  intros F show T make R d Hd l i a t H. apply (history_right F show T make R l (System F T d [])) in H; [exact (proj2 H)|]. split; [exact Hd|]. intros [|j] p X; discriminate X.
Qed.
Print Assumptions cached_tables_are_right.

(** When a single process runs at a time and is not interrupted, every construction succeeds. *)
Theorem constructions_succeed :
  forall F (show : F -> text) T make, readable_numbers show ->
  forall d l, right_disk F show T make d -> no_unfinished T d -> (forall a, In a (constructions F l) -> correct_call F (directories T d) a) ->
  s_processes F T (history F show T make (System F T d []) (one_at_a_time F 0 l))
  = map (fun a => Process F T a (Done T (make (a_precision F a) (a_shape F a) (a_nr F a) (a_rmax F a) (a_nz F a) (a_zmin F a) (a_points F a)))) (constructions F l).
Proof.
  intros F show T make R d l Hd Hu Hc.
  destruct (sequential_done F show T make (directories T d) l [] d Hc (fun x H => H) Hu) as (d' & qs & E & M & Q & _). cbn [length] in E.
  assert (G : right_system F show T make (history F show T make (System F T d []) (one_at_a_time F 0 l))) by (apply history_right; [exact R|]; split; [exact Hd|]; intros [|j] p X; discriminate X).
  rewrite E in *. cbn [s_processes app] in *. rewrite <- M. clear M E Hc. destruct G as (_ & G). cbn [s_processes] in G.
  induction Q as [|[a g] qs (t & Ht) Q IH]; [reflexivity|]. cbn [map p_arguments p_progress] in *. subst g. rewrite <- IH.
  - pose proof (G 0%nat _ eq_refl) as X. cbn in X. destruct X as (_ & ->). reflexivity.
  - intros i p Hi. exact (G (S i) p Hi).
Qed.
Print Assumptions constructions_succeed.

(** Once a table has been saved it is not computed again: the next construction with the same parameters and the same directory is done
    after its first access to the disk. *)
Theorem saved_table_is_read :
  forall F (show : F -> text) T make d a b dir l1 l2,
  no_unfinished T d -> (forall c, In c (constructions F (l1 ++ Construct F a :: l2)) -> correct_call F (directories T d) c) ->
  a_directory F a = Some dir -> ~ In (Delete F (path_of F show a dir)) l2 -> same_parameters F a b -> a_directory F b = Some dir ->
  let s := history F show T make (System F T d []) (one_at_a_time F 0 (l1 ++ Construct F a :: l2)) in
  let n := length (s_processes F T s) in
  exists t, nth_error (s_processes F T (history F show T make s [Call F b; Step F n false])) n = Some (Process F T b (Done T t)).
Proof.
  intros F show T make d a b dir l1 l2 Hu Hc Ed Hn Sp Eb s n.
  assert (A1 : forall n l m, one_at_a_time F n (l ++ m) = one_at_a_time F n l ++ one_at_a_time F (n + length (constructions F l)) m).
  { clear. intros n l. revert n. induction l as [|[a|p|d] l IH]; intros n m; [cbn; now rewrite Nat.add_0_r| | |]; cbn [app one_at_a_time constructions]; rewrite IH; cbn [length app]; rewrite ?Nat.add_succ_r; reflexivity. }
  assert (A2 : constructions F (l1 ++ Construct F a :: l2) = constructions F l1 ++ a :: constructions F l2). { clear. induction l1 as [|[x|p|d] l IH]; cbn; congruence. }
  rewrite A2 in Hc.
  destruct (sequential_done F show T make (directories T d) l1 [] d) as (d1 & q1 & E1 & M1 & _ & U1 & D1 & _); [intros c H; apply Hc, in_or_app; now left|auto|exact Hu|].
  destruct (construction F show T make q1 d1 a (directories T d)) as (d2 & t & E2 & U2 & D2 & _ & Fa); [apply Hc, in_or_app; right; now left|exact D1|exact U1|].
  destruct (Fa dir Ed) as (u & Fu).
  destruct (sequential_done F show T make (directories T d) l2 (q1 ++ [Process F T a (Done T t)]) d2) as (d3 & q3 & E3 & _ & _ & _ & _ & K3); [intros c H; apply Hc, in_or_app; right; now right|intros x Hx; rewrite D2; auto|exact U2|].
  pose proof (K3 _ _ Hn Fu) as F3. cbn [length app] in E1.
  assert (Es : s = System F T d3 ((q1 ++ [Process F T a (Done T t)]) ++ q3)).
  { unfold s. rewrite A1, (one_app F), !history_app. rewrite E1. replace (0 + length (constructions F l1))%nat with (length q1) by (rewrite <- M1, map_length; reflexivity). rewrite E2.
    replace (S (length q1)) with (length (q1 ++ [Process F T a (Done T t)])) by (rewrite app_length; cbn; lia). exact E3. }
  unfold n. rewrite Es. cbn [s_processes]. unfold history. cbn [fold_left]. rewrite call_last, step_last.
  assert (Kb : known_names F b). { assert (Ka : known_names F a) by (apply Hc, in_or_app; right; now left). destruct Sp as (S1 & S2 & _). unfold known_names in *. now rewrite <- S1, <- S2. }
  assert (Pb : path_of F show b dir = path_of F show a dir). { destruct Sp as (S1 & S2 & S3 & S4 & S5 & S6 & S7). unfold path_of, file_name. now rewrite S1, S2, S3, S4, S5, S6, S7. }
  destruct Kb as (K1 & K2). unfold advance. cbn [p_progress p_arguments]. cbv zeta. rewrite K1, K2, Eb. cbn [negb]. unfold path_of in Pb, F3. rewrite Pb, F3. cbn [s_processes]. exists u. apply nth_last.
Qed.
Print Assumptions saved_table_is_read.

(** The default directories of two versions are different. *)
Theorem versions_do_not_share :
  forall v w env xdg home, ~ In slash v -> ~ In slash w -> cache_directory v env xdg home = cache_directory w env xdg home -> v = w.
Proof.
  intros v w env xdg home Hv Hw H. unfold cache_directory in H. destruct env as [e|].
  - rewrite <- (basename_join e v Hv), <- (basename_join e w Hw). now rewrite H.
  - cbv zeta in H. match goal with H : join_path ?x v = _ |- _ => rewrite <- (basename_join x v Hv), <- (basename_join x w Hw); now rewrite H end.
Qed.
Print Assumptions versions_do_not_share.

(** C67 is false when a process is killed while it writes the file: whatever happens later, if nobody removes the file, no construction
    with the same file succeeds any more. *)
Theorem killed_while_saving_refuted :
  forall F (show : F -> text) T make d a dir, correct_call F (directories T d) a -> a_directory F a = Some dir -> find_file T (path_of F show a dir) (files T d) = None ->
  forall l, ~ In (Remove F (path_of F show a dir)) l ->
  forall i b t dir', a_directory F b = Some dir' -> path_of F show b dir' = path_of F show a dir ->
  nth_error (s_processes F T (history F show T make (System F T d []) ([Call F a; Step F 0 false; Step F 0 false; Step F 0 false; Kill F 0] ++ l))) i <> Some (Process F T b (Done T t)).
Proof.
  intros F show T make d a dir Hc Ed E l Hl i b t dir' Eb Pb H.
  change ([Call F a; Step F 0 false; Step F 0 false; Step F 0 false; Kill F 0] ++ l) with ([Call F a; Step F 0 false; Step F 0 false; Step F 0 false] ++ (Kill F 0 :: l)) in H.
  rewrite history_app in H. pose proof (three_steps F show T make [] d a dir Hc Ed E) as Three. cbn [length app] in Three. rewrite Three in H. clear Three.
  unfold history in H. cbn [fold_left] in H. cbn [happen s_processes nth_error p_progress set_nth p_arguments s_disk] in H.
  pose proof (history_stuck F show T make (path_of F show a dir) [0%nat] l (System F T (Disk T (directories T d) (write_file T (path_of F show a dir) (Unfinished T [0%nat]) (files T d))) [Process F T a (Killed T)]) Hl) as X.
  destruct X as (_ & X).
  - split; [cbn [s_disk files]; apply find_written_same|]. intros [|[|j]] p dd Hp _ _; try discriminate. injection Hp as <-. exact I.
  - specialize (X i _ dir' H Eb Pb). exact X.
Qed.
Print Assumptions killed_while_saving_refuted.

(** C67 is false for two processes started together: the second fails when it reads the file that the first one is writing. *)
Theorem simultaneous_constructions_refuted :
  forall F (show : F -> text) T make d a dir, correct_call F (directories T d) a -> a_directory F a = Some dir -> find_file T (path_of F show a dir) (files T d) = None ->
  s_processes F T (history F show T make (System F T d []) [Call F a; Step F 0 false; Step F 0 false; Step F 0 false; Call F a; Step F 1 false; Step F 0 false])
  = [Process F T a (Done T (make (a_precision F a) (a_shape F a) (a_nr F a) (a_rmax F a) (a_nz F a) (a_zmin F a) (a_points F a))); Process F T a (Raised T OtherException)].
Proof.
  intros F show T make d a dir Hc Ed E.
  change [Call F a; Step F 0 false; Step F 0 false; Step F 0 false; Call F a; Step F 1 false; Step F 0 false] with ([Call F a; Step F 0 false; Step F 0 false; Step F 0 false] ++ [Call F a; Step F 1 false; Step F 0 false]).
  pose proof (three_steps F show T make [] d a dir Hc Ed E) as Three. cbn [length app] in Three. rewrite history_app, Three. clear Three. unfold history. cbn [fold_left]. rewrite call_last. cbn [app].
  destruct Hc as ((K1 & K2) & _).
  set (w := Disk T (directories T d) (write_file T (path_of F show a dir) (Unfinished T [0%nat]) (files T d))).
  assert (Fw : find_file T (join_path dir (file_name F show a)) (files T w) = Some (Unfinished T [0%nat])) by (apply find_written_same).
  assert (S1 : advance F show T make 1 false w (Process F T a (Called T)) = (w, Raised T OtherException)).
  { unfold advance. cbn [p_progress p_arguments]. cbv zeta. rewrite K1, K2, Ed. cbn [negb]. now rewrite Fw. }
  cbn [happen s_processes nth_error s_disk]. rewrite S1. cbn [set_nth s_processes nth_error s_disk p_arguments].
  assert (S2 : exists w', advance F show T make 0 false w (Process F T a (Opened T (table_of F T make a))) = (w', Done T (table_of F T make a))).
  { unfold advance. cbn [p_progress p_arguments]. cbv zeta. rewrite Ed, Fw. eauto. }
  destruct S2 as (w' & ->). reflexivity.
Qed.
Print Assumptions simultaneous_constructions_refuted.

(** The default parameters, with integers in the place of the floating point numbers, on an empty disk. *)
Definition ex_arguments : arguments nat := Arguments nat (lit "float64") (lit "scaled_nemoh3") 676 100 372 251 1001 (Some (lit "/cache")).
Example cache_ex : readable_numbers (fun n => dec (Z.of_nat n))
  /\ (forall T make, right_disk nat (fun n => dec (Z.of_nat n)) T make (Disk T [lit "/cache"] [])) /\ (forall T, no_unfinished T (Disk T [lit "/cache"] []))
  /\ correct_call nat [lit "/cache"] ex_arguments /\ path_of nat (fun n => dec (Z.of_nat n)) ex_arguments (lit "/cache") = lit "/cache/tabulation_float64_scaled_nemoh3_676_100_372_251_1001.npz".
Proof.
  split; [|split; [|split; [|split]]].
  - split; [intros x y; apply dec_inj|]. intros x c H. pose proof (dec_free (Z.of_nat x)) as (A & B). split; intros ->; contradiction.
  - intros T make a dir t _ H. discriminate H.
  - intros T p w H. discriminate H.
  - split; [split; reflexivity|]. intros dir H. injection H as <-. now left.
  - vm_compute. reflexivity.
Qed.
