(** C37: the problems created from a test matrix. *)
From Coq Require Import Reals String List Bool Arith Permutation Lra Lia.
From Verif Require Import Model_Base Model_Problem Model_Solver Spec_Problem Proofs_Problem Proofs_Problem3
  Model_TestMatrix Spec_TestMatrix Proofs_TestMatrix.
Import ListNotations.
Open Scope R_scope.

(** An accepted test matrix gives, up to their order, one problem for each described combination of parameters, and no other
    problem. Each combination is met once, provided that no value is repeated in the test matrix. *)
Theorem test_matrix_problems : forall newton immersed_part m bodies ps,
  problems_from_dataset newton immersed_part m bodies = Ok ps ->
  exists requests created, Forall2 (built_as newton immersed_part) requests created /\ Permutation created ps
    /\ (forall q, In q requests <-> wanted m bodies q) /\ (distinct_values m -> NoDup requests).
Proof. exact problems_requests. Qed.
Print Assumptions test_matrix_problems.

(** A test matrix is accepted as soon as each described problem can be built; the frequencies zero and infinity are only
    accepted with radiating dofs. *)
Theorem test_matrix_accepted : forall newton immersed_part m bodies,
  NoDup (map b_name bodies) -> (tm_dofs m <> None \/ tm_dirs m <> None) -> (List.length (tm_freqs m) <= 1)%nat ->
  (forall l n, tm_names m = Some l -> In n l -> exists b, In b bodies /\ b_name b = n) ->
  (forall q, wanted m bodies q -> exists p, built_as newton immersed_part q p) ->
  (tm_dofs m = None -> forall t l, In (t, l) (tm_freqs m) -> ~ In (Fin 0) l /\ ~ In PInf l) ->
  exists ps, problems_from_dataset newton immersed_part m bodies = Ok ps.
Proof. exact problems_total. Qed.
Print Assumptions test_matrix_accepted.

(** The refused test matrices: equal names of bodies, no kind of problem, two kinds of frequencies, an unknown body. *)
Theorem test_matrix_refused : forall newton immersed_part m bodies,
  (~ NoDup (map b_name bodies) -> problems_from_dataset newton immersed_part m bodies = Err AssertionError)
  /\ (NoDup (map b_name bodies) ->
      (tm_dofs m = None -> tm_dirs m = None -> problems_from_dataset newton immersed_part m bodies = Err ValueError)
      /\ ((2 <= List.length (tm_freqs m))%nat -> problems_from_dataset newton immersed_part m bodies = Err ValueError)
      /\ ((tm_dofs m <> None \/ tm_dirs m <> None) -> (List.length (tm_freqs m) <= 1)%nat ->
          forall l n, tm_names m = Some l -> In n l -> (forall b, In b bodies -> b_name b <> n) ->
          problems_from_dataset newton immersed_part m bodies = Err AssertionError)).
Proof. exact problems_errors. Qed.
Print Assumptions test_matrix_refused.

(** Two frequencies, one of them zero, two directions and one dof: two diffraction problems and two radiation problems. *)
Definition ex_matrix : test_matrix :=
  {| tm_freqs := [(Omega, [Fin 0; Fin 1])]; tm_depth := None; tm_rho := None; tm_g := Some [10]; tm_speed := None;
     tm_dirs := Some [0; PI]; tm_dofs := Some ["Surge"%string]; tm_names := Some ["buoy"%string] |}.
Definition ex_bodies : list body := [one_panel 0 "other" (-1) None; one_panel 1 "buoy" (-1) None].

Lemma ex_accepted newton immersed : exists ps, problems_from_dataset newton immersed ex_matrix ex_bodies = Ok ps.
Proof.
  apply test_matrix_accepted.
  - cbn. repeat constructor; cbn; intuition discriminate.
  - left. discriminate.
  - cbn. lia.
  - intros l n [= <-] [<-|[]]. exists (one_panel 1 "buoy" (-1) None). cbn. auto.
  - intros [o t f dir h b u rho g]. unfold wanted. cbn [q_dof q_type q_freq q_dir q_depth q_body q_speed q_rho q_g].
    intros ((l & [E|[]] & HF) & HD & HR & HG & HU & HB & HN & HK). injection E as <- <-. cbn in HD, HR, HG, HU, HB. subst h rho u.
    destruct HG as [<-|[]].
    assert (b = one_panel 1 "buoy" (-1) None) as ->.
    { destruct HB as [<-|[<-|[]]]; [|reflexivity]. destruct (HN _ eq_refl) as [H|[]]. discriminate H. }
    clear HB HN. unfold built_as. cbn [q_dof].
    assert (C1 : forall o dir bc, generic_problem newton immersed (call (Request o Omega (Fin 1) dir PInf (one_panel 1 "buoy" (-1) None) 0 1000 10)) bc
      = generic_problem newton immersed (deep_args (one_panel 1 "buoy" (-1) None) 1 dir) bc) by reflexivity.
    destruct o as [dof|].
    + destruct HK as [(dofs & [= <-] & [<-|[]]) HU]. destruct (Req_EM_T 0 0) as [_|]; [subst dir|tauto].
      destruct HF as [<-|[<-|[]]].
      * assert (exists d, radiation_problem newton immersed (call (Request (Some "Surge"%string) Omega (Fin 0) 0 PInf (one_panel 1 "buoy" (-1) None) 0 1000 10)) (Some "Surge"%string) = Ok d) as (d & E); [|eexists; exists d; split; [exact E|reflexivity]].
        assert (C0 : forall bc, generic_problem newton immersed (call (Request (Some "Surge"%string) Omega (Fin 0) 0 PInf (one_panel 1 "buoy" (-1) None) 0 1000 10)) bc
          = generic_problem newton immersed (limit_args (one_panel 1 "buoy" (-1) None)) bc) by reflexivity.
        unfold radiation_problem. rewrite C0. destruct (limit_generic newton immersed 1 "buoy" None) as (p & -> & E1 & E2 & E3).
        cbn [bind]. rewrite E1, E2, E3, Reqb_refl. cbn. eauto.
      * assert (exists d, radiation_problem newton immersed (call (Request (Some "Surge"%string) Omega (Fin 1) 0 PInf (one_panel 1 "buoy" (-1) None) 0 1000 10)) (Some "Surge"%string) = Ok d) as (d & E); [|eexists; exists d; split; [exact E|reflexivity]].
        unfold radiation_problem. rewrite C1, deep_generic by lra. cbn [bind p_body b_dofs one_panel assoc String.eqb Ascii.eqb Bool.eqb].
        cbn [p_speed p_enc f_omega]. rewrite Reqb_refl. cbn. eauto.
    + destruct HK as (dirs & _ & _ & N0 & _). destruct HF as [<-|[<-|[]]]; [tauto|].
      assert (exists d, diffraction_problem newton immersed (call (Request None Omega (Fin 1) dir PInf (one_panel 1 "buoy" (-1) None) 0 1000 10)) = Ok d) as (d & E); [|eexists; exists d; split; [exact E|reflexivity]].
      unfold diffraction_problem. rewrite C1, deep_generic by lra. cbn [bind p_freqs f_omega ffloat].
      unfold is_limit. cbn [ext_eqb]. rewrite (Reqb_false 1 0) by lra. cbn [orb p_body]. eexists. reflexivity.
  - intros H. discriminate H.
Qed.
Lemma ex_distinct : distinct_values ex_matrix.
Proof.
  unfold distinct_values, ex_matrix. cbn [tm_freqs tm_depth tm_rho tm_g tm_speed tm_dirs tm_dofs].
  assert (0 <> 1) by lra. pose proof PI_neq0.
  split; [intros t l [[= <- <-]|[]]; repeat constructor; cbn; intuition congruence|].
  repeat match goal with |- _ /\ _ => split end; intros l [= <-]; repeat constructor; cbn; intuition congruence.
Qed.
Definition ex_q1 := Request None Omega (Fin 1) PI PInf (one_panel 1 "buoy" (-1) None) 0 1000 10.
Definition ex_q2 := Request (Some "Surge"%string) Omega (Fin 0) 0 PInf (one_panel 1 "buoy" (-1) None) 0 1000 10.
Example test_matrix_not_vacuous : forall newton immersed,
  (exists ps, problems_from_dataset newton immersed ex_matrix ex_bodies = Ok ps) /\ distinct_values ex_matrix
  /\ wanted ex_matrix ex_bodies ex_q1 /\ wanted ex_matrix ex_bodies ex_q2.
Proof.
  intros newton immersed. split; [apply ex_accepted|]. split; [apply ex_distinct|].
  unfold wanted, ex_matrix, ex_q1, ex_q2, ex_bodies, frequency_wanted.
  cbn [q_dof q_type q_freq q_dir q_depth q_body q_speed q_rho q_g tm_freqs tm_depth tm_rho tm_g tm_speed tm_dirs tm_dofs tm_names in_range].
  split.
  - split; [exists [Fin 0; Fin 1]; cbn; auto|]. split; [reflexivity|]. split; [reflexivity|]. split; [now left|]. split; [reflexivity|].
    split; [right; now left|]. split; [intros l [= <-]; now left|]. eexists. split; [reflexivity|]. split; [right; now left|].
    split; [intros [=]; lra|discriminate].
  - split; [exists [Fin 0; Fin 1]; cbn; auto|]. split; [reflexivity|]. split; [reflexivity|]. split; [now left|]. split; [reflexivity|].
    split; [right; now left|]. split; [intros l [= <-]; now left|]. split; [eexists; split; [reflexivity|now left]|].
    destruct (Req_EM_T 0 0); [reflexivity|tauto].
Qed.
(** Two kinds of frequencies are refused. *)
Example refused_not_vacuous : forall newton immersed,
  problems_from_dataset newton immersed
    {| tm_freqs := [(Omega, [Fin 1]); (Period, [Fin 1])]; tm_depth := None; tm_rho := None; tm_g := None; tm_speed := None;
       tm_dirs := Some [0]; tm_dofs := None; tm_names := None |} ex_bodies = Err ValueError.
Proof.
  intros. apply test_matrix_refused; [|cbn; lia]. cbn. repeat constructor; cbn; intuition discriminate.
Qed.
