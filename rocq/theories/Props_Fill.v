(** C68: the dataset filled from a test matrix. *)
From Coq Require Import Reals.
From Coquelicot Require Import Complex.
From Coq Require Import String Ascii List Bool ZArith Lra Lia Permutation.
From Verif Require Import Model_Base Model_Mesh Model_Symbolic Model_Problem Spec_Problem Model_Results Model_Solver Spec_Solver Proofs_Problem Proofs_Problem3
  Proofs_Solver Proofs_Solver2 Props_Solver Model_TestMatrix Spec_TestMatrix Proofs_TestMatrix Props_TestMatrix Model_Dataset Spec_Dataset
  Model_Fill Spec_Fill Proofs_Fill Proofs_Fill2 Proofs_Fill3 Proofs_Fill4 Proofs_Fill5.
Import ListNotations.
Open Scope R_scope.

Section Statements.
  Variable newton : ext -> ext -> result ext.
  Variable immersed_part : body -> ext -> ext -> result body.
  Variable st : Type.
  Variable build : st -> bkey -> st * result (matrix * matrix).
  Variable linsolve : st -> matrix -> list C -> st * result (list C).
  Variable gradient_x : body -> ext -> ext -> freq -> list C -> result (list C).
  Variable min_wavelength : body -> result ext.
  Variable irregular : body -> R -> result ext.
  Variable arrange : column -> list value -> list value.
  Notation fill := (fill_dataset newton immersed_part st build linsolve gradient_x min_wavelength irregular arrange).
  (** The forces of a problem solved alone, by a solver in the initial state. *)
  Definition solved (direct : bool) (s : st) (p : pb) : list (string * force) :=
    r_forces (result_or_failure p (snd (solve st build linsolve gradient_x min_wavelength irregular direct false false s p))).
  (** The name of a clipped body is unchanged; the labels are only reordered; the cache of the engine is transparent for the bodies
      of the problems; several jobs: no undefined number. *)
  Definition setting (s : st) (m : test_matrix) (bodies : list body) (n_jobs : Z) : Prop :=
    keeps_names immersed_part /\ (forall c l, Permutation l (arrange c l))
    /\ (exists used, transparent st build linsolve s used
        /\ forall q p b, wanted m bodies q -> built_as newton immersed_part q p -> p_body (pb_data p) = Some b -> used b)
    /\ (n_jobs <> 1%Z -> forall q p, wanted m bodies q -> built_as newton immersed_part q p ->
          p_depth (pb_data p) <> NaN /\ ffloat (f_omega (p_freqs (pb_data p))) <> NaN).

  (** Every combination of the values of the test matrix is found in the dataset, under its own labels, with the coefficients
      computed from the forces of this problem: nothing is lost, overwritten or exchanged, whatever the number of jobs, the method
      or the order of resolution. A failed resolution gives nan. *)
  Theorem fill_dataset_radiation : forall direct check joblib env n_jobs kwargs s m thetas bodies s' f q dof p b i,
    setting s m bodies n_jobs ->
    fill direct check joblib env n_jobs kwargs s m thetas bodies = (s', Ok f) ->
    wanted m bodies q -> q_dof q = Some dof -> built_as newton immersed_part q p -> p_body (pb_data p) = Some b -> In i (map fst (b_dofs b)) ->
    exists force mass damping, assoc i (solved direct s p) = Some force /\ coefficients (pb_data p) force mass damping
      /\ sel (a_data _ (fd_data f)) AddedMass (label q i) = Ok (Real mass)
      /\ sel (a_data _ (fd_data f)) RadiationDamping (label q i) = Ok (Real damping).
  Proof.
    intros direct check joblib env n_jobs kwargs s m thetas bodies s' f q dof p b i (N1 & N2 & (used & N3 & N4) & N5) H W D B Eb Hi.
    destruct (fill_sel newton immersed_part N1 st build linsolve gradient_x min_wavelength irregular arrange N2 s used N3 m bodies N4
      direct check joblib env n_jobs kwargs thetas N5 s' f q p b i H W B Eb Hi) as (x & Ex & S1 & _).
    assert (RP : r_problem (alone st build linsolve gradient_x min_wavelength irregular s direct (keep thetas) p) = p) by apply alone_problem.
    destruct (read_radiation _ _ i Ex) as (fo & mass & damping & F1 & F2 & F3 & F4).
    - rewrite RP. unfold built_as in B. rewrite D in B. destruct B as (d & _ & ->). reflexivity.
    - rewrite RP. eauto.
    - exists fo, mass, damping. rewrite RP in F2. split; [|split; [assumption|]].
      + rewrite <- F1. unfold solved, alone. f_equal. apply alone_keep.
      + assert (K : class_of q = Radiation) by (unfold class_of; now rewrite D). rewrite K in S1.
        rewrite <- F3, <- F4. split; apply S1; cbn; auto.
  Qed.
  Theorem fill_dataset_diffraction : forall direct check joblib env n_jobs kwargs s m thetas bodies s' f q p b i,
    setting s m bodies n_jobs ->
    fill direct check joblib env n_jobs kwargs s m thetas bodies = (s', Ok f) ->
    wanted m bodies q -> q_dof q = None -> built_as newton immersed_part q p -> p_body (pb_data p) = Some b -> In i (map fst (b_dofs b)) ->
    exists force incident, assoc i (solved direct s p) = Some force /\ incident_force (pb_data p) i incident
      /\ sel (a_data _ (fd_data f)) DiffractionForce (label q i) = Ok (force_entry force)
      /\ sel (a_data _ (fd_data f)) FroudeKrylovForce (label q i) = Ok (Complex (CFl incident))
      /\ (forall c, force = Force (CFl c) -> sel (a_data _ (fd_data f)) ExcitationForce (label q i) = Ok (Complex (CFl (Cplus incident c))))
      /\ (force = ForceNaN -> sel (a_data _ (fd_data f)) ExcitationForce (label q i) = Ok NotANumber).
  Proof.
    intros direct check joblib env n_jobs kwargs s m thetas bodies s' f q p b i (N1 & N2 & (used & N3 & N4) & N5) H W D B Eb Hi.
    destruct (fill_sel newton immersed_part N1 st build linsolve gradient_x min_wavelength irregular arrange N2 s used N3 m bodies N4
      direct check joblib env n_jobs kwargs thetas N5 s' f q p b i H W B Eb Hi) as (x & Ex & S1 & S2).
    assert (RP : r_problem (alone st build linsolve gradient_x min_wavelength irregular s direct (keep thetas) p) = p) by apply alone_problem.
    destruct (read_diffraction _ _ i Ex) as (fo & fk & F1 & F2 & F3 & F4).
    - rewrite RP. unfold built_as in B. rewrite D in B. destruct B as (d & _ & ->). reflexivity.
    - rewrite RP. eauto.
    - exists fo, fk. rewrite RP in F2. split; [|split; [assumption|]].
      + rewrite <- F1. unfold solved, alone. f_equal. apply alone_keep.
      + assert (K : class_of q = Diffraction) by (unfold class_of; now rewrite D). rewrite K in S1. specialize (S2 K). rewrite F3, F4 in S2.
        rewrite <- F3, <- F4. split; [apply S1; cbn; auto|]. split; [apply S1; cbn; auto|].
        split; [intros c ->|intros ->]; exact S2.
  Qed.

  (** The call succeeds when every described problem can be built, also when some resolutions fail. *)
  Theorem fill_dataset_succeeds : forall direct check joblib env n_jobs kwargs s m bodies bar ps,
    setting s m bodies n_jobs -> (n_jobs <> 1%Z -> joblib = true) ->
    exact_root_finder newton ->
    (forall q, wanted m bodies q -> 0 < q_g q /\ pos_depth (q_depth q) /\ (q_freq q = PInf \/ exists x, q_freq q = Fin x /\ 0 <= x)) ->
    problems_from_dataset newton immersed_part m bodies = Ok ps -> (exists q, wanted m bodies q) ->
    progress None env = Ok bar ->
    (check = true -> forall b g, (exists x, min_wavelength b = Ok x) /\ (exists x, irregular b g = Ok x)) ->
    (forall k, In k kwargs -> In k ["omega"; "wavenumber"; "wavelength"; "period"; "mesh"; "hydrostatics"]%string) ->
    exists s' f, fill direct check joblib env n_jobs kwargs s m None bodies = (s', Ok f).
  Proof.
    intros direct check joblib env n_jobs kwargs s m bodies bar ps (N1 & N2 & (used & N3 & N4) & N5) Jb Rf Pos Ep Some Bar Ck Kw.
    apply (fill_total newton immersed_part N1 st build linsolve gradient_x min_wavelength irregular arrange N2 s used N3 m bodies N4
      direct check joblib env n_jobs kwargs None (fun n => conj (Jb n) (N5 n)) ps Ep Some) with (b0 := bar); auto.
    - intros q p W B. destruct (Pos q W) as (P1 & P2 & P3). exact (built_moves newton immersed_part Rf q p N1 P1 P2 P3 B).
    - intros E b g _. now apply Ck.
    - apply forallb_forall. intros k Hk. apply existsb_exists. exists k. split; [now apply Kw|apply String.eqb_refl].
    - discriminate.
  Qed.

  (** REFUTED: [progress_bar] is documented as an option. It is passed on to [assemble_dataset], which refuses it once everything
      has been computed. *)
  Theorem fill_dataset_progress_bar_refuted : forall direct check joblib env n_jobs kwargs s m thetas bodies s' f,
    In "progress_bar"%string kwargs -> fill direct check joblib env n_jobs kwargs s m thetas bodies <> (s', Ok f).
  Proof.
    intros direct check joblib env n_jobs kwargs s m thetas bodies s' f Hk H. unfold fill_dataset in H.
    assert (K : forallb (fun n => existsb (String.eqb n) assemble_keywords) kwargs = false).
    { destruct (forallb _ kwargs) eqn:E; [|reflexivity]. rewrite forallb_forall in E. specialize (E _ Hk). discriminate. }
    rewrite K in H. destruct (problems_from_dataset newton immersed_part m bodies); [|discriminate].
    destruct (solve_all _ _ _ _ _ _ _ _ _ _ _ _ _ _ _) as [s1 [rs|]]; cbn [bind] in H; [|discriminate].
    destruct thetas as [th|]; [|discriminate]. destruct (kochin_records rs th); discriminate.
  Qed.
End Statements.
Print Assumptions fill_dataset_radiation.
Print Assumptions fill_dataset_diffraction.
Print Assumptions fill_dataset_succeeds.
Print Assumptions fill_dataset_progress_bar_refuted.

(** ** A test matrix with two frequencies, one of them zero, two directions and one dof. *)
Lemma ex_wanted q : wanted ex_matrix ex_bodies q -> q_g q = 10 /\ q_depth q = PInf /\ (q_freq q = Fin 0 \/ q_freq q = Fin 1).
Proof.
  intros ((l & [E|[]] & HF) & HD & HR & HG & HU & HB & HN & HK). injection E as _ <-. cbn in HD, HG. destruct HG as [<-|[]].
  split; [reflexivity|]. split; [assumption|]. cbn in HF. destruct HF as [<-|[<-|[]]]; auto.
Qed.
Lemma ex_setting newton immersed (build : unit -> bkey -> unit * result (matrix * matrix)) linsolve : keeps_names immersed -> transparent unit build linsolve tt (fun _ => True) ->
  setting newton immersed unit build linsolve (fun _ l => l) tt ex_matrix ex_bodies 1.
Proof.
  intros N T. split; [assumption|]. split; [reflexivity|]. split; [exists (fun _ => True); auto|]. intros E. contradiction.
Qed.
Lemma ex_fills newton immersed (build : unit -> bkey -> unit * result (matrix * matrix)) linsolve gx mw ir :
  keeps_names immersed -> exact_root_finder newton -> transparent unit build linsolve tt (fun _ => True) ->
  exists s' f, fill_dataset newton immersed unit build linsolve gx mw ir (fun _ l => l) false false false None 1 [] tt ex_matrix None ex_bodies = (s', Ok f).
Proof.
  intros N X T. destruct (ex_accepted newton immersed) as [ps Ep].
  apply (fill_dataset_succeeds newton immersed unit build linsolve gx mw ir) with (bar := true) (ps := ps); auto.
  - now apply ex_setting.
  - intros q W. destruct (ex_wanted q W) as (-> & -> & F). split; [lra|]. split; [now left|]. right. destruct F as [->| ->]; eexists; (split; [reflexivity|lra]).
  - exists ex_q1. apply (test_matrix_not_vacuous newton immersed).
  - discriminate.
  - easy.
Qed.
(** The hypotheses of the previous theorems are met. *)
Example fill_dataset_not_vacuous : forall newton immersed gx mw ir, keeps_names immersed -> exact_root_finder newton -> exists f p force incident,
  fill_dataset newton immersed unit toy_build toy_solve gx mw ir (fun _ l => l) false false false None 1 [] tt ex_matrix None ex_bodies = (tt, Ok f)
  /\ built_as newton immersed ex_q1 p /\ assoc "Surge" (solved unit toy_build toy_solve gx mw ir false tt p) = Some force
  /\ sel (a_data _ (fd_data f)) DiffractionForce (label ex_q1 "Surge") = Ok (force_entry force)
  /\ sel (a_data _ (fd_data f)) FroudeKrylovForce (label ex_q1 "Surge") = Ok (Complex (CFl incident)).
Proof.
  intros newton immersed gx mw ir N X. destruct (ex_fills newton immersed toy_build toy_solve gx mw ir N X (toy_transparent _)) as ([] & f & Ef).
  assert (W : wanted ex_matrix ex_bodies ex_q1) by apply (test_matrix_not_vacuous newton immersed).
  assert (B : exists p, built_as newton immersed ex_q1 p /\ p_body (pb_data p) = Some (one_panel 1 "buoy" (-1) None)).
  { assert (E : exists d, diffraction_problem newton immersed (call ex_q1) = Ok d /\ p_body d = Some (one_panel 1 "buoy" (-1) None)).
    { assert (C1 : generic_problem newton immersed (call ex_q1) None = generic_problem newton immersed (deep_args (one_panel 1 "buoy" (-1) None) 1 PI) None) by reflexivity.
      unfold diffraction_problem. rewrite C1, deep_generic by lra. cbn [bind p_freqs f_omega ffloat].
      unfold is_limit. cbn [ext_eqb]. rewrite (Reqb_false 1 0) by lra. cbn [orb p_body]. eexists. split; reflexivity. }
    destruct E as (d & E & Eb). exists (Pb Diffraction d None). split; [|exact Eb]. exists d. auto. }
  destruct B as (p & B & Eb).
  destruct (fill_dataset_diffraction newton immersed unit toy_build toy_solve gx mw ir (fun _ l => l) false false false None 1%Z [] tt ex_matrix None ex_bodies tt f ex_q1 p _ "Surge"
    (ex_setting newton immersed toy_build toy_solve N (toy_transparent _)) Ef W eq_refl B Eb (or_introl eq_refl)) as (force & incident & F1 & _ & F2 & F3 & _).
  exists f, p, force, incident. auto.
Qed.
(** REFUTED: the coefficients of a failed resolution are not all undefined. The damping at the frequency zero is recorded as zero,
    like that of a successful resolution. *)
Definition no_engine (s : unit) (k : bkey) : unit * result (matrix * matrix) := (s, Err RuntimeError).
Theorem fill_dataset_failure_refuted : forall newton immersed gx mw ir, keeps_names immersed -> exact_root_finder newton -> exists f p,
  fill_dataset newton immersed unit no_engine toy_solve gx mw ir (fun _ l => l) false false false None 1 [] tt ex_matrix None ex_bodies = (tt, Ok f)
  /\ built_as newton immersed ex_q2 p
  /\ solve unit no_engine toy_solve gx mw ir false false false tt p = (tt, Err RuntimeError)
  /\ sel (a_data _ (fd_data f)) AddedMass (label ex_q2 "Surge") = Ok (Real NaN)
  /\ sel (a_data _ (fd_data f)) RadiationDamping (label ex_q2 "Surge") = Ok (Real (Fin 0)).
Proof.
  intros newton immersed gx mw ir N X.
  assert (T : transparent unit no_engine toy_solve tt (fun _ => True)) by (exists (fun _ => True); repeat split; destruct s; reflexivity).
  destruct (ex_fills newton immersed no_engine toy_solve gx mw ir N X T) as ([] & f & Ef).
  assert (W : wanted ex_matrix ex_bodies ex_q2) by apply (test_matrix_not_vacuous newton immersed).
  assert (B : exists p, built_as newton immersed ex_q2 p /\ p_body (pb_data p) = Some (one_panel 1 "buoy" (-1) None)
    /\ f_omega (p_enc (pb_data p)) = FZero /\ p_speed (pb_data p) = 0).
  { assert (E : exists d, radiation_problem newton immersed (call ex_q2) (Some "Surge"%string) = Ok d /\ p_body (fst d) = Some (one_panel 1 "buoy" (-1) None)
      /\ f_omega (p_enc (fst d)) = FZero /\ p_speed (fst d) = 0).
    { assert (C0 : generic_problem newton immersed (call ex_q2) None = generic_problem newton immersed (limit_args (one_panel 1 "buoy" (-1) None)) None) by reflexivity.
      unfold radiation_problem. rewrite C0. destruct (limit_generic newton immersed 1 "buoy" None) as (p & -> & E1 & E2 & E3).
      cbn [bind]. rewrite E1, E2, E3, Reqb_refl. cbn. eexists. split; [reflexivity|]. cbn. rewrite ?E1, ?E2, ?E3. auto. }
    destruct E as (d & E & Eb). exists (Pb Radiation (fst d) (snd d)). split; [|exact Eb]. exists d. auto. }
  destruct B as (p & B & Eb & Eo & Es). exists f, p. split; [assumption|]. split; [assumption|].
  assert (Fails : solve unit no_engine toy_solve gx mw ir false false false tt p = (tt, Err RuntimeError)).
  { unfold solve. cbv zeta. rewrite Eb. reflexivity. }
  split; [assumption|].
  destruct (fill_dataset_radiation newton immersed unit no_engine toy_solve gx mw ir (fun _ l => l) false false false None 1%Z [] tt ex_matrix None ex_bodies tt f ex_q2 "Surge" p _ "Surge"
    (ex_setting newton immersed no_engine toy_solve N T) Ef W eq_refl B Eb (or_introl eq_refl)) as (force & mass & damping & F1 & F2 & F3 & F4).
  unfold solved in F1. rewrite Fails in F1. cbn [snd result_or_failure r_forces] in F1. unfold influenced in F1. rewrite Eb in F1. cbn in F1. injection F1 as <-.
  cbn [coefficients] in F2. rewrite Eo, Es, Reqb_refl in F2. unfold is_limit in F2. cbn [ffloat ext_eqb] in F2. rewrite Reqb_refl in F2. destruct F2 as [-> ->]. auto.
Qed.
Print Assumptions fill_dataset_failure_refuted.
