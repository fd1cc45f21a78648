(** C87: the bare matrices of a list of results. *)
From Coq Require Import Reals String List Bool Arith Permutation Lra Lia.
From Verif Require Import Model_Base Model_Problem Spec_Problem Model_Solver Proofs_Problem3 Model_Dataset Spec_Dataset
  Proofs_Dataset Proofs_Dataset2 Proofs_Dataset3 Proofs_Dataset4 Props_Dataset Model_Matrices Spec_Matrices Proofs_Matrices Proofs_Matrices2 Proofs_Matrices3.
Import ListNotations.
Open Scope nat_scope.

(** At one frequency, when the dof of each radiation result is a dof of a body: the added mass and the radiation damping have one
    line for each radiating dof and one column for each influenced dof, in the order of the coordinates of the dataset. *)
Theorem matrices_of_radiation : forall cell (nan : cell) cell_add arrange, proper nan cell_add arrange ->
  forall results a rad dif w, assemble_dataset cell nan cell_add arrange results = Ok a -> rows_of cell Radiation results rad -> rows_of cell Diffraction results dif -> rad <> [] ->
  same_conditions cell Radiation rad -> (forall r, In r (rad ++ dif) -> column_of _ r (frequency_of _ a) = w) ->
  (forall r, In r rad -> exists r', In r' (rad ++ dif) /\ column_of _ r' InfluencedDof = column_of _ r RadiatingDof) ->
  exists A B F, assemble_matrices cell nan cell_add arrange results = Ok (Some A, Some B, F)
    /\ table A (ticks _ a RadiatingDof) (ticks _ a InfluencedDof)
         (fun d e => coefficient _ nan rad [(frequency_of _ a, w); (RadiatingDof, d); (InfluencedDof, e)] (fun r => cell_of _ r AddedMass))
    /\ table B (ticks _ a RadiatingDof) (ticks _ a InfluencedDof)
         (fun d e => coefficient _ nan rad [(frequency_of _ a, w); (RadiatingDof, d); (InfluencedDof, e)] (fun r => cell_of _ r RadiationDamping)).
Proof. intros cell nan cell_add arrange [H1 H2]. exact (matrices_square cell nan cell_add H1 arrange H2). Qed.
Print Assumptions matrices_of_radiation.

(** These coordinates have each dof of the results once. *)
Theorem matrices_labels : forall cell (nan : cell) cell_add arrange, proper nan cell_add arrange ->
  forall results a rad dif, assemble_dataset cell nan cell_add arrange results = Ok a -> rows_of cell Radiation results rad -> rows_of cell Diffraction results dif ->
  (forall c, NoDup (ticks _ a c))
  /\ (forall d, In d (ticks _ a RadiatingDof) <-> exists r, In r rad /\ column_of _ r RadiatingDof = d)
  /\ (forall e, In e (ticks _ a InfluencedDof) <-> exists r, In r (rad ++ dif) /\ column_of _ r InfluencedDof = e)
  /\ (forall w, In w (ticks _ a (frequency_of _ a)) <-> exists r, In r (rad ++ dif) /\ column_of _ r (frequency_of _ a) = w).
Proof.
  intros cell nan cell_add arrange [H1 H2] results a rad dif HA HR HD.
  exact (conj (ticks_nodup cell nan cell_add arrange H2 results a HA) (conj (radiating_ticks cell nan cell_add H1 arrange H2 results a rad dif HA HR HD)
    (conj (influenced_ticks cell nan cell_add H1 arrange H2 results a rad dif HA HR HD) (frequency_ticks cell nan cell_add H1 arrange H2 results a rad dif HA HR HD)))).
Qed.
Print Assumptions matrices_labels.

(** With a single dof and several frequencies, the arrays have one line, and one column for each frequency: the columns are not dofs. *)
Theorem matrices_of_one_dof : forall cell (nan : cell) cell_add arrange, proper nan cell_add arrange ->
  forall results a rad dif d, assemble_dataset cell nan cell_add arrange results = Ok a -> rows_of cell Radiation results rad -> rows_of cell Diffraction results dif -> rad <> [] ->
  same_conditions cell Radiation rad -> (forall r, In r rad -> column_of _ r RadiatingDof = d) -> (forall r, In r (rad ++ dif) -> column_of _ r InfluencedDof = d) ->
  exists A B F, assemble_matrices cell nan cell_add arrange results = Ok (Some A, Some B, F)
    /\ table A [d] (ticks _ a (frequency_of _ a))
         (fun d w => coefficient _ nan rad [(frequency_of _ a, w); (RadiatingDof, d); (InfluencedDof, d)] (fun r => cell_of _ r AddedMass))
    /\ table B [d] (ticks _ a (frequency_of _ a))
         (fun d w => coefficient _ nan rad [(frequency_of _ a, w); (RadiatingDof, d); (InfluencedDof, d)] (fun r => cell_of _ r RadiationDamping)).
Proof. intros cell nan cell_add arrange [H1 H2]. exact (matrices_line cell nan cell_add H1 arrange H2). Qed.
Print Assumptions matrices_of_one_dof.

(** The excitation force at one frequency and for one wave direction: one number for each influenced dof, the sum of the Froude-Krylov
    and of the diffraction forces. *)
Theorem matrices_of_diffraction : forall cell (nan : cell) cell_add arrange, proper nan cell_add arrange ->
  forall results a rad dif w b, assemble_dataset cell nan cell_add arrange results = Ok a -> rows_of cell Radiation results rad -> rows_of cell Diffraction results dif -> dif <> [] ->
  same_conditions cell Radiation rad -> same_conditions cell Diffraction dif ->
  (forall r, In r (rad ++ dif) -> column_of _ r (frequency_of _ a) = w) -> (forall r, In r (rad ++ dif) -> column_of _ r WaveDirection = b) ->
  exists A B F, assemble_matrices cell nan cell_add arrange results = Ok (A, B, Some F)
    /\ vector F (ticks _ a InfluencedDof)
         (fun e => coefficient _ nan dif [(frequency_of _ a, w); (WaveDirection, b); (InfluencedDof, e)]
                     (fun r => cell_add (cell_of _ r FroudeKrylovForce) (cell_of _ r DiffractionForce))).
Proof. intros cell nan cell_add arrange [H1 H2]. exact (matrices_force cell nan cell_add H1 arrange H2). Qed.
Print Assumptions matrices_of_diffraction.

(** None stands for the arrays of a class without results, and the errors of the dataset are passed on. *)
Theorem matrices_absent : forall cell (nan : cell) cell_add arrange results,
  (forall a, assemble_dataset cell nan cell_add arrange results = Ok a -> exists A B F, assemble_matrices cell nan cell_add arrange results = Ok (A, B, F)
      /\ (rows_of cell Radiation results [] -> A = None /\ B = None) /\ (rows_of cell Diffraction results [] -> F = None))
  /\ forall x, assemble_dataset cell nan cell_add arrange results = Err x -> assemble_matrices cell nan cell_add arrange results = Err x.
Proof. exact matrices_missing. Qed.
Print Assumptions matrices_absent.

(** ** Examples *)
(** A body with two dofs in waves of two pulsations. *)
Definition two_dofs : body := {| b_id := 0; b_name := "buoy"; b_centers := [V 0 0 (-1)]; b_normals := [V 1 0 0]; b_areas := [1%R];
  b_dofs := [("Surge"%string, [Proofs_Problem3.row 1 0 0]); ("Heave"%string, [Proofs_Problem3.row 0 0 1])]; b_lid := None |}.
Definition in_waves (b : body) (om : R) : problem := {| p_body := Some b; p_fs := Fin 0; p_depth := PInf;
  p_freqs := Freqs (FVal (Fin om)) (FVal (Fin (2 * PI / om))) (FVal (Fin (om * om / 10))) (FVal (Fin (2 * PI / (om * om / 10)))) Omega;
  p_enc := Freqs (FVal (Fin om)) (FVal (Fin (2 * PI / om))) (FVal (Fin (om * om / 10))) (FVal (Fin (2 * PI / (om * om / 10)))) Omega;
  p_speed := 0; p_rho := 1000; p_g := 10; p_dir := 0; p_enc_dir := 0; p_bc := None |}.
Definition forces (surge heave : nat) (q : quantity) (d : string) : nat := if String.eqb d "Surge" then surge else heave.
Definition surging : res nat := Res nat Radiation (in_waves two_dofs 1) (Some "Surge"%string) (forces 11 12).
Definition heaving : res nat := Res nat Radiation (in_waves two_dofs 1) (Some "Heave"%string) (forces 21 22).
Definition fixed : res nat := Res nat Diffraction (in_waves two_dofs 1) None (forces 31 32).
Definition sway : list (res nat) := [surging; heaving; fixed].
Definition sway_rad : list (Model_Dataset.row nat) := [(surging, "Surge"%string); (surging, "Heave"%string); (heaving, "Surge"%string); (heaving, "Heave"%string)].
Definition sway_dif : list (Model_Dataset.row nat) := [(fixed, "Surge"%string); (fixed, "Heave"%string)].
Lemma sway_rows : rows_of nat Radiation sway sway_rad /\ rows_of nat Diffraction sway sway_dif.
Proof.
  split.
  - refine (rows_use nat Radiation surging [heaving; fixed] (skipn 2 sway_rad) two_dofs (conj eq_refl eq_refl) eq_refl _).
    refine (rows_use nat Radiation heaving [fixed] [] two_dofs (conj eq_refl eq_refl) eq_refl _). apply rows_skip; [intros [H _]; discriminate|]. constructor.
  - apply rows_skip; [intros [H _]; discriminate|]. apply rows_skip; [intros [H _]; discriminate|].
    refine (rows_use nat Diffraction fixed [] [] two_dofs (conj eq_refl eq_refl) eq_refl _). constructor.
Qed.
Lemma plain : proper O Nat.add (fun (_ : column) (l : list value) => l).
Proof. split; [reflexivity|intros; apply Permutation_refl]. Qed.
Lemma sway_assembled : exists a, assemble_dataset nat O Nat.add (fun _ l => l) sway = Ok a.
Proof.
  destruct sway_rows as [HR HD]. destruct (dataset_accepted nat O Nat.add (fun _ l => l) plain) as (_ & _ & A).
  apply (proj2 (A sway _ _ ltac:(discriminate) ltac:(intros s Hs; cbn in Hs; intuition (subst; discriminate)) HR HD)).
  intros (c & r & r' & Hc & _ & _ & Hr & Hr' & N). apply N.
  repeat destruct Hr as [<-|Hr]; [| | | |destruct Hr]; (repeat destruct Hr' as [<-|Hr']; [| |destruct Hr']); cbn in Hc; repeat destruct Hc as [<-|Hc]; try reflexivity; destruct Hc.
Qed.
Lemma sway_frequency a : forall r, In r (sway_rad ++ sway_dif) -> column_of nat r (frequency_of nat a) = column_of nat (surging, "Surge"%string) (frequency_of nat a).
Proof. intros r Hr. cbn in Hr. unfold frequency_of. repeat destruct Hr as [<-|Hr]; try (destruct (a_main nat a); reflexivity). destruct Hr. Qed.
Lemma sway_same k rows : (forall r, In r rows -> In r (sway_rad ++ sway_dif)) -> k <> Generic -> (forall c, In c (other_dims k) -> ~ varying nat rows c).
Proof.
  intros H HK c Hc (r & r' & Hr & Hr' & N). apply N. apply H in Hr, Hr'. cbn in Hr, Hr'.
  assert (G : forall r, In r (sway_rad ++ sway_dif) -> column_of nat r c = column_of nat (surging, "Surge"%string) c); [|now rewrite (G r), (G r')].
  clear - Hc. intros r Hr. cbn in Hr. destruct k; cbn in Hc; repeat destruct Hc as [<-|Hc]; try destruct Hc; repeat destruct Hr as [<-|Hr]; try destruct Hr; reflexivity.
Qed.
Lemma coefficient_value rows params get x r : coefficient nat O rows params get x -> In r rows -> (forall c v, In (c, v) params -> column_of nat r c = v) ->
  (forall r', In r' rows -> (forall c v, In (c, v) params -> column_of nat r' c = v) -> r' = r) -> x = get r.
Proof.
  intros [(r' & (l1 & l2 & E & P & _) & ->)|[N _]] Hr HP HU; [|exfalso; exact (N r Hr HP)]. f_equal. apply HU; [|exact P]. rewrite E. apply in_or_app. right. now left.
Qed.
Lemma sway_matrices : exists a A B F, assemble_dataset nat O Nat.add (fun _ l => l) sway = Ok a
  /\ assemble_matrices nat O Nat.add (fun _ l => l) sway = Ok (Some A, Some B, Some F)
  /\ table A (ticks _ a RadiatingDof) (ticks _ a InfluencedDof)
         (fun d e => coefficient _ O sway_rad [(frequency_of _ a, column_of nat (surging, "Surge"%string) (frequency_of nat a)); (RadiatingDof, d); (InfluencedDof, e)] (fun r => cell_of _ r AddedMass))
  /\ vector F (ticks _ a InfluencedDof)
         (fun e => coefficient _ O sway_dif [(frequency_of _ a, column_of nat (surging, "Surge"%string) (frequency_of nat a)); (WaveDirection, Num (Fin 0)); (InfluencedDof, e)]
                     (fun r => cell_of _ r FroudeKrylovForce + cell_of _ r DiffractionForce)).
Proof.
  destruct sway_assembled as (a & HA). destruct sway_rows as [HR HD].
  assert (C1 : same_conditions nat Radiation sway_rad) by exact (sway_same Radiation sway_rad (fun r H => in_or_app _ _ r (or_introl H)) ltac:(discriminate)).
  assert (C2 : same_conditions nat Diffraction sway_dif) by exact (sway_same Diffraction sway_dif (fun r H => in_or_app _ _ r (or_intror H)) ltac:(discriminate)).
  destruct (matrices_of_radiation nat O Nat.add (fun _ l => l) plain sway a _ _ _ HA HR HD ltac:(discriminate) C1 (sway_frequency a)) as (A & B & F & E & TA & _).
  { intros r Hr. cbn in Hr. destruct Hr as [<-|[<-|[<-|[<-|[]]]]].
    - exists (surging, "Surge"%string). split; [cbn; tauto|reflexivity].
    - exists (surging, "Surge"%string). split; [cbn; tauto|reflexivity].
    - exists (surging, "Heave"%string). split; [cbn; tauto|reflexivity].
    - exists (surging, "Heave"%string). split; [cbn; tauto|reflexivity]. }
  destruct (matrices_of_diffraction nat O Nat.add (fun _ l => l) plain sway a _ _ _ (Num (Fin 0)) HA HR HD ltac:(discriminate) C1 C2 (sway_frequency a)) as (A' & B' & F' & E' & TF).
  { intros r Hr. cbn in Hr. repeat destruct Hr as [<-|Hr]; try reflexivity. destruct Hr. }
  rewrite E in E'. injection E' as E1 E2 E3. subst A' B' F. exists a, A, B, F'. split; [exact HA|]. split; [exact E|]. split; [exact TA|exact TF].
Qed.
(** The added mass of the heave on the surge is found at the line of the heave and in the column of the surge. *)
Example matrices_of_radiation_ex : exists a A B F i j, assemble_dataset nat O Nat.add (fun _ l => l) sway = Ok a
  /\ assemble_matrices nat O Nat.add (fun _ l => l) sway = Ok (Some A, Some B, Some F)
  /\ nth_error (ticks nat a RadiatingDof) i = Some (Name "Heave") /\ nth_error (ticks nat a InfluencedDof) j = Some (Name "Surge")
  /\ entry nat A [i; j] = Some 21 /\ entry nat F [j] = Some 62.
Proof.
  destruct sway_rows as [HR HD]. destruct sway_matrices as (a & A & B & F & HA & E & TA & TF).
  destruct (matrices_labels nat O Nat.add (fun _ l => l) plain sway a _ _ HA HR HD) as (_ & L1 & L2 & _).
  destruct (In_nth_error (ticks nat a RadiatingDof) (Name "Heave")) as (i & Hi); [apply L1; exists (heaving, "Surge"%string); split; [cbn; tauto|reflexivity]|].
  destruct (In_nth_error (ticks nat a InfluencedDof) (Name "Surge")) as (j & Hj); [apply L2; exists (heaving, "Surge"%string); split; [cbn; tauto|reflexivity]|].
  exists a, A, B, F, i, j. repeat (split; [assumption|]). split.
  - destruct (proj2 TA i j _ _ Hi Hj) as (x & -> & HC). f_equal. rewrite (coefficient_value _ _ _ _ (heaving, "Surge"%string) HC); [reflexivity|cbn; tauto| |].
    + intros c v Hc. destruct Hc as [Hc|[Hc|[Hc|[]]]]; injection Hc as <- <-; [apply sway_frequency; cbn; tauto|reflexivity|reflexivity].
    + intros r' Hr' HP. assert (X1 := HP RadiatingDof _ (or_intror (or_introl eq_refl))). assert (X2 := HP InfluencedDof _ (or_intror (or_intror (or_introl eq_refl)))).
      cbn in Hr'. destruct Hr' as [<-|[<-|[<-|[<-|[]]]]]; try reflexivity; try (cbn in X1; discriminate); cbn in X2; discriminate.
  - destruct (proj2 TF j _ Hj) as (x & -> & HC). f_equal. rewrite (coefficient_value _ _ _ _ (fixed, "Surge"%string) HC); [reflexivity|cbn; tauto| |].
    + intros c v Hc. destruct Hc as [Hc|[Hc|[Hc|[]]]]; injection Hc as <- <-; [apply sway_frequency; cbn; tauto|reflexivity|reflexivity].
    + intros r' Hr' HP. assert (X2 := HP InfluencedDof _ (or_intror (or_intror (or_introl eq_refl)))). cbn in Hr'. destruct Hr' as [<-|[<-|[]]]; [reflexivity|cbn in X2; discriminate].
Qed.

(** One dof, two pulsations. *)
Definition pulsing (om : R) (x : nat) : res nat := Res nat Radiation (in_waves (one_panel 0 "buoy" (-1) None) om) (Some "Surge"%string) (forces x x).
Example matrices_of_one_dof_ex : exists rad, rows_of nat Radiation [pulsing 1 7; pulsing 2 8] rad /\ rows_of nat Diffraction [pulsing 1 7; pulsing 2 8] [] /\ rad <> []
  /\ same_conditions nat Radiation rad /\ (forall r, In r rad -> column_of nat r RadiatingDof = Name "Surge") /\ (forall r, In r (rad ++ []) -> column_of nat r InfluencedDof = Name "Surge")
  /\ (exists a, assemble_dataset nat O Nat.add (fun _ l => l) [pulsing 1 7; pulsing 2 8] = Ok a)
  /\ column_of nat (pulsing 1 7, "Surge"%string) COmega <> column_of nat (pulsing 2 8, "Surge"%string) COmega.
Proof.
  assert (HR : rows_of nat Radiation [pulsing 1 7; pulsing 2 8] [(pulsing 1 7, "Surge"%string); (pulsing 2 8, "Surge"%string)]).
  { apply rows_one; try reflexivity. apply rows_one; try reflexivity. constructor. }
  assert (HD : rows_of nat Diffraction [pulsing 1 7; pulsing 2 8] []).
  { apply rows_skip; [intros [H _]; discriminate|]. apply rows_skip; [intros [H _]; discriminate|]. constructor. }
  exists [(pulsing 1 7, "Surge"%string); (pulsing 2 8, "Surge"%string)]. split; [exact HR|]. split; [exact HD|]. split; [discriminate|]. split.
  { intros c Hc (r & r' & Hr & Hr' & N). apply N.
    assert (G : forall r, In r [(pulsing 1 7, "Surge"%string); (pulsing 2 8, "Surge"%string)] -> column_of nat r c = column_of nat (pulsing 1 7, "Surge"%string) c); [|now rewrite (G r), (G r')].
    clear - Hc. intros r Hr. cbn in Hc, Hr. repeat destruct Hc as [<-|Hc]; try destruct Hc; repeat destruct Hr as [<-|Hr]; try destruct Hr; reflexivity. }
  split; [intros r Hr; cbn in Hr; destruct Hr as [<-|[<-|[]]]; reflexivity|]. split; [intros r Hr; cbn in Hr; destruct Hr as [<-|[<-|[]]]; reflexivity|]. split.
  - destruct (dataset_accepted nat O Nat.add (fun _ l => l) plain) as (_ & _ & A).
    apply (proj2 (A [pulsing 1 7; pulsing 2 8] _ _ ltac:(discriminate) ltac:(intros s Hs; cbn in Hs; intuition (subst; discriminate)) HR HD)). intros (c & r & r' & _ & _ & _ & _ & [] & _).
  - cbn. intros [= H]. lra.
Qed.
