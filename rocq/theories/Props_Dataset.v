(** C38: the values found in an assembled dataset. *)
From Coq Require Import Reals String List Bool Arith Permutation Lra Lia.
From Verif Require Import Model_Base Model_Problem Spec_Problem Model_Solver Proofs_Problem3 Model_Dataset Spec_Dataset
  Proofs_Dataset Proofs_Dataset2 Proofs_Dataset3 Proofs_Dataset4.
Import ListNotations.
Open Scope R_scope.

(** The sum of two missing values is missing, and sorting the labels of a coordinate keeps them all. *)
Definition proper {cell} (nan : cell) (cell_add : cell -> cell -> cell) (arrange : column -> list value -> list value) : Prop :=
  cell_add nan nan = nan /\ forall c l, Permutation l (arrange c l).

(** Selecting labels of the dataset gives the value of the first result of the class having these parameters, and nan when
    there is none. Partial: the parameters which take only one value among the results of the class are not compared; see
    [dataset_broadcast_refuted]. *)
Theorem dataset_values_partial : forall cell (nan : cell) cell_add arrange, proper nan cell_add arrange ->
  forall k results a rows, k <> Generic -> assemble_dataset cell nan cell_add arrange results = Ok a -> rows_of cell k results rows -> rows <> [] ->
  exists dims, dims_for cell k (a_main _ a) rows dims
    /\ (forall r c, In r rows -> In c dims -> labelled (a_data _ a) c (column_of _ r c))
    /\ forall s, (forall c, In c dims -> labelled (a_data _ a) c (s c)) ->
       (forall q, In q (match k with Diffraction => [DiffractionForce; FroudeKrylovForce] | _ => [AddedMass; RadiationDamping] end) ->
         (forall r, first_such cell (agrees cell dims s) rows r -> sel (a_data _ a) q s = Ok (cell_of cell r q))
         /\ ((forall r, In r rows -> ~ agrees cell dims s r) -> sel (a_data _ a) q s = Ok nan))
       /\ (k = Diffraction ->
         (forall r, first_such cell (agrees cell dims s) rows r ->
            sel (a_data _ a) ExcitationForce s = Ok (cell_add (cell_of cell r FroudeKrylovForce) (cell_of cell r DiffractionForce)))
         /\ ((forall r, In r rows -> ~ agrees cell dims s r) -> sel (a_data _ a) ExcitationForce s = Ok nan)).
Proof. intros cell nan cell_add arrange [H1 H2] k results a rows. exact (assembled_values cell nan cell_add H1 arrange H2 k results a rows). Qed.
Print Assumptions dataset_values_partial.

(** In particular at the coordinates of a result, all the parameters being compared: the first of the results with the same
    coordinates is found. *)
Theorem dataset_records : forall cell (nan : cell) cell_add arrange, proper nan cell_add arrange ->
  forall k results a rows r r0, k <> Generic -> assemble_dataset cell nan cell_add arrange results = Ok a -> rows_of cell k results rows -> In r rows ->
  first_such cell (agrees cell (main_dims k (a_main _ a) ++ other_dims k) (column_of _ r)) rows r0 ->
  (forall q, In q (match k with Diffraction => [DiffractionForce; FroudeKrylovForce] | _ => [AddedMass; RadiationDamping] end) ->
     sel (a_data _ a) q (column_of _ r) = Ok (cell_of cell r0 q))
  /\ (k = Diffraction -> sel (a_data _ a) ExcitationForce (column_of _ r)
        = Ok (cell_add (cell_of cell r0 FroudeKrylovForce) (cell_of cell r0 DiffractionForce))).
Proof. intros cell nan cell_add arrange [H1 H2] k results a rows r r0. exact (assembled_record cell nan cell_add H1 arrange H2 k results a rows r r0). Qed.
Print Assumptions dataset_records.

(** The list of results is accepted unless it is empty, a result has no class, or a parameter has one value in all the
    radiation results and another one in all the diffraction results. *)
Theorem dataset_accepted : forall cell (nan : cell) cell_add arrange, proper nan cell_add arrange ->
  (assemble_dataset cell nan cell_add arrange [] = Err ValueError)
  /\ (forall results, (exists s, In s results /\ s_kind _ s = Generic) -> assemble_dataset cell nan cell_add arrange results = Err AttributeError)
  /\ forall results rr dr, results <> [] -> (forall s, In s results -> s_kind _ s <> Generic) ->
     rows_of cell Radiation results rr -> rows_of cell Diffraction results dr ->
     (conflict cell rr dr -> assemble_dataset cell nan cell_add arrange results = Err ValueError)
     /\ (~ conflict cell rr dr -> exists a, assemble_dataset cell nan cell_add arrange results = Ok a).
Proof.
  intros cell nan cell_add arrange [H1 H2]. split; [reflexivity|]. split.
  - exact (assemble_generic cell nan cell_add arrange).
  - exact (assemble_accepts cell nan cell_add arrange H2).
Qed.
Print Assumptions dataset_accepted.

(** The coordinates holding the other frequencies, and the encounter frequency, are those of each result. *)
Theorem dataset_frequencies : forall cell (nan : cell) cell_add arrange, proper nan cell_add arrange ->
  forall results a r, assemble_dataset cell nan cell_add arrange results = Ok a ->
  (forall s, In s results -> travelling (s_problem _ s)) -> recorded cell results r ->
  (forall t, t <> a_main _ a -> exists ds, In (freq_column t, ds) (a_coords _ a) /\ sel ds CoordinateValue (column_of _ r) = Ok (column_of _ r (freq_column t)))
  /\ ((exists r', recorded cell results r' /\ p_speed (s_problem _ (fst r')) <> 0) ->
      exists ds, In (EncounterOmega, ds) (a_coords _ a) /\ sel ds CoordinateValue (column_of _ r) = Ok (column_of _ r EncounterOmega)).
Proof. intros cell nan cell_add arrange [H1 H2]. exact (assembled_frequencies cell nan cell_add arrange H2). Qed.
Print Assumptions dataset_frequencies.
(** The problems of a positive and finite frequency have such waves. *)
Theorem problems_travel : forall newton immersed i bc p t x, exact_root_finder newton -> 0 < i_g i -> pos_depth (p_depth p) ->
  freq_meant i t (Fin x) -> 0 < x -> generic_problem newton immersed i bc = Ok p -> travelling p.
Proof. exact built_travelling. Qed.
Print Assumptions problems_travel.

(** Radiation results computed for one density only are also found at the other densities of the dataset. *)
Theorem dataset_broadcast_refuted : forall cell (nan : cell) cell_add arrange, proper nan cell_add arrange ->
  forall newton immersed (x y z : quantity -> string -> cell), exists s1 s2 s3 a s,
    generic_problem newton immersed (sea_args 10 1000 0) None = Ok (s_problem _ s1)
    /\ generic_problem newton immersed (sea_args 10 1000 0) None = Ok (s_problem _ s2)
    /\ generic_problem newton immersed (sea_args 10 1025 0) None = Ok (s_problem _ s3)
    /\ s_kind _ s1 = Radiation /\ s_kind _ s2 = Diffraction /\ s_kind _ s3 = Diffraction
    /\ s_cell _ s1 = x /\ s_cell _ s2 = y /\ s_cell _ s3 = z
    /\ assemble_dataset cell nan cell_add arrange [s1; s2; s3] = Ok a
    /\ labelled (a_data _ a) Rho (Num (Fin 1025)) /\ s Rho = Num (Fin 1025)
    /\ sel (a_data _ a) AddedMass s = Ok (x AddedMass "Surge"%string)
    /\ forall rows r, rows_of cell Radiation [s1; s2; s3] rows -> In r rows -> column_of _ r Rho = Num (Fin 1000).
Proof. intros cell nan cell_add arrange [H1 H2] newton immersed. exact (broadcast_value cell nan cell_add H1 arrange H2 newton immersed). Qed.
Print Assumptions dataset_broadcast_refuted.

(** The encounter direction is stored as if it did not depend on the gravity nor on the depth. *)
Theorem dataset_direction_refuted : forall cell (nan : cell) cell_add arrange, proper nan cell_add arrange ->
  forall newton immersed (x y : quantity -> string -> cell), exists s1 s2 a ds,
    generic_problem newton immersed (sea_args 10 1000 1) None = Ok (s_problem _ s1)
    /\ generic_problem newton immersed (sea_args (/ 10) 1000 1) None = Ok (s_problem _ s2)
    /\ s_kind _ s1 = Diffraction /\ s_kind _ s2 = Diffraction /\ s_cell _ s1 = x /\ s_cell _ s2 = y
    /\ assemble_dataset cell nan cell_add arrange [s1; s2] = Ok a /\ In (EncounterWaveDirection, ds) (a_coords _ a)
    /\ let r := (s2, "Surge"%string) in
       recorded cell [s1; s2] r /\ column_of _ r EncounterWaveDirection = Num (Fin (0 + PI))
       /\ sel ds CoordinateValue (column_of _ r) = Ok (Num (Fin 0)).
Proof. intros cell nan cell_add arrange [H1 H2] newton immersed. exact (direction_value cell nan cell_add arrange H2 newton immersed). Qed.
Print Assumptions dataset_direction_refuted.

(** A dataset with two results at the same coordinates: the first is kept. *)
Example dataset_records_ex : forall newton immersed, exists s1 s2 a,
  generic_problem newton immersed (sea_args 10 1000 0) None = Ok (s_problem nat s1)
  /\ generic_problem newton immersed (sea_args 10 1000 0) None = Ok (s_problem nat s2)
  /\ s_cell _ s1 AddedMass "Surge"%string = 1%nat /\ s_cell _ s2 AddedMass "Surge"%string = 2%nat
  /\ assemble_dataset nat O Nat.add (fun _ l => l) [s1; s2] = Ok a
  /\ sel (a_data _ a) AddedMass (column_of _ (s2, "Surge"%string)) = Ok 1%nat.
Proof.
  intros newton immersed. destruct (sea_generic newton immersed 10 1000 0) as (p & B & C1 & C2 & _); [lra|lra|].
  set (s1 := Res nat Radiation p (Some "Surge"%string) (fun _ _ => 1%nat)). set (s2 := Res nat Radiation p (Some "Surge"%string) (fun _ _ => 2%nat)).
  assert (P : proper O Nat.add (fun (_ : column) (l : list value) => l)) by (split; [reflexivity|intros; apply Permutation_refl]).
  assert (HR : rows_of nat Radiation [s1; s2] [(s1, "Surge"%string); (s2, "Surge"%string)]).
  { apply rows_one; try reflexivity; try assumption. apply rows_one; try reflexivity; try assumption. constructor. }
  assert (HD : rows_of nat Diffraction [s1; s2] []).
  { apply rows_skip; [intros [H _]; discriminate|]. apply rows_skip; [intros [H _]; discriminate|]. constructor. }
  destruct (dataset_accepted nat O Nat.add (fun _ l => l) P) as (_ & _ & A).
  destruct (proj2 (A [s1; s2] _ _ ltac:(discriminate) ltac:(intros s Hs; cbn in Hs; intuition (subst; discriminate)) HR HD)) as (a & HA);
    [intros (c & r & r' & _ & _ & _ & _ & [] & _)|].
  exists s1, s2, a. repeat (split; [assumption || reflexivity|]).
  destruct (dataset_records nat O Nat.add (fun _ l => l) P Radiation [s1; s2] a _ (s2, "Surge"%string) (s1, "Surge"%string) ltac:(discriminate) HA HR) as [V _].
  - right. now left.
  - exists [], [(s2, "Surge"%string)]. split; [reflexivity|]. split; [|intros ? []]. intros c _. destruct c; reflexivity.
  - apply V. now left.
Qed.
Example dataset_frequencies_ex : travelling {| p_body := None; p_fs := Fin 0; p_depth := PInf;
  p_freqs := Freqs (FVal (Fin 2)) (FVal (Fin PI)) (FVal (Fin 1)) (FVal (Fin (2 * PI))) Omega;
  p_enc := Freqs (FVal (Fin 1)) (FVal (Fin (2 * PI))) (FVal (Fin (/ 4))) (FVal (Fin (8 * PI))) Omega;
  p_speed := 1; p_rho := 1000; p_g := 4; p_dir := 0; p_enc_dir := 0; p_bc := None |}.
Proof.
  assert (H := PI_RGT_0). exists 2, PI, 1, (2 * PI), Omega. cbn [p_freqs p_g p_depth p_enc p_enc_dir p_dir p_speed f_omega ffloat]. rewrite cos_0.
  split; [reflexivity|]. split; [lra|]. split; [now left|]. split.
  - constructor; cbn [dispersion]; lra.
  - replace (2 - 1 * 1 * 1) with 1 by ring. cbv zeta. split; [now rewrite Rabs_R1|]. split; [reflexivity|lra].
Qed.
