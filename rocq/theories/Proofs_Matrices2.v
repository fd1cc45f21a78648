(** Proofs about the bare matrices of a list of results: shapes and entries. *)
From Coq Require Import Reals String Ascii List Bool Arith Lia Permutation.
From Verif Require Import Model_Base Model_Problem Spec_Problem Model_Solver Model_Dataset Spec_Dataset Proofs_Dataset Proofs_Dataset2 Model_Matrices Spec_Matrices Proofs_Matrices.
Import ListNotations.
Open Scope nat_scope.

Section Shapes.
  Variable cell : Type.
  Variable nan : cell.
  Variable cell_add : cell -> cell -> cell.
  Hypothesis nan_add : cell_add nan nan = nan.
  Variable arrange : column -> list value -> list value.
  Hypothesis arranged : forall c l, Permutation l (arrange c l).
  Notation assemble := (assemble_dataset cell nan cell_add arrange).
  Notation matrices := (assemble_matrices cell nan cell_add arrange).
  Notation column_of := (column_of cell).

  Lemma ltb_in {T} (l : list T) i x : nth_error l i = Some x -> Nat.ltb i (length l) = true.
  Proof. intros H. apply Nat.ltb_lt. apply nth_error_Some. rewrite H. discriminate. Qed.

  (** [squeeze] of an array of shape (1, n, m). *)
  Lemma square_shape n m xs : 0 < n -> 0 < m -> (m = 1 -> n = 1) -> atleast_2d cell (squeeze cell ([1; n; m], xs)) = ([n; m], xs).
  Proof.
    intros Hn Hm H. unfold squeeze, atleast_2d. cbn [filter fst snd Nat.eqb negb].
    destruct (Nat.eqb m 1) eqn:Em.
    - apply Nat.eqb_eq in Em. rewrite (H Em), Em. reflexivity.
    - destruct (Nat.eqb n 1) eqn:En; cbn [negb fst snd filter]; [apply Nat.eqb_eq in En; now rewrite En|reflexivity].
  Qed.
  Lemma line_shape p xs : atleast_2d cell (squeeze cell ([p; 1; 1], xs)) = ([1; p], xs).
  Proof. unfold squeeze, atleast_2d. cbn [filter fst snd Nat.eqb negb]. destruct (Nat.eqb p 1) eqn:E; cbn [negb fst snd filter]; [apply Nat.eqb_eq in E; now subst|reflexivity]. Qed.
  Lemma column_shape n xs : atleast_2d cell (squeeze cell ([1; n; 1], xs)) = ([1; n], xs).
  Proof. unfold squeeze, atleast_2d. cbn [filter fst snd Nat.eqb negb]. destruct (Nat.eqb n 1) eqn:E; cbn [negb fst snd filter]; [apply Nat.eqb_eq in E; now subst|reflexivity]. Qed.
  Lemma force_shape m xs : atleast_1d cell (squeeze cell ([1; 1; m], xs)) = ([m], xs).
  Proof. unfold squeeze, atleast_1d. cbn [filter fst snd Nat.eqb negb]. destruct (Nat.eqb m 1) eqn:E; cbn [negb fst snd filter]; [apply Nat.eqb_eq in E; now subst|reflexivity]. Qed.

  Lemma entry_two n m xs i j : Nat.ltb i n = true -> Nat.ltb j m = true -> entry cell ([n; m], xs) [i; j] = nth_error xs (i * m + j).
  Proof. intros H1 H2. unfold entry. cbn [fst snd offset]. rewrite H1, H2. cbn [option_map fold_right]. f_equal. lia. Qed.
  Lemma entry_one m xs j : Nat.ltb j m = true -> entry cell ([m], xs) [j] = nth_error xs j.
  Proof. intros H2. unfold entry. cbn [fst snd offset]. rewrite H2. cbn [option_map fold_right]. f_equal. lia. Qed.

  Lemma one_label {T} (l : list T) : length l = 1 -> exists w, l = [w].
  Proof. destruct l as [|w [|? ?]]; try discriminate. now exists w. Qed.

  Definition getq (q : quantity) : row cell -> cell := fun r => cell_of cell r q.

  Lemma radiation_square results a rows q : assemble results = Ok a -> rows_of cell Radiation results rows -> rows <> [] -> same_conditions cell Radiation rows ->
    q = AddedMass \/ q = RadiationDamping -> forall w, ticks cell a (frequency_of cell a) = [w] ->
    (length (ticks cell a InfluencedDof) = 1 -> length (ticks cell a RadiatingDof) = 1) ->
    exists A, option_map (fun v => atleast_2d cell (squeeze cell v)) (values_of cell (a_data _ a) q) = Some A
      /\ fst A = [length (ticks cell a RadiatingDof); length (ticks cell a InfluencedDof)]
      /\ forall i j d e, nth_error (ticks cell a RadiatingDof) i = Some d -> nth_error (ticks cell a InfluencedDof) j = Some e ->
         exists x, entry cell A [i; j] = Some x /\ coefficient cell nan rows [(frequency_of cell a, w); (RadiatingDof, d); (InfluencedDof, e)] (getq q) x.
  Proof.
    intros HA HR HN HV Hq w Hw Hs.
    destruct (values_are cell nan cell_add nan_add arrange arranged Radiation results a rows q ltac:(discriminate) HA HR HN HV) as (xs & E & (_ & P2 & P3) & F).
    { destruct Hq as [-> | ->]; left; cbn; tauto. }
    cbn [three] in *. rewrite E. cbn [option_map]. eexists. split; [reflexivity|]. rewrite Hw. cbn [length]. rewrite square_shape by assumption. split; [reflexivity|].
    intros i j d e Hd He. rewrite entry_two by (eapply ltb_in; eassumption).
    destruct (F 0 i j w d e) as (x & Hx & HC); [now rewrite Hw|assumption|assumption|]. rewrite Nat.mul_0_l, Nat.add_0_l in Hx. exists x. split; [exact Hx|].
    destruct Hq as [-> | ->]; exact HC.
  Qed.

  Lemma radiation_line results a rows q : assemble results = Ok a -> rows_of cell Radiation results rows -> rows <> [] -> same_conditions cell Radiation rows ->
    q = AddedMass \/ q = RadiationDamping -> forall d e, ticks cell a RadiatingDof = [d] -> ticks cell a InfluencedDof = [e] ->
    exists A, option_map (fun v => atleast_2d cell (squeeze cell v)) (values_of cell (a_data _ a) q) = Some A
      /\ fst A = [1; length (ticks cell a (frequency_of cell a))]
      /\ forall p w, nth_error (ticks cell a (frequency_of cell a)) p = Some w ->
         exists x, entry cell A [0; p] = Some x /\ coefficient cell nan rows [(frequency_of cell a, w); (RadiatingDof, d); (InfluencedDof, e)] (getq q) x.
  Proof.
    intros HA HR HN HV Hq d e Hd He.
    destruct (values_are cell nan cell_add nan_add arrange arranged Radiation results a rows q ltac:(discriminate) HA HR HN HV) as (xs & E & _ & F).
    { destruct Hq as [-> | ->]; left; cbn; tauto. }
    cbn [three] in *. rewrite E. cbn [option_map]. eexists. split; [reflexivity|]. rewrite Hd, He in *. cbn [length] in *. rewrite line_shape. split; [reflexivity|].
    intros p w Hw. rewrite entry_two by (reflexivity || (eapply ltb_in; eassumption)).
    destruct (F p 0 0 w d e) as (x & Hx & HC); [exact Hw|reflexivity|reflexivity|]. exists x. split; [rewrite <- Hx; f_equal; lia|].
    destruct Hq as [-> | ->]; exact HC.
  Qed.

  Lemma radiation_column results a rows q : assemble results = Ok a -> rows_of cell Radiation results rows -> rows <> [] -> same_conditions cell Radiation rows ->
    q = AddedMass \/ q = RadiationDamping -> forall w e, ticks cell a (frequency_of cell a) = [w] -> ticks cell a InfluencedDof = [e] ->
    exists A, option_map (fun v => atleast_2d cell (squeeze cell v)) (values_of cell (a_data _ a) q) = Some A
      /\ fst A = [1; length (ticks cell a RadiatingDof)]
      /\ forall i d, nth_error (ticks cell a RadiatingDof) i = Some d ->
         exists x, entry cell A [0; i] = Some x /\ coefficient cell nan rows [(frequency_of cell a, w); (RadiatingDof, d); (InfluencedDof, e)] (getq q) x.
  Proof.
    intros HA HR HN HV Hq w e Hw He.
    destruct (values_are cell nan cell_add nan_add arrange arranged Radiation results a rows q ltac:(discriminate) HA HR HN HV) as (xs & E & _ & F).
    { destruct Hq as [-> | ->]; left; cbn; tauto. }
    cbn [three] in *. rewrite E. cbn [option_map]. eexists. split; [reflexivity|]. rewrite Hw, He in *. cbn [length] in *. rewrite column_shape. split; [reflexivity|].
    intros i d Hd. rewrite entry_two by (reflexivity || (eapply ltb_in; eassumption)).
    destruct (F 0 i 0 w d e) as (x & Hx & HC); [reflexivity|exact Hd|reflexivity|]. exists x. split; [rewrite <- Hx; f_equal; lia|].
    destruct Hq as [-> | ->]; exact HC.
  Qed.

  Lemma excitation_line results a rows : assemble results = Ok a -> rows_of cell Diffraction results rows -> rows <> [] -> same_conditions cell Diffraction rows ->
    forall w b, ticks cell a (frequency_of cell a) = [w] -> ticks cell a WaveDirection = [b] ->
    exists A, option_map (fun v => atleast_1d cell (squeeze cell v)) (values_of cell (a_data _ a) ExcitationForce) = Some A
      /\ fst A = [length (ticks cell a InfluencedDof)]
      /\ forall j e, nth_error (ticks cell a InfluencedDof) j = Some e ->
         exists x, entry cell A [j] = Some x /\ coefficient cell nan rows [(frequency_of cell a, w); (WaveDirection, b); (InfluencedDof, e)]
           (fun r => cell_add (cell_of cell r FroudeKrylovForce) (cell_of cell r DiffractionForce)) x.
  Proof.
    intros HA HR HN HV w b Hw Hb.
    destruct (values_are cell nan cell_add nan_add arrange arranged Diffraction results a rows ExcitationForce ltac:(discriminate) HA HR HN HV) as (xs & E & _ & F).
    { right. split; reflexivity. }
    cbn [three] in *. rewrite E. cbn [option_map]. eexists. split; [reflexivity|]. rewrite Hw, Hb in *. cbn [length] in *. rewrite force_shape. split; [reflexivity|].
    intros j e He. rewrite entry_one by (eapply ltb_in; eassumption).
    destruct (F 0 0 j w b e) as (x & Hx & HC); [reflexivity|reflexivity|exact He|]. exists x. split; [rewrite <- Hx; f_equal; lia|exact HC].
  Qed.

  (** ** Missing arrays *)
  Lemma no_radiation results a q : assemble results = Ok a -> rows_of cell Radiation results [] -> q = AddedMass \/ q = RadiationDamping -> values_of cell (a_data _ a) q = None.
  Proof.
    intros HA HR Hq. destruct (assemble_inv cell nan cell_add arrange results a HA) as (rows0 & ER & ds1 & H1 & H2).
    set (rad := filter (is_kind cell Radiation) _) in *. set (dif := filter (is_kind cell Diffraction) _) in *.
    assert (RK := rows_of_eq cell Radiation results [] rows0 ltac:(discriminate) HR ER). assert (EE : rad = []) by (symmetry; exact RK).
    destruct H1 as [[_ ->]|[H1 _]]; [|contradiction]. unfold values_of.
    assert (G : find_var q (a_data cell a) = None).
    { destruct H2 as [[_ ->]|(_ & ds2 & H2 & ->)]; [reflexivity|]. rewrite find_excitation by (destruct Hq as [-> | ->]; discriminate).
      rewrite (find_var_merge arrange nan _ _ _ H2 q), find_empty. unfold frame. rewrite frame_var_none; [reflexivity|]. cbn. destruct Hq as [-> | ->]; intuition discriminate. }
    rewrite G. reflexivity.
  Qed.
  Lemma no_excitation results a : assemble results = Ok a -> rows_of cell Diffraction results [] -> values_of cell (a_data _ a) ExcitationForce = None.
  Proof.
    intros HA HR. destruct (assemble_inv cell nan cell_add arrange results a HA) as (rows0 & ER & ds1 & H1 & H2).
    set (rad := filter (is_kind cell Radiation) _) in *. set (dif := filter (is_kind cell Diffraction) _) in *.
    assert (RK := rows_of_eq cell Diffraction results [] rows0 ltac:(discriminate) HR ER). assert (EE : dif = []) by (symmetry; exact RK).
    destruct H2 as [[_ ->]|[H2 _]]; [|contradiction]. unfold values_of.
    assert (G : find_var ExcitationForce ds1 = None).
    { destruct H1 as [[_ ->]|[_ H1]]; [reflexivity|]. rewrite (find_var_merge arrange nan _ _ _ H1 ExcitationForce), find_empty.
      unfold frame. rewrite frame_var_none; [reflexivity|]. cbn. intuition discriminate. }
    rewrite G. reflexivity.
  Qed.

  (** ** The three arrays *)
  Lemma matrices_of results a : assemble results = Ok a -> matrices results = Ok (option_map (fun v => atleast_2d cell (squeeze cell v)) (values_of cell (a_data _ a) AddedMass),
    option_map (fun v => atleast_2d cell (squeeze cell v)) (values_of cell (a_data _ a) RadiationDamping), option_map (fun v => atleast_1d cell (squeeze cell v)) (values_of cell (a_data _ a) ExcitationForce)).
  Proof. intros H. unfold assemble_matrices. rewrite H. reflexivity. Qed.
End Shapes.
