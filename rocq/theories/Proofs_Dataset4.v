(** Datasets: the results at their own coordinates, and witnesses. *)
From Coq Require Import Reals String List Bool Arith Permutation Lra Lia.
From Verif Require Import Model_Base Model_Mesh Proofs_Mesh Model_Problem Spec_Problem Model_Solver Proofs_Problem Proofs_Problem2 Proofs_Problem3
  Model_Dataset Spec_Dataset Proofs_Dataset Proofs_Dataset2 Proofs_Dataset3.
Import ListNotations.
Open Scope R_scope.

Section Assemble.
  Variable cell : Type.
  Variable nan : cell.
  Variable cell_add : cell -> cell -> cell.
  Hypothesis nan_add : cell_add nan nan = nan.
  Variable arrange : column -> list value -> list value.
  Hypothesis arranged : forall c l, Permutation l (arrange c l).
  Notation column_of := (column_of cell).
  Notation assemble := (assemble_dataset cell nan cell_add arrange).

  Lemma assembled_record k results a rows r r0 : sure k -> assemble results = Ok a -> rows_of cell k results rows -> In r rows ->
    first_such cell (agrees cell (main_dims k (a_main _ a) ++ other_dims k) (column_of r)) rows r0 ->
    (forall q, In q (quantities k) -> sel (a_data _ a) q (column_of r) = Ok (cell_of cell r0 q))
    /\ (k = Diffraction -> sel (a_data _ a) ExcitationForce (column_of r) = Ok (cell_add (cell_of cell r0 FroudeKrylovForce) (cell_of cell r0 DiffractionForce))).
  Proof.
    intros HK HA HR Hr H0. assert (NE : rows <> []) by (intros E; rewrite E in Hr; destruct Hr).
    destruct (assembled_values cell nan cell_add nan_add arrange arranged k results a rows HK HA HR NE) as (dims & HD & HL & HV).
    destruct (HV (column_of r)) as [V1 V2]; [intros c Hc; now apply HL|].
    assert (F : first_such cell (agrees cell dims (column_of r)) rows r0).
    { destruct H0 as (l1 & l2 & EL & AG & N). exists l1, l2. split; [exact EL|]. split.
      - intros c Hc. apply AG. apply HD in Hc. apply in_or_app. tauto.
      - intros r' Hr' K. apply (N r' Hr'). intros c Hc. assert (Hi : In r' rows) by (rewrite EL; apply in_or_app; now left).
        destruct (varying_dec cell rows c) as [VD|NV].
        + apply K. apply HD. apply in_app_or in Hc. tauto.
        + apply in_app_or in Hc. destruct Hc as [Hc|Hc]; [apply K; apply HD; tauto|].
          destruct (value_eqb (column_of r' c) (column_of r c)) eqn:E; [now apply value_eqb_eq|]. exfalso. apply NV. exists r', r.
          split; [exact Hi|]. split; [exact Hr|]. intros H. apply (proj2 (value_eqb_eq _ _)) in H. congruence. }
    split.
    - intros q Hq. exact (proj1 (V1 q Hq) r0 F).
    - intros E. exact (proj1 (V2 E) r0 F).
  Qed.
End Assemble.

(** ** Waves on deep water *)
Definition sea_args (g rho speed : R) : args :=
  {| i_body := Some (one_panel 0 "buoy" (-1) None); i_fs := Fin 0; i_water_depth := None; i_sea_bottom := None;
     i_omega := Some (Fin 1); i_period := None; i_wavenumber := None; i_wavelength := None;
     i_speed := speed; i_rho := rho; i_g := g; i_dir := 0 |}.
Lemma sea_generic newton immersed g rho speed : 0 < g -> 1 - speed / g <> 0 -> exists p,
  generic_problem newton immersed (sea_args g rho speed) None = Ok p
  /\ p_body p = Some (one_panel 0 "buoy" (-1) None) /\ p_fs p = Fin 0 /\ p_depth p = PInf
  /\ p_freqs p = Freqs (FVal (Fin 1)) (FVal (Fin (2 * PI / 1))) (FVal (Fin (1 * 1 / g))) (FVal (Fin (2 * PI / (1 * 1 / g)))) Omega
  /\ p_speed p = speed /\ p_rho p = rho /\ p_g p = g /\ p_dir p = 0
  /\ p_enc_dir p = (if Rle_dec 0 (1 - speed / g) then 0 else 0 + PI).
Proof.
  intros Hg Hs. unfold generic_problem, sea_args. cbn [i_fs i_water_depth i_sea_bottom get_water_depth bind i_omega
    i_period i_wavenumber i_wavelength i_g i_speed i_body i_rho i_dir].
  unfold get_frequencies at 1. cbn [provided app]. unfold frequencies_from. cbn [ext_eqb].
  rewrite (Reqb_false 1 0) by lra. cbn [andb orb is_omega_k negb].
  unfold two_pi. cbn [ext_mul]. rewrite !np_div_fin by lra. cbn [bind].
  assert (0 < 1 * 1 / g) by (apply Rdiv_lt_0_compat; lra). rewrite np_div_fin by lra. cbn [bind].
  unfold check_data. cbn [ext_eqb f_omega ffloat]. rewrite !Reqb_refl. unfold is_limit. cbn [ext_eqb]. rewrite (Reqb_false 1 0) by lra. cbn [orb negb andb ext_ltb].
  unfold check_body. cbn [nb_faces b_centers one_panel List.length Nat.eqb].
  unfold check_dofs. cbn [b_dofs forallb snd one_panel].
  change (dof_shape_ok (nb_faces (one_panel 0 "buoy" (-1) None)) [Proofs_Problem3.row 1 0 0]) with true. cbn [andb bind].
  assert (A : existsb (above_fs (Fin 0)) [V 0 0 (-1)] || existsb (below_sb PInf) [V 0 0 (-1)] = false).
  { cbn [existsb]. unfold above_fs, below_sb. cbn [ext_add vz ext_leb ext_opp]. unfold Rleb.
    destruct (Rle_dec _ _) as [L|]; [|reflexivity]. exfalso.
    assert (0 < / 10 ^ 8) by (apply Rinv_0_lt_compat, pow_lt; lra). lra. }
  rewrite A. cbn [bind check_bc]. unfold encounter. destruct (Req_dec speed 0) as [->|N].
  - rewrite Reqb_refl. cbn [bind fst snd]. eexists. split; [reflexivity|]. cbn. repeat (split; [reflexivity|]).
    destruct (Rle_dec 0 (1 - 0 / g)) as [_|L]; [reflexivity|]. exfalso. apply L. unfold Rdiv. lra.
  - rewrite (Reqb_false speed 0 N). unfold doppler. cbn [f_omega f_wavenumber ffloat ext_mul ext_sub ext_opp ext_add np_abs]. rewrite cos_0.
    replace (1 + - (1 * 1 / g * speed * 1)) with (1 - speed / g) by (unfold Rdiv; ring).
    assert (0 < Rabs (1 - speed / g)) by (apply Rabs_pos_lt; exact Hs).
    unfold get_frequencies. cbn [provided app]. unfold frequencies_from. cbn [ext_eqb is_omega_k andb orb negb].
    rewrite (Reqb_false (Rabs (1 - speed / g)) 0) by lra. cbn [andb orb bind]. unfold two_pi. cbn [ext_mul]. rewrite !np_div_fin by lra. cbn [bind fst snd ext_leb].
    eexists. split; [reflexivity|]. cbn. repeat (split; [reflexivity|]). unfold Rleb. destruct (Rle_dec 0 (1 - speed / g)); reflexivity.
Qed.

Section Witness.
  Variable cell : Type.
  Variable nan : cell.
  Variable cell_add : cell -> cell -> cell.
  Hypothesis nan_add : cell_add nan nan = nan.
  Variable arrange : column -> list value -> list value.
  Hypothesis arranged : forall c l, Permutation l (arrange c l).
  Notation column_of := (column_of cell).
  Notation assemble := (assemble_dataset cell nan cell_add arrange).
  Variable newton : ext -> ext -> result ext.
  Variable immersed : body -> ext -> ext -> result body.

  Definition built (g rho speed : R) (s : res cell) : Prop := generic_problem newton immersed (sea_args g rho speed) None = Ok (s_problem _ s).
  Lemma rows_one k s l rs : s_kind _ s = k -> p_fs (s_problem _ s) = Fin 0 -> p_body (s_problem _ s) = Some (one_panel 0 "buoy" (-1) None) ->
    rows_of cell k l rs -> rows_of cell k (s :: l) ((s, "Surge"%string) :: rs).
  Proof. intros H1 H2 H3 H. exact (rows_use cell k s l rs (one_panel 0 "buoy" (-1) None) (conj H1 H2) H3 H). Qed.

  (** Radiation for one density and diffraction for two densities. *)
  Lemma broadcast_value (x y z : quantity -> string -> cell) : exists s1 s2 s3 a s,
    built 10 1000 0 s1 /\ built 10 1000 0 s2 /\ built 10 1025 0 s3
    /\ s_kind _ s1 = Radiation /\ s_kind _ s2 = Diffraction /\ s_kind _ s3 = Diffraction
    /\ s_cell _ s1 = x /\ s_cell _ s2 = y /\ s_cell _ s3 = z
    /\ assemble [s1; s2; s3] = Ok a
    /\ labelled (a_data _ a) Rho (Num (Fin 1025)) /\ s Rho = Num (Fin 1025)
    /\ sel (a_data _ a) AddedMass s = Ok (x AddedMass "Surge"%string)
    /\ forall rows r, rows_of cell Radiation [s1; s2; s3] rows -> In r rows -> column_of r Rho = Num (Fin 1000).
  Proof.
    destruct (sea_generic newton immersed 10 1000 0) as (p & B1 & C1); [lra|lra|].
    destruct (sea_generic newton immersed 10 1025 0) as (q & B2 & C2); [lra|lra|].
    destruct C1 as (D1 & D2 & D3 & D4 & D5 & D6 & D7 & D8 & _), C2 as (E1 & E2 & E3 & E4 & E5 & E6 & E7 & E8 & _).
    set (s1 := Res cell Radiation p (Some "Surge"%string) x). set (s2 := Res cell Diffraction p None y). set (s3 := Res cell Diffraction q None z).
    exists s1, s2, s3.
    assert (HR : rows_of cell Radiation [s1; s2; s3] [(s1, "Surge"%string)]).
    { apply rows_one; try reflexivity; try assumption. apply rows_skip; [intros [H _]; discriminate|]. apply rows_skip; [intros [H _]; discriminate|]. constructor. }
    assert (HD : rows_of cell Diffraction [s1; s2; s3] [(s2, "Surge"%string); (s3, "Surge"%string)]).
    { apply rows_skip; [intros [H _]; discriminate|]. apply rows_one; try reflexivity; try assumption. apply rows_one; try reflexivity; try assumption. constructor. }
    assert (NC : ~ conflict cell [(s1, "Surge"%string)] [(s2, "Surge"%string); (s3, "Surge"%string)]).
    { intros (c & r & r' & Hc & _ & NV & [<-|[]] & Hr' & N).
      assert (Hq : column_of (s2, "Surge"%string) c = column_of (s3, "Surge"%string) c).
      { destruct (value_eqb (column_of (s2, "Surge"%string) c) (column_of (s3, "Surge"%string) c)) eqn:E; [now apply value_eqb_eq|].
        exfalso. apply NV. exists (s2, "Surge"%string), (s3, "Surge"%string). split; [now left|]. split; [right; now left|].
        intros H. apply (proj2 (value_eqb_eq _ _)) in H. congruence. }
      apply N. transitivity (column_of (s2, "Surge"%string) c).
      - cbn in Hc. repeat destruct Hc as [<-|Hc]; try reflexivity. destruct Hc.
      - destruct Hr' as [<-|[<-|[]]]; [reflexivity|exact Hq]. }
    destruct (proj2 (assemble_accepts cell nan cell_add arrange arranged [s1; s2; s3] _ _ ltac:(discriminate)
      ltac:(intros s Hs; cbn in Hs; intuition (subst; discriminate)) HR HD) NC) as (a & HA).
    assert (NR : Rho <> WaveDirection) by discriminate.
    set (s := fun c => match c with RadiatingDof => Name "Surge" | c => column_of (s3, "Surge"%string) c end).
    exists a, s. repeat (split; [assumption || reflexivity|]).
    destruct (assembled_values cell nan cell_add nan_add arrange arranged Radiation _ a _ ltac:(discriminate) HA HR ltac:(discriminate)) as (dims & DF & DL & DV).
    destruct (assembled_values cell nan cell_add nan_add arrange arranged Diffraction _ a _ ltac:(discriminate) HA HD ltac:(discriminate)) as (dims' & DF' & DL' & DV').
    assert (NV : forall c, ~ varying cell [(s1, "Surge"%string)] c) by (intros c (r & r' & [<-|[]] & [<-|[]] & N); tauto).
    assert (HM : a_main _ a = Omega).
    { destruct (a_main _ a) eqn:E; [reflexivity| | |]; exfalso; revert HA E; unfold assemble_dataset;
      match goal with |- bind ?X _ = _ -> _ => destruct X; [|discriminate] end; cbn [bind]; cbv zeta;
      match goal with |- bind ?X _ = _ -> _ => destruct X; [|discriminate] end; cbn [bind];
      match goal with |- bind ?X _ = _ -> _ => destruct X; [|discriminate] end; cbn [bind];
      intros [= <-]; cbn [a_main map s1 s2 s3 s_problem]; rewrite D4, E4; cbn; discriminate. }
    rewrite HM in *.
    assert (R2 : varying cell [(s2, "Surge"%string); (s3, "Surge"%string)] Rho).
    { exists (s2, "Surge"%string), (s3, "Surge"%string). split; [now left|]. split; [right; now left|]. cbn. rewrite D6, E6. intros [= H]. lra. }
    assert (LR : labelled (a_data _ a) Rho (Num (Fin 1025))).
    { replace (Num (Fin 1025)) with (column_of (s3, "Surge"%string) Rho) by (cbn; now rewrite E6). apply DL'; [right; now left|]. apply DF'. right. split; [cbn; auto|exact R2]. }
    assert (SC : forall c, c <> RadiatingDof -> s c = column_of (s3, "Surge"%string) c) by (intros c N; destruct c; reflexivity || tauto).
    assert (S1 : s COmega = column_of (s1, "Surge"%string) COmega) by (cbn; now rewrite D4, E4).
    split; [exact LR|]. split; [cbn; now rewrite E6|]. split.
    - destruct (DV s) as [V _].
      + intros c Hc. assert (Hc' := Hc). apply DF in Hc'. destruct Hc' as [Hc'|[_ Hc']]; [|exfalso; exact (NV c Hc')].
        assert (s c = column_of (s1, "Surge"%string) c) as ->; [|apply DL; [now left|exact Hc]].
        cbn in Hc'. destruct Hc' as [<-|[<-|[<-|[]]]]; [exact S1|reflexivity|reflexivity].
      + apply (proj1 (V AddedMass (or_introl eq_refl)) (s1, "Surge"%string)). exists [], []. split; [reflexivity|]. split; [|intros ? []].
        intros c Hc. apply DF in Hc. destruct Hc as [Hc'|[_ Hc']]; [|exfalso; exact (NV c Hc')].
        cbn in Hc'. destruct Hc' as [<-|[<-|[<-|[]]]]; [symmetry; exact S1|reflexivity|reflexivity].
    - intros rows r HR' Hr. destruct (assemble_inv cell nan cell_add arrange _ a HA) as (rows0 & E0 & _).
      rewrite (rows_of_eq cell Radiation _ rows rows0 ltac:(discriminate) HR' E0), <- (rows_of_eq cell Radiation _ _ rows0 ltac:(discriminate) HR E0) in Hr.
      destruct Hr as [<-|[]]. cbn. now rewrite D6.
  Qed.

  (** Two gravities: the encounter direction of the second result is replaced by that of the first one. *)
  Lemma direction_value (x y : quantity -> string -> cell) : exists s1 s2 a ds,
    built 10 1000 1 s1 /\ built (/ 10) 1000 1 s2 /\ s_kind _ s1 = Diffraction /\ s_kind _ s2 = Diffraction /\ s_cell _ s1 = x /\ s_cell _ s2 = y
    /\ assemble [s1; s2] = Ok a /\ In (EncounterWaveDirection, ds) (a_coords _ a)
    /\ let r := (s2, "Surge"%string) in
       recorded cell [s1; s2] r /\ column_of r EncounterWaveDirection = Num (Fin (0 + PI)) /\ sel ds CoordinateValue (column_of r) = Ok (Num (Fin 0)).
  Proof.
    destruct (sea_generic newton immersed 10 1000 1) as (p & B1 & C1); [lra|lra|].
    destruct (sea_generic newton immersed (/ 10) 1000 1) as (q & B2 & C2); [lra| |].
    { replace (1 / / 10) with 10 by field. lra. }
    destruct C1 as (D1 & D2 & D3 & D4 & D5 & D6 & D7 & D8 & D9), C2 as (E1 & E2 & E3 & E4 & E5 & E6 & E7 & E8 & E9).
    destruct (Rle_dec 0 (1 - 1 / 10)) as [_|N]; [|exfalso; lra].
    destruct (Rle_dec 0 (1 - 1 / / 10)) as [N|_]; [exfalso; replace (1 / / 10) with 10 in N by field; lra|].
    set (s1 := Res cell Diffraction p None x). set (s2 := Res cell Diffraction q None y).
    assert (HD : rows_of cell Diffraction [s1; s2] [(s1, "Surge"%string); (s2, "Surge"%string)]).
    { apply rows_one; try reflexivity; try assumption. apply rows_one; try reflexivity; try assumption. constructor. }
    assert (HR : rows_of cell Radiation [s1; s2] []).
    { apply rows_skip; [intros [H _]; discriminate|]. apply rows_skip; [intros [H _]; discriminate|]. constructor. }
    destruct (proj2 (assemble_accepts cell nan cell_add arrange arranged [s1; s2] _ _ ltac:(discriminate)
      ltac:(intros s Hs; cbn in Hs; intuition (subst; discriminate)) HR HD)) as (a & HA); [intros (c & r & r' & _ & _ & _ & [] & _)|].
    assert (HM : a_main _ a = Omega).
    { destruct (a_main _ a) eqn:E; [reflexivity| | |]; exfalso; revert HA E; unfold assemble_dataset;
      match goal with |- bind ?X _ = _ -> _ => destruct X; [|discriminate] end; cbn [bind]; cbv zeta;
      match goal with |- bind ?X _ = _ -> _ => destruct X; [|discriminate] end; cbn [bind];
      match goal with |- bind ?X _ = _ -> _ => destruct X; [|discriminate] end; cbn [bind];
      intros [= <-]; cbn [a_main map s1 s2 s_problem]; rewrite D4, E4; cbn; discriminate. }
    destruct (one_class_coordinate cell nan cell_add arrange arranged Diffraction [s1; s2] a _ EncounterWaveDirection _ (s2, "Surge"%string) (s1, "Surge"%string)
      ltac:(discriminate) HA ltac:(intros s Hs; cbn in Hs; intuition (subst; reflexivity)) HD (depends_direction _)) as (ds & I1 & I2).
    - right. now left.
    - intros _. exists (s1, "Surge"%string). split; [now left|]. cbn. rewrite D5. lra.
    - exists [], [(s2, "Surge"%string)]. split; [reflexivity|]. split; [|intros ? []]. rewrite HM. intros c Hc. cbn in Hc.
      destruct Hc as [<-|[<-|[<-|[]]]]; cbn; [now rewrite D5, E5|now rewrite D8, E8|now rewrite D4, E4].
    - exists s1, s2, a, ds. repeat (split; [assumption || reflexivity|]). cbv zeta. split; [|split].
      + exists Diffraction, [(s1, "Surge"%string); (s2, "Surge"%string)]. split; [discriminate|]. split; [exact HD|right; now left].
      + cbn. now rewrite E9.
      + rewrite I2. cbn. now rewrite D9.
  Qed.
End Witness.
