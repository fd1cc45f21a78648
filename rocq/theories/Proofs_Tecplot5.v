(** The files of results: diffraction results that cannot be written. *)
From Coq Require Import Reals String Ascii.
From Coq Require Import List Bool ZArith Arith Lia Permutation.
From Verif Require Import Spec_NemohFiles Model_Base Model_Geometry Model_Problem Model_Solver Model_Text Model_Files Model_Nemoh Model_Dataset Spec_Dataset Model_Matrices Spec_Matrices
  Proofs_Dataset Proofs_Dataset2 Proofs_Dataset3 Proofs_Matrices Proofs_Matrices2 Proofs_Matrices3 Proofs_Text Spec_Tecplot Model_Tecplot Proofs_Tecplot Proofs_Tecplot2 Proofs_Tecplot3.
Import ListNotations.
Open Scope nat_scope.

Section Files.
  Variable cell : Type.
  Variable nan : cell.
  Variable cell_add : cell -> cell -> cell.
  Hypothesis nan_add : cell_add nan nan = nan.
  Variable arrange : column -> list value -> list value.
  Hypothesis arranged : forall c l, Permutation l (arrange c l).
  Variable show_cell : cell -> text.
  Variable show_freq : value -> text.
  Variable show_dir : value -> text.
  Variable modulus : cell -> cell.
  Variable argument : cell -> cell.
  Notation assemble := (assemble_dataset cell nan cell_add arrange).
  Notation ticks := (ticks cell).
  Notation picked := (picked cell).
  Notation radiation_items := (radiation_items cell show_cell show_freq).
  Notation excitation_items := (excitation_items cell show_cell show_freq show_dir modulus argument).
  Notation write := (write_tecplot cell cell_add show_cell show_freq show_dir modulus argument).

  (** The dimensions of the excitation force are those of its terms. *)
  Lemma excitation_dims results a dif : assemble results = Ok a -> rows_of cell Diffraction results dif -> dif <> [] ->
    exists ds' dims xs, set_excitation cell cell_add (a_data _ a) = Ok ds' /\ d_coords _ _ ds' = d_coords _ _ (a_data _ a)
      /\ find_var ExcitationForce ds' = Some (dims, xs) /\ dims_for cell Diffraction (a_main _ a) dif dims.
  Proof.
    intros HA HR HN. destruct (some_var cell nan cell_add arrange arranged Diffraction results a dif ltac:(discriminate) HA HR HN FroudeKrylovForce) as (dims & xs & X & DF); [cbn; tauto|].
    destruct (some_var cell nan cell_add arrange arranged Diffraction results a dif ltac:(discriminate) HA HR HN DiffractionForce) as (dims' & ys & Y & _); [cbn; tauto|].
    unfold set_excitation. rewrite X, Y. do 3 eexists. split; [reflexivity|]. split; [reflexivity|]. split; [|exact DF].
    unfold find_var. cbn [d_vars]. rewrite find_app_case, (find_removed cell). reflexivity.
  Qed.
  Lemma tecplot_period_dif results a dif dir d : assemble results = Ok a -> a_main _ a <> Omega -> rows_of cell Radiation results [] -> rows_of cell Diffraction results dif -> dif <> [] ->
    exists d', write dir (a_data _ a) d = (d', Err KeyError).
  Proof.
    intros HA HM HR HD HN. unfold write_tecplot.
    rewrite (has_none cell AddedMass); [|apply (no_var cell nan cell_add arrange Radiation results a); cbn; auto; discriminate].
    destruct (some_var cell nan cell_add arrange arranged Diffraction results a dif ltac:(discriminate) HA HD HN DiffractionForce) as (dims & xs & X & _); [cbn; tauto|].
    rewrite (has_some cell _ _ _ _ X). destruct (excitation_dims results a dif HA HD HN) as (ds' & dims' & ys & E & C & _). rewrite E. unfold Model_Tecplot.excitation_items.
    rewrite !(loop_same cell (a_data _ a) ds' _ C).
    destruct (loop_ok cell nan cell_add nan_add arrange arranged Diffraction results a dif ltac:(discriminate) HA HD HN InfluencedDof) as [L1 _]; [destruct (a_main _ a); cbn; tauto|].
    destruct (loop_ok cell nan cell_add nan_add arrange arranged Diffraction results a dif ltac:(discriminate) HA HD HN WaveDirection) as [L2 N2]; [destruct (a_main _ a); cbn; tauto|].
    rewrite L1, L2, (no_omega cell nan cell_add arrange results a HA HM). destruct (ticks a WaveDirection) as [|b l] eqn:El; [contradiction|]. set (n := length (ticks a InfluencedDof) + 1).
    assert (ED : repeat dots n = map Ok (repeat (line (lit "...")) n)) by (now rewrite map_repeat). rewrite ED. cbn [flat_map app].
    change (Ok (line (lit "angle=" ++ show_dir b)) :: ?r) with (map Ok [line (lit "angle=" ++ show_dir b)] ++ r). rewrite app_assoc, <- map_app, emit_err. eauto.
  Qed.
  Hypothesis cell_word : forall x, one_word (show_cell x).
  Hypothesis freq_word : forall v, one_word (show_freq v).
  Lemma tecplot_several_dif results a rad dif dir d c0 : assemble results = Ok a -> a_main _ a = Omega -> rows_of cell Radiation results rad -> rows_of cell Diffraction results dif ->
    same_conditions cell Radiation rad -> In c0 (other_dims Diffraction) -> varying cell dif c0 -> (forall x, In (Name x) (ticks a RadiatingDof) -> no_newline (lit x)) ->
    exists d', write dir (a_data _ a) d = (d', Err TypeError).
  Proof.
    intros HA HM HR HD HV Hc0 Hv HL. assert (HN : dif <> []) by (destruct Hv as (r & _ & H & _); intros ->; destruct H).
    assert (S1 : exists d1, (if has_var cell AddedMass (a_data _ a) then let '(t, e) := emit (radiation_items (a_data _ a)) in (write_file (path_join dir radiation_name) t d, e) else (d, None)) = (d1, None)).
    { assert (CR : rad = [] \/ rad <> []) by (destruct rad; [now left|right; discriminate]). destruct CR as [E|N].
      - rewrite E in HR. rewrite (has_none cell AddedMass); [eauto|]. apply (no_var cell nan cell_add arrange Radiation results a); cbn; auto; discriminate.
      - destruct (some_var cell nan cell_add arrange arranged Radiation results a rad ltac:(discriminate) HA HR N AddedMass) as (dims & xs & X & _); [cbn; tauto|].
        rewrite (has_some cell _ _ _ _ X).
        destruct (radiation_text cell nan cell_add nan_add arrange arranged show_cell show_freq modulus argument cell_word freq_word results a rad HA HM HR N HV HL) as (t & A & B & E & _). rewrite E. eauto. }
    destruct S1 as (d1 & S1). unfold write_tecplot. rewrite S1.
    destruct (some_var cell nan cell_add arrange arranged Diffraction results a dif ltac:(discriminate) HA HD HN DiffractionForce) as (dims & xs & X & _); [cbn; tauto|].
    rewrite (has_some cell _ _ _ _ X). destruct (excitation_dims results a dif HA HD HN) as (ds' & dims' & ys & E & C & Y & DF). rewrite E. unfold Model_Tecplot.excitation_items.
    rewrite !(loop_same cell (a_data _ a) ds' _ C).
    assert (L : forall c, In c [COmega; WaveDirection; InfluencedDof] -> loop_labels cell (a_data _ a) c = Ok (ticks a c) /\ ticks a c <> []).
    { intros c Hc. apply (loop_ok cell nan cell_add nan_add arrange arranged Diffraction results a dif); auto; [discriminate|]. rewrite HM. exact Hc. }
    destruct (L COmega) as [L1 N1]; [cbn; tauto|]. destruct (L WaveDirection) as [L2 N2]; [cbn; tauto|]. destruct (L InfluencedDof) as [L3 N3]; [cbn; tauto|]. rewrite L1, L2, L3.
    assert (PE : forall o c e, picked ds' ExcitationForce [(COmega, o); (WaveDirection, c); (InfluencedDof, e)] = Err TypeError).
    { intros o c e. unfold Model_Tecplot.picked. rewrite Y. rewrite HM in DF.
      assert (M1 : forallb (fun cv => mem (fst cv) dims') [(COmega, o); (WaveDirection, c); (InfluencedDof, e)] = true).
      { apply forallb_forall. intros [c' v] Hc'. apply mem_In. apply DF. left. cbn [fst]. destruct Hc' as [Ec|[Ec|[Ec|[]]]]; injection Ec as <- <-; cbn; tauto. }
      rewrite M1. cbn [negb]. destruct (forallb _ dims') eqn:M2; [|reflexivity]. exfalso. rewrite forallb_forall in M2.
      assert (H := M2 c0 (proj2 (DF c0) (or_intror (conj Hc0 Hv)))). apply mem_In in H. cbn in H. cbn in Hc0. intuition (subst; discriminate). }
    destruct (ticks a COmega) as [|o l1] eqn:E1; [contradiction|]. destruct (ticks a WaveDirection) as [|b l2] eqn:E2; [contradiction|]. destruct (ticks a InfluencedDof) as [|e l3] eqn:E3; [contradiction|].
    set (n := length (e :: l3) + 1). assert (ED : repeat dots n = map Ok (repeat (line (lit "...")) n)) by (now rewrite map_repeat).
    match goal with |- context [emit (_ ++ flat_map ?f _)] => set (block := f) end.
    assert (EF : exists rest, flat_map block (b :: l2) = map Ok [line (lit "angle=" ++ show_dir b); lit "  " ++ show_freq o ++ lit "  "] ++ Err TypeError :: rest).
    { cbn [flat_map]. unfold block at 1. cbn [flat_map]. rewrite PE. cbn [shown bind app map]. eexists. reflexivity. }
    destruct EF as (rest & EF). rewrite ED, EF, app_assoc, <- map_app, emit_err. eauto.
  Qed.
End Files.
