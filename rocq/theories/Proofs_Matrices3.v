(** Proofs about the bare matrices of a list of results: the labels of the lines and of the columns. *)
From Coq Require Import Reals String Ascii List Bool Arith Lia Permutation.
From Verif Require Import Model_Base Model_Problem Spec_Problem Model_Solver Model_Dataset Spec_Dataset Proofs_Dataset Proofs_Dataset2 Model_Matrices Spec_Matrices Proofs_Matrices Proofs_Matrices2.
Import ListNotations.
Open Scope nat_scope.

Section Labels.
  Variable cell : Type.
  Variable nan : cell.
  Variable cell_add : cell -> cell -> cell.
  Hypothesis nan_add : cell_add nan nan = nan.
  Variable arrange : column -> list value -> list value.
  Hypothesis arranged : forall c l, Permutation l (arrange c l).
  Notation assemble := (assemble_dataset cell nan cell_add arrange).
  Notation matrices := (assemble_matrices cell nan cell_add arrange).
  Notation column_of := (column_of cell).

  (** Every label comes from a row. *)
  Definition origin (O : column -> value -> Prop) (ds : dset quantity cell) : Prop := forall c v, In v (labels_in (d_coords _ _ ds) c) -> O c v.
  Lemma drop_in index rows : forall seen r, In r (drop_duplicates cell index seen rows) -> In r rows.
  Proof. induction rows as [|r0 rows IH]; intros seen r; [intros []|]. cbn [drop_duplicates]. destruct (existsb _ _); [intros H; right; eauto|]. intros [->|H]; [now left|right; eauto]. Qed.
  Lemma frame_origin k t rows : origin (fun c v => In c (other_dims k ++ main_dims k t) /\ exists r, In r rows /\ column_of r c = v) (frame cell nan arrange k t rows).
  Proof.
    intros c v. destruct (labels_or (d_coords _ _ (frame cell nan arrange k t rows)) c) as [->|H]; [intros []|]. revert H. generalize (labels_in (d_coords _ _ (frame cell nan arrange k t rows)) c).
    intros l H Hv. unfold frame, from_dataframe in H. cbn [d_coords] in H. apply filter_In in H. destruct H as [H _]. apply in_map_iff in H. destruct H as (c' & E & Hc). injection E as <- <-.
    split; [exact Hc|]. apply (Permutation_in _ (Permutation_sym (arranged c' _))) in Hv. apply (proj1 (unique_In _ _)) in Hv. apply in_map_iff in Hv.
    destruct Hv as (r & E & Hr). exists r. split; [eapply drop_in; exact Hr|exact E].
  Qed.
  Lemma merge_origin (a b m : dset quantity cell) O : xmerge arrange nan a b = Ok m -> origin O a -> origin O b -> origin O m.
  Proof.
    intros E Ta Tb c v. destruct (labels_or (d_coords _ _ m) c) as [->|H]; [intros []|]. revert H. generalize (labels_in (d_coords _ _ m) c). intros l H.
    rewrite (merge_coords_of arrange nan a b m E) in H. apply in_map_iff in H. destruct H as (c' & X & _). injection X as <- <-. unfold merge_labels.
    destruct (negb (mem c' (map fst (d_coords _ _ a)))); [apply Tb|]. destruct (negb (mem c' (map fst (d_coords _ _ b)))); [apply Ta|].
    destruct (list_eqb _ _); [apply Ta|]. intros Hv. apply (Permutation_in _ (Permutation_sym (arranged c' _))) in Hv. apply (proj1 (unique_In _ _)) in Hv. apply in_app_or in Hv.
    destruct Hv as [Hv|Hv]; [now apply Ta|now apply Tb].
  Qed.
  Lemma origin_weak (O O' : column -> value -> Prop) ds : (forall c v, O c v -> O' c v) -> origin O ds -> origin O' ds.
  Proof. intros H HO c v Hv. apply H. now apply HO. Qed.
  Lemma ticks_origin results a rad dif : assemble results = Ok a -> rows_of cell Radiation results rad -> rows_of cell Diffraction results dif ->
    forall c v, In v (ticks cell a c) ->
      (In c (other_dims Radiation ++ main_dims Radiation (a_main _ a)) /\ exists r, In r rad /\ column_of r c = v)
      \/ (In c (other_dims Diffraction ++ main_dims Diffraction (a_main _ a)) /\ exists r, In r dif /\ column_of r c = v).
  Proof.
    intros HA HR HD. destruct (assemble_inv cell nan cell_add arrange results a HA) as (rows0 & ER & ds1 & H1 & H2).
    assert (RK := rows_of_eq cell Radiation results rad rows0 ltac:(discriminate) HR ER). assert (DK := rows_of_eq cell Diffraction results dif rows0 ltac:(discriminate) HD ER).
    set (rad0 := filter (is_kind cell Radiation) _) in *. set (dif0 := filter (is_kind cell Diffraction) _) in *.
    assert (E1 : rad0 = rad) by (symmetry; exact RK). assert (E2 : dif0 = dif) by (symmetry; exact DK). rewrite E1 in H1. rewrite E2 in H2.
    set (O := fun c v => (In c (other_dims Radiation ++ main_dims Radiation (a_main _ a)) /\ exists r, In r rad /\ column_of r c = v)
      \/ (In c (other_dims Diffraction ++ main_dims Diffraction (a_main _ a)) /\ exists r, In r dif /\ column_of r c = v)).
    assert (OE : origin O (@empty_set quantity cell)) by (intros c v []).
    assert (O1 : origin O ds1).
    { destruct H1 as [[_ ->]|[_ H1]]; [exact OE|]. eapply merge_origin; [exact H1|exact OE|]. eapply origin_weak; [|apply frame_origin]. intros c v H. now left. }
    assert (O2 : origin O (a_data _ a)); [|exact O2].
    destruct H2 as [[_ ->]|(_ & ds2 & H2 & ->)]; [exact O1|]. unfold origin. rewrite excitation_coords.
    eapply merge_origin; [exact H2|exact O1|]. eapply origin_weak; [|apply frame_origin]. intros c v H. now right.
  Qed.

  Lemma ticks_nodup results a : assemble results = Ok a -> forall c, NoDup (ticks cell a c).
  Proof.
    intros HA c. destruct (assemble_inv cell nan cell_add arrange results a HA) as (rows0 & ER & ds1 & H1 & H2).
    assert (TE : tidy (@empty_set quantity cell)) by (intros c'; constructor).
    assert (T1 : tidy ds1) by (destruct H1 as [[_ ->]|[_ H1]]; [exact TE|]; eapply merge_tidy; [exact arranged|exact H1|exact TE|apply frame_tidy; exact arranged]).
    unfold ticks. destruct H2 as [[_ ->]|(_ & ds2 & H2 & ->)]; [apply T1|]. rewrite excitation_coords.
    assert (T2 : tidy ds2) by (eapply merge_tidy; [exact arranged|exact H2|exact T1|apply frame_tidy; exact arranged]). apply T2.
  Qed.

  (** The labels of a coordinate which every result of a class has. *)
  Lemma ticks_have k results a rows : sure k -> assemble results = Ok a -> rows_of cell k results rows -> forall c r, In c (main_dims k (a_main _ a)) -> In r rows -> In (column_of r c) (ticks cell a c).
  Proof.
    intros HK HA HR c r Hc Hr. assert (HN : rows <> []) by (intros ->; destruct Hr).
    destruct (assembled_values cell nan cell_add nan_add arrange arranged k results a rows HK HA HR HN) as (dims & DF & DL & _).
    assert (L : labelled (a_data _ a) c (column_of r c)) by (apply DL; [exact Hr|]; apply DF; now left).
    apply labelled_in in L; [apply L|]. exact (good_of cell nan cell_add arrange results a HA).
  Qed.
  Lemma same_one (l : list value) w : NoDup l -> l <> [] -> (forall v, In v l -> v = w) -> l = [w].
  Proof.
    intros N E H. destruct l as [|x [|y l]]; [contradiction| |].
    - now rewrite (H x (or_introl eq_refl)).
    - exfalso. inversion N as [|? ? N1 _]; subst. apply N1. left. rewrite (H x), (H y); cbn; tauto.
  Qed.

  Definition all_rows (rad dif : list (row cell)) c v : Prop := exists r, In r (rad ++ dif) /\ column_of r c = v.
  Lemma influenced_ticks results a rad dif : assemble results = Ok a -> rows_of cell Radiation results rad -> rows_of cell Diffraction results dif ->
    forall e, In e (ticks cell a InfluencedDof) <-> exists r, In r (rad ++ dif) /\ column_of r InfluencedDof = e.
  Proof.
    intros HA HR HD e. split.
    - intros H. apply (ticks_origin results a rad dif HA HR HD) in H. destruct H as [(_ & r & Hr & E)|(_ & r & Hr & E)]; exists r; (split; [apply in_or_app; tauto|exact E]).
    - intros (r & Hr & <-). apply in_app_or in Hr. destruct Hr as [Hr|Hr].
      + eapply (ticks_have Radiation); [discriminate|exact HA|exact HR| |exact Hr]. destruct (a_main _ a); cbn; tauto.
      + eapply (ticks_have Diffraction); [discriminate|exact HA|exact HD| |exact Hr]. destruct (a_main _ a); cbn; tauto.
  Qed.
  Lemma radiating_ticks results a rad dif : assemble results = Ok a -> rows_of cell Radiation results rad -> rows_of cell Diffraction results dif ->
    forall d, In d (ticks cell a RadiatingDof) <-> exists r, In r rad /\ column_of r RadiatingDof = d.
  Proof.
    intros HA HR HD d. split.
    - intros H. apply (ticks_origin results a rad dif HA HR HD) in H. destruct H as [(_ & r & Hr & E)|(Hc & _)]; [eauto|]. exfalso. destruct (a_main _ a); cbn in Hc; intuition discriminate.
    - intros (r & Hr & <-). eapply (ticks_have Radiation); [discriminate|exact HA|exact HR| |exact Hr]. destruct (a_main _ a); cbn; tauto.
  Qed.
  Lemma frequency_ticks results a rad dif : assemble results = Ok a -> rows_of cell Radiation results rad -> rows_of cell Diffraction results dif ->
    forall w, In w (ticks cell a (frequency_of cell a)) <-> exists r, In r (rad ++ dif) /\ column_of r (frequency_of cell a) = w.
  Proof.
    intros HA HR HD e. split.
    - intros H. apply (ticks_origin results a rad dif HA HR HD) in H. destruct H as [(_ & r & Hr & E)|(_ & r & Hr & E)]; exists r; (split; [apply in_or_app; tauto|exact E]).
    - intros (r & Hr & <-). apply in_app_or in Hr. unfold frequency_of. destruct Hr as [Hr|Hr].
      + eapply (ticks_have Radiation); [discriminate|exact HA|exact HR| |exact Hr]. destruct (a_main _ a); cbn; tauto.
      + eapply (ticks_have Diffraction); [discriminate|exact HA|exact HD| |exact Hr]. destruct (a_main _ a); cbn; tauto.
  Qed.
  (** The wave directions are those of the diffraction results, unless radiation results differ by their wave direction. *)
  Lemma direction_ticks results a rad dif : assemble results = Ok a -> rows_of cell Radiation results rad -> rows_of cell Diffraction results dif ->
    forall b, (exists r, In r dif /\ column_of r WaveDirection = b) -> In b (ticks cell a WaveDirection).
  Proof. intros HA HR HD b (r & Hr & <-). eapply (ticks_have Diffraction); [discriminate|exact HA|exact HD| |exact Hr]. destruct (a_main _ a); cbn; tauto. Qed.

  Lemma some_ticks {T} (P : T -> Prop) (l : list T) x : (forall y, In y l <-> P y) -> P x -> l <> [].
  Proof. intros H Hx ->. apply H in Hx. destruct Hx. Qed.

  (** ** The theorems *)
  Definition same (rows : list (row cell)) c w : Prop := forall r, In r rows -> column_of r c = w.
  Lemma one_frequency results a rad dif w : assemble results = Ok a -> rows_of cell Radiation results rad -> rows_of cell Diffraction results dif -> rad ++ dif <> [] ->
    same (rad ++ dif) (frequency_of cell a) w -> ticks cell a (frequency_of cell a) = [w].
  Proof.
    intros HA HR HD HN Hs. assert (FT := frequency_ticks results a rad dif HA HR HD). apply same_one.
    - eapply ticks_nodup; exact HA.
    - destruct (rad ++ dif) as [|r0 l]; [contradiction|]. intros E. assert (X : In (column_of r0 (frequency_of cell a)) []); [|destruct X]. rewrite <- E. apply FT. exists r0. split; [now left|reflexivity].
    - intros v Hv. apply FT in Hv. destruct Hv as (r & Hr & <-). now apply Hs.
  Qed.
  Lemma one_dof results a rad dif : assemble results = Ok a -> rows_of cell Radiation results rad -> rows_of cell Diffraction results dif -> rad <> [] ->
    (forall r, In r rad -> exists r', In r' (rad ++ dif) /\ column_of r' InfluencedDof = column_of r RadiatingDof) ->
    length (ticks cell a InfluencedDof) = 1 -> length (ticks cell a RadiatingDof) = 1.
  Proof.
    intros HA HR HD HN Hs E1. destruct (one_label (ticks cell a InfluencedDof) E1) as (e & Ee).
    assert (RT := radiating_ticks results a rad dif HA HR HD). assert (IT := influenced_ticks results a rad dif HA HR HD).
    rewrite (same_one (ticks cell a RadiatingDof) e); [reflexivity|eapply ticks_nodup; exact HA| |].
    - destruct rad as [|r0 l]; [contradiction|]. eapply (some_ticks _ _ (column_of r0 RadiatingDof)); [exact RT|]. exists r0. split; [now left|reflexivity].
    - intros v Hv. apply RT in Hv. destruct Hv as (r & Hr & <-). destruct (Hs r Hr) as (r' & Hr' & <-).
      assert (X : In (column_of r' InfluencedDof) (ticks cell a InfluencedDof)) by (apply IT; eauto). rewrite Ee in X. destruct X as [X|[]]. now symmetry.
  Qed.

  Lemma matrices_square results a rad dif w : assemble results = Ok a -> rows_of cell Radiation results rad -> rows_of cell Diffraction results dif -> rad <> [] ->
    same_conditions cell Radiation rad -> same (rad ++ dif) (frequency_of cell a) w ->
    (forall r, In r rad -> exists r', In r' (rad ++ dif) /\ column_of r' InfluencedDof = column_of r RadiatingDof) ->
    exists A B F, matrices results = Ok (Some A, Some B, F)
      /\ table A (ticks cell a RadiatingDof) (ticks cell a InfluencedDof)
           (fun d e => coefficient cell nan rad [(frequency_of cell a, w); (RadiatingDof, d); (InfluencedDof, e)] (fun r => cell_of cell r AddedMass))
      /\ table B (ticks cell a RadiatingDof) (ticks cell a InfluencedDof)
           (fun d e => coefficient cell nan rad [(frequency_of cell a, w); (RadiatingDof, d); (InfluencedDof, e)] (fun r => cell_of cell r RadiationDamping)).
  Proof.
    intros HA HR HD HN HV Hs Hd. assert (ET := one_frequency results a rad dif w HA HR HD ltac:(destruct rad; [contradiction|discriminate]) Hs).
    assert (OD := one_dof results a rad dif HA HR HD HN Hd).
    destruct (radiation_square cell nan cell_add nan_add arrange arranged results a rad AddedMass HA HR HN HV (or_introl eq_refl) w ET OD) as (A & EA & SA & FA).
    destruct (radiation_square cell nan cell_add nan_add arrange arranged results a rad RadiationDamping HA HR HN HV (or_intror eq_refl) w ET OD) as (B & EB & SB & FB).
    exists A, B. eexists. rewrite (matrices_of cell nan cell_add arrange results a HA), EA, EB. split; [reflexivity|].
    split; (split; [assumption|]); assumption.
  Qed.
  Lemma matrices_line results a rad dif d : assemble results = Ok a -> rows_of cell Radiation results rad -> rows_of cell Diffraction results dif -> rad <> [] ->
    same_conditions cell Radiation rad -> same rad RadiatingDof d -> same (rad ++ dif) InfluencedDof d ->
    exists A B F, matrices results = Ok (Some A, Some B, F)
      /\ table A [d] (ticks cell a (frequency_of cell a))
           (fun d w => coefficient cell nan rad [(frequency_of cell a, w); (RadiatingDof, d); (InfluencedDof, d)] (fun r => cell_of cell r AddedMass))
      /\ table B [d] (ticks cell a (frequency_of cell a))
           (fun d w => coefficient cell nan rad [(frequency_of cell a, w); (RadiatingDof, d); (InfluencedDof, d)] (fun r => cell_of cell r RadiationDamping)).
  Proof.
    intros HA HR HD HN HV Hr Hi.
    assert (RT := radiating_ticks results a rad dif HA HR HD). assert (IT := influenced_ticks results a rad dif HA HR HD).
    assert (E1 : ticks cell a RadiatingDof = [d]).
    { apply same_one; [eapply ticks_nodup; exact HA| |intros v Hv; apply RT in Hv; destruct Hv as (r & Hr' & <-); now apply Hr].
      destruct rad as [|r0 l]; [contradiction|]. eapply (some_ticks _ _ (column_of r0 RadiatingDof)); [exact RT|]. exists r0. split; [now left|reflexivity]. }
    assert (E2 : ticks cell a InfluencedDof = [d]).
    { apply same_one; [eapply ticks_nodup; exact HA| |intros v Hv; apply IT in Hv; destruct Hv as (r & Hr' & <-); now apply Hi].
      destruct rad as [|r0 l]; [contradiction|]. eapply (some_ticks _ _ (column_of r0 InfluencedDof)); [exact IT|]. exists r0. split; [now left|reflexivity]. }
    destruct (radiation_line cell nan cell_add nan_add arrange arranged results a rad AddedMass HA HR HN HV (or_introl eq_refl) d d E1 E2) as (A & EA & SA & FA).
    destruct (radiation_line cell nan cell_add nan_add arrange arranged results a rad RadiationDamping HA HR HN HV (or_intror eq_refl) d d E1 E2) as (B & EB & SB & FB).
    exists A, B. eexists. rewrite (matrices_of cell nan cell_add arrange results a HA), EA, EB. split; [reflexivity|].
    split; (split; [assumption|]); intros i j d' e Hi' Hj; (destruct i as [|i]; [|destruct i; discriminate]); injection Hi' as <-; [now apply FA|now apply FB].
  Qed.
  Lemma matrices_force results a rad dif w b : assemble results = Ok a -> rows_of cell Radiation results rad -> rows_of cell Diffraction results dif -> dif <> [] ->
    same_conditions cell Radiation rad -> same_conditions cell Diffraction dif -> same (rad ++ dif) (frequency_of cell a) w -> same (rad ++ dif) WaveDirection b ->
    exists A B F, matrices results = Ok (A, B, Some F)
      /\ vector F (ticks cell a InfluencedDof)
           (fun e => coefficient cell nan dif [(frequency_of cell a, w); (WaveDirection, b); (InfluencedDof, e)]
                       (fun r => cell_add (cell_of cell r FroudeKrylovForce) (cell_of cell r DiffractionForce))).
  Proof.
    intros HA HR HD HN HV HV2 Hs Hb. assert (ET := one_frequency results a rad dif w HA HR HD ltac:(destruct rad; [exact HN|discriminate]) Hs).
    assert (EB : ticks cell a WaveDirection = [b]).
    { apply same_one; [eapply ticks_nodup; exact HA| |].
      - destruct dif as [|r0 l]; [contradiction|]. intros E. assert (X : In (column_of r0 WaveDirection) []); [|destruct X]. rewrite <- E.
        apply (direction_ticks results a rad _ HA HR HD). exists r0. split; [now left|reflexivity].
      - intros v Hv. apply (ticks_origin results a rad dif HA HR HD) in Hv. destruct Hv as [(_ & r & Hr & <-)|(_ & r & Hr & <-)]; apply Hb; apply in_or_app; tauto. }
    destruct (excitation_line cell nan cell_add nan_add arrange arranged results a dif HA HD HN HV2 w b ET EB) as (F & EF & SF & FF).
    eexists. eexists. exists F. rewrite (matrices_of cell nan cell_add arrange results a HA), EF. split; [reflexivity|]. split; assumption.
  Qed.
  Lemma matrices_missing results : (forall a, assemble results = Ok a -> exists A B F, matrices results = Ok (A, B, F)
      /\ (rows_of cell Radiation results [] -> A = None /\ B = None) /\ (rows_of cell Diffraction results [] -> F = None))
    /\ forall x, assemble results = Err x -> matrices results = Err x.
  Proof.
    split.
    - intros a HA. rewrite (matrices_of cell nan cell_add arrange results a HA). do 3 eexists. split; [reflexivity|]. split.
      + intros HR. rewrite (no_radiation cell nan cell_add arrange results a AddedMass HA HR), (no_radiation cell nan cell_add arrange results a RadiationDamping HA HR) by tauto. split; reflexivity.
      + intros HD. now rewrite (no_excitation cell nan cell_add arrange results a HA HD).
    - intros x E. unfold assemble_matrices. now rewrite E.
  Qed.
End Labels.
