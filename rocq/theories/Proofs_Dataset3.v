(** When datasets can be assembled, and their other coordinates. *)
From Coq Require Import Reals String List Bool Arith Permutation Lra Lia.
From Verif Require Import Model_Base Model_Mesh Proofs_Mesh Model_Problem Spec_Problem Model_Solver Proofs_Problem Proofs_Problem2 Model_Dataset Spec_Dataset Proofs_Dataset Proofs_Dataset2.
Import ListNotations.
Open Scope nat_scope.

Section Assemble.
  Variable cell : Type.
  Variable nan : cell.
  Variable cell_add : cell -> cell -> cell.
  Variable arrange : column -> list value -> list value.
  Hypothesis arranged : forall c l, Permutation l (arrange c l).
  Notation column_of := (column_of cell).
  Notation assemble := (assemble_dataset cell nan cell_add arrange).

  Section Frame.
    Context {X : Type} (get : row cell -> quantity -> X) (missing : X).
    Variables (rows : list (row cell)) (vars : list quantity) (dims optional : list column).
    Hypothesis some : rows <> [].
    Hypothesis apart : forall c, In c dims -> ~ In c optional.
    Let ds := from_dataframe cell arrange get missing rows vars dims optional.

    Lemma frame_dims c : In c (map fst (d_coords _ _ ds)) <-> In c dims \/ In c optional /\ varying cell rows c.
    Proof.
      rewrite <- (kept_In cell arrange arranged rows dims optional c some apart).
      unfold ds, from_dataframe. cbn [d_coords]. rewrite in_map_iff. split.
      - intros ([c' l] & <- & H). apply filter_In in H. destruct H as [H1 H2]. apply in_map_iff in H1. destruct H1 as (c0 & [= <- _] & H1).
        apply filter_In. split; [exact H1|exact H2].
      - intros H. apply filter_In in H. destruct H as [H1 H2].
        exists (c, arrange c (unique (map (fun r => column_of r c) (drop_duplicates cell (optional ++ dims) [] rows)))). split; [reflexivity|].
        apply filter_In. split; [apply in_map_iff; exists c; auto|exact H2].
    Qed.
    Lemma frame_scalars c v : In (c, v) (d_scalars _ _ ds) <-> In c optional /\ ~ varying cell rows c /\ exists r, In r rows /\ column_of r c = v.
    Proof.
      unfold ds, from_dataframe. cbn [d_scalars]. rewrite in_map_iff.
      set (coords := map _ (optional ++ dims)).
      assert (W : forall c, In c (optional ++ dims) -> (mem c optional && Nat.eqb (length (labels_in coords c)) 1)%bool = true ->
        exists w, labels_in coords c = [w] /\ forall r, In r rows -> column_of r c = w).
      { intros c' Hc Hs. apply andb_true_iff in Hs. destruct Hs as [_ Hs]. apply Nat.eqb_eq in Hs.
        assert (EL : labels_in coords c' = arrange c' (unique (map (fun r => column_of r c') (drop_duplicates cell (optional ++ dims) [] rows)))).
        { unfold coords. exact (labels_in_map (fun c => arrange c (unique (map (fun r => column_of r c) (drop_duplicates cell (optional ++ dims) [] rows)))) _ c' Hc). }
        destruct (labels_in coords c') as [|w [|]] eqn:E; try discriminate Hs. exists w. split; [reflexivity|].
        intros r Hr. assert (I : In (column_of r c') [w]); [|destruct I as [I|[]]; auto].
        rewrite EL. apply (L_In cell arrange arranged rows dims optional c' (column_of r c') Hc). exists r. auto. }
      assert (SQ := fun H => sq_spec cell arrange arranged rows dims optional c H some).
      split.
      - intros (c' & [= -> <-] & H). apply filter_In in H. destruct H as [H1 H2]. destruct (proj1 (SQ H1) H2) as [A B].
        split; [exact A|]. split; [exact B|]. destruct (W c H1 H2) as (w & -> & HW). cbn [hd].
        assert (X0 : exists r0, In r0 rows) by (clear - some; destruct rows as [|r0 l]; [tauto|exists r0; now left]).
        destruct X0 as (r0 & H0). exists r0. auto.
      - intros (A & B & r & Hr & <-). exists c. assert (H1 : In c (optional ++ dims)) by (apply in_or_app; now left).
        assert (H2 := proj2 (SQ H1) (conj A B)). destruct (W c H1 H2) as (w & E & HW). rewrite E. cbn [hd]. split; [now rewrite (HW r Hr)|].
        apply filter_In. split; [exact H1|exact H2].
    Qed.
  End Frame.

  Definition scalars_ok {V X} (a b : dset V X) : bool :=
    let dims := map fst (d_coords _ _ a) ++ filter (fun c => negb (mem c (map fst (d_coords _ _ a)))) (map fst (d_coords _ _ b)) in
    let scalars (d : dset V X) := filter (fun cs => negb (mem (fst cs) dims)) (d_scalars _ _ d) in
    forallb (fun ca => forallb (fun cb => negb (column_beq (fst ca) (fst cb)) || value_eqb (snd ca) (snd cb))%bool (scalars b)) (scalars a).
  Lemma merge_ok {V X} (missing : X) (a b : dset V X) : scalars_ok a b = true -> exists m, xmerge arrange missing a b = Ok m.
  Proof. unfold scalars_ok, xmerge. intros H. rewrite H. eauto. Qed.
  Lemma merge_refused {V X} (missing : X) (a b : dset V X) : scalars_ok a b = false -> xmerge arrange missing a b = Err ValueError.
  Proof. unfold scalars_ok, xmerge. intros H. now rewrite H. Qed.
  Lemma merge_dims_of {V X} (a b : dset V X) c :
    mem c (map fst (d_coords _ _ a) ++ filter (fun c => negb (mem c (map fst (d_coords _ _ a)))) (map fst (d_coords _ _ b))) = true
    <-> In c (map fst (d_coords _ _ a)) \/ In c (map fst (d_coords _ _ b)).
  Proof.
    rewrite mem_In, in_app_iff, filter_In, negb_true_iff. destruct (mem c (map fst (d_coords _ _ a))) eqn:M.
    - apply mem_In in M. tauto.
    - tauto.
  Qed.
  Lemma scalars_ok_spec {V X} (a b : dset V X) : scalars_ok a b = true <->
    forall c v w, ~ In c (map fst (d_coords _ _ a)) -> ~ In c (map fst (d_coords _ _ b)) -> In (c, v) (d_scalars _ _ a) -> In (c, w) (d_scalars _ _ b) -> v = w.
  Proof.
    unfold scalars_ok. rewrite forallb_forall. split.
    - intros H c v w N1 N2 I1 I2. specialize (H (c, v)). rewrite forallb_forall in H.
      assert (MD : negb (mem c (map fst (d_coords _ _ a) ++ filter (fun c => negb (mem c (map fst (d_coords _ _ a)))) (map fst (d_coords _ _ b)))) = true).
      { apply negb_true_iff. destruct (mem c _) eqn:E; [|reflexivity]. apply merge_dims_of in E. tauto. }
      assert (A : In (c, v) (filter (fun cs => negb (mem (fst cs) (map fst (d_coords _ _ a) ++ filter (fun c => negb (mem c (map fst (d_coords _ _ a)))) (map fst (d_coords _ _ b))))) (d_scalars _ _ a)))
        by (apply filter_In; auto).
      specialize (H A (c, w)). cbn [fst snd] in H. rewrite (proj2 (column_eq c c) eq_refl) in H. cbn [negb orb] in H.
      apply value_eqb_eq. apply H. apply filter_In. auto.
    - intros H [c v] I. apply filter_In in I. destruct I as [I1 M1]. cbn [fst] in M1. apply negb_true_iff in M1.
      apply forallb_forall. intros [c' w] I. apply filter_In in I. destruct I as [I2 M2]. cbn [fst snd] in *.
      destruct (column_beq c c') eqn:E; [|reflexivity]. cbn [negb orb]. apply column_eq in E. subst c'. apply value_eqb_eq.
      assert (N : ~ (In c (map fst (d_coords _ _ a)) \/ In c (map fst (d_coords _ _ b)))) by (rewrite <- merge_dims_of; congruence).
      apply (H c v w); tauto.
  Qed.
  Lemma merge_scalars_of {V X} (missing : X) (b m : dset V X) : xmerge arrange missing empty_set b = Ok m ->
    forall cv, In cv (d_scalars _ _ m) <-> In cv (d_scalars _ _ b) /\ ~ In (fst cv) (map fst (d_coords _ _ b)).
  Proof.
    unfold xmerge. destruct (forallb _ _); [|discriminate]. intros [= <-] cv. cbn [d_scalars empty_set filter app map].
    rewrite !filter_In. cbn [d_coords app]. cbn [map mem existsb negb].
    rewrite negb_true_iff. assert (F : forall l, filter (fun _ : column => true) l = l) by (intros l; induction l as [|x l IH]; cbn; congruence).
    rewrite F. destruct (mem (fst cv) (map fst (d_coords _ _ b))) eqn:E.
    - apply mem_In in E. split; [|tauto]. intros [[_ H] _]. discriminate.
    - assert (N : ~ In (fst cv) (map fst (d_coords _ _ b))) by (rewrite <- mem_In; congruence). tauto.
  Qed.

  Lemma assemble_unfold results rows0 : results <> [] -> mapM (records cell) results = Ok rows0 ->
    let rows := filter (fun r => value_eqb (column_of r FreeSurface) (Num (Fin 0))) (List.concat rows0) in
    let rad := filter (is_kind cell Radiation) rows in
    let dif := filter (is_kind cell Diffraction) rows in
    exists main F, assemble results =
      bind (match rad with [] => Ok empty_set | _ => xmerge arrange nan empty_set (frame cell nan arrange Radiation main rad) end) (fun ds =>
      bind (match dif with [] => Ok ds | _ => bind (xmerge arrange nan ds (frame cell nan arrange Diffraction main dif)) (fun ds => Ok (add_excitation cell cell_add ds)) end) (fun ds =>
      Ok (F ds))).
  Proof.
    intros HN HR. unfold assemble_dataset. destruct results as [|s0 results]; [tauto|]. set (rs := s0 :: results) in *. rewrite HR. cbn [bind].
    set (rows := filter _ (List.concat rows0)). set (types := map _ rs). set (main := most_common_from _ types types). cbv zeta.
    exists main. destruct main; eexists (fun ds => Assembled cell _ ds _); reflexivity.
  Qed.

  Definition sound (s : res cell) : Prop := s_kind _ s <> Generic.
  Lemma records_total results : (forall s, In s results -> sound s) -> exists rows0, mapM (records cell) results = Ok rows0.
  Proof.
    induction results as [|s l IH]; intros H; [exists []; reflexivity|]. destruct IH as (rl & E); [intros; apply H; now right|].
    assert (HS : sound s) by (apply H; now left). cbn [mapM]. rewrite E. unfold records, sound in *.
    destruct (s_kind cell s); [tauto| |]; cbn [bind]; eauto.
  Qed.
  Lemma records_generic results : (exists s, In s results /\ s_kind _ s = Generic) -> mapM (records cell) results = Err AttributeError.
  Proof.
    induction results as [|s l IH]; intros (s' & H & E); [destruct H|]. cbn [mapM].
    destruct (records cell s) as [rs|e] eqn:ER.
    - cbn [bind]. destruct H as [->|H]; [unfold records in ER; rewrite E in ER; discriminate ER|]. rewrite IH by eauto. reflexivity.
    - cbn [bind]. unfold records in ER. destruct (s_kind cell s); [now injection ER as <-|discriminate|discriminate].
  Qed.

  Lemma optional_cases k c : sure k -> In c (other_dims k) -> In c [Gravity; Rho; BodyName; WaterDepth; ForwardSpeed] \/ (k = Radiation /\ c = WaveDirection).
  Proof. unfold sure, other_dims. intros HK H. apply in_app_or in H. destruct H as [H|H]; [now left|]. destruct k; [tauto|destruct H|]. destruct H as [<-|[]]. now right. Qed.

  Lemma scalars_conflict main rad dif ds1 : rad <> [] -> dif <> [] -> xmerge arrange nan empty_set (frame cell nan arrange Radiation main rad) = Ok ds1 ->
    (scalars_ok ds1 (frame cell nan arrange Diffraction main dif) = false -> conflict cell rad dif)
    /\ (conflict cell rad dif -> scalars_ok ds1 (frame cell nan arrange Diffraction main dif) = false).
  Proof.
    intros NR ND E1. assert (SC := merge_scalars_of nan _ _ E1).
    assert (AR : forall c, In c (main_dims Radiation main) -> ~ In c (other_dims Radiation)) by (intros c; apply dims_disjoint; discriminate).
    assert (AD : forall c, In c (main_dims Diffraction main) -> ~ In c (other_dims Diffraction)) by (intros c; apply dims_disjoint; discriminate).
    assert (FR := frame_scalars (cell_of cell) nan rad (quantities Radiation) (main_dims Radiation main) (other_dims Radiation) NR).
    assert (FD := frame_scalars (cell_of cell) nan dif (quantities Diffraction) (main_dims Diffraction main) (other_dims Diffraction) ND).
    assert (DR := frame_dims (cell_of cell) nan rad (quantities Radiation) (main_dims Radiation main) (other_dims Radiation) NR AR).
    assert (DD := frame_dims (cell_of cell) nan dif (quantities Diffraction) (main_dims Diffraction main) (other_dims Diffraction) ND AD).
    change (from_dataframe cell arrange (cell_of cell) nan rad (quantities Radiation) (main_dims Radiation main) (other_dims Radiation)) with (frame cell nan arrange Radiation main rad) in *.
    change (from_dataframe cell arrange (cell_of cell) nan dif (quantities Diffraction) (main_dims Diffraction main) (other_dims Diffraction)) with (frame cell nan arrange Diffraction main dif) in *.
    assert (OS : forall c, In c [Gravity; Rho; BodyName; WaterDepth; ForwardSpeed] -> forall k, In c (other_dims k)) by (intros c H k; apply in_or_app; now left).
    split.
    - intros HF. assert (exists ca cb, In ca (d_scalars _ _ ds1) /\ In cb (d_scalars _ _ (frame cell nan arrange Diffraction main dif)) /\ fst ca = fst cb /\ snd ca <> snd cb
        /\ ~ In (fst ca) (map fst (d_coords _ _ (frame cell nan arrange Diffraction main dif)))) as ([c v] & [c' w] & I1 & I2 & E & N & O).
      { unfold scalars_ok in HF. set (dims := _ ++ _) in HF.
        assert (G : forall (A B : list (column * value)) , forallb (fun ca => forallb (fun cb => negb (column_beq (fst ca) (fst cb)) || value_eqb (snd ca) (snd cb))%bool B) A = false ->
          exists ca cb, In ca A /\ In cb B /\ fst ca = fst cb /\ snd ca <> snd cb).
        { clear. intros A B H. induction A as [|x A IH]; [discriminate|]. cbn [forallb] in H. apply andb_false_iff in H. destruct H as [H|H].
          - clear IH. assert (exists cb, In cb B /\ fst x = fst cb /\ snd x <> snd cb) as (cb & HB); [|exists x, cb; cbn; tauto].
            induction B as [|y B IHB]; [discriminate|]. cbn [forallb] in H. apply andb_false_iff in H. destruct H as [H|H].
            + exists y. apply orb_false_iff in H. destruct H as [H1 H2]. apply negb_false_iff, column_eq in H1. split; [now left|]. split; [exact H1|].
              intros H. apply (proj2 (value_eqb_eq _ _)) in H. congruence.
            + destruct (IHB H) as (cb & I & R). exists cb. split; [now right|exact R].
          - destruct (IH H) as (ca & cb & I & R). exists ca, cb. split; [now right|exact R]. }
        destruct (G _ _ HF) as (ca & cb & I1 & I2 & E & N). apply filter_In in I1, I2. destruct I1 as [I1 M1], I2 as [I2 _]. exists ca, cb.
        repeat (split; [assumption|]). apply negb_true_iff in M1. intros I.
        assert (mem (fst ca) dims = true) by (apply merge_dims_of; now right). congruence. }
      cbn [fst snd] in *. subst c'. apply SC in I1. cbn [fst] in I1. destruct I1 as [I1 _]. apply FR in I1. apply FD in I2.
      destruct I1 as (O1 & V1 & r & Hr & <-), I2 as (O2 & V2 & r' & Hr' & <-). exists c, r, r'. 
      destruct (optional_cases Diffraction c) as [OC|[OC _]]; [discriminate|exact O2| |discriminate]. auto 10.
    - intros (c & r & r' & HC & V1 & V2 & Hr & Hr' & N). destruct (scalars_ok _ _) eqn:E; [|reflexivity]. exfalso. apply N.
      assert (NR' : ~ In c (map fst (d_coords _ _ (frame cell nan arrange Radiation main rad)))).
      { rewrite DR. intros [H|[_ H]]; [|tauto]. exact (AR c H (OS c HC Radiation)). }
      apply (proj1 (scalars_ok_spec _ _) E c).
      + rewrite (merge_dims arrange nan _ _ _ E1 c). intros [[]|H]; tauto.
      + rewrite DD. intros [H|[_ H]]; [|tauto]. exact (AD c H (OS c HC Diffraction)).
      + apply SC. split; [|exact NR']. apply FR. split; [now apply OS|]. eauto.
      + apply FD. split; [now apply OS|]. eauto.
  Qed.

  Lemma assemble_accepts results rr dr : results <> [] -> (forall s, In s results -> s_kind _ s <> Generic) ->
    rows_of cell Radiation results rr -> rows_of cell Diffraction results dr ->
    (conflict cell rr dr -> assemble results = Err ValueError) /\ (~ conflict cell rr dr -> exists a, assemble results = Ok a).
  Proof.
    intros HN HS HR HD. destruct (records_total results HS) as (rows0 & E0).
    destruct (assemble_unfold results rows0 HN E0) as (main & F & ->).
    rewrite <- (rows_of_eq cell Radiation results rr rows0 ltac:(discriminate) HR E0), <- (rows_of_eq cell Diffraction results dr rows0 ltac:(discriminate) HD E0).
    destruct rr as [|r0 rr'].
    - cbn [bind]. split; [intros (c & r & r' & _ & _ & _ & [] & _)|]. intros _. destruct dr as [|d0 dr']; [cbn [bind]; eauto|].
      destruct (merge_ok nan empty_set (frame cell nan arrange Diffraction main (d0 :: dr'))) as (m & ->); [reflexivity|]. cbn [bind]. eauto.
    - destruct (merge_ok nan empty_set (frame cell nan arrange Radiation main (r0 :: rr'))) as (ds1 & E1); [reflexivity|]. rewrite E1. cbn [bind].
      destruct dr as [|d0 dr']; [split; [intros (c & r & r' & _ & _ & _ & _ & [] & _)|cbn [bind]; eauto]|].
      destruct (scalars_conflict main (r0 :: rr') (d0 :: dr') ds1) as [C1 C2]; [discriminate|discriminate|exact E1|]. split.
      + intros C. rewrite (merge_refused nan _ _ (C2 C)). reflexivity.
      + intros NC. destruct (scalars_ok ds1 (frame cell nan arrange Diffraction main (d0 :: dr'))) eqn:E; [|tauto].
        destruct (merge_ok nan _ _ E) as (m & ->). cbn [bind]. eauto.
  Qed.
  Lemma assemble_generic results : (exists s, In s results /\ s_kind _ s = Generic) -> assemble results = Err AttributeError.
  Proof.
    intros H. unfold assemble_dataset. destruct results as [|s0 l]; [destruct H as (s & [] & _)|]. now rewrite records_generic.
  Qed.

  (** ** The other coordinates *)
  Notation recorded := (recorded cell).
  Lemma finite_kind_dec k s : is_finite_kind cell k s \/ ~ is_finite_kind cell k s.
  Proof.
    unfold is_finite_kind. assert (D : s_kind _ s = k \/ s_kind _ s <> k) by (destruct (s_kind cell s), k; (now left) || (right; discriminate)).
    destruct (value_eqb (Num (p_fs (s_problem cell s))) (Num (Fin 0))) eqn:E.
    - apply value_eqb_eq in E. injection E as E. tauto.
    - right. intros [_ H]. rewrite H in E. rewrite (proj2 (value_eqb_eq _ _) eq_refl) in E. discriminate.
  Qed.
  Lemma rows_of_total k results : exists rows, rows_of cell k results rows.
  Proof.
    induction results as [|s l (rs & IH)]; [exists []; constructor|]. destruct (p_body (s_problem cell s)) as [b|] eqn:E.
    - destruct (finite_kind_dec k s); [eexists; eapply rows_use; eauto|exists rs; now apply rows_skip].
    - exists rs. now apply rows_bodiless.
  Qed.
  Lemma recorded_rows results rows0 r : mapM (records cell) results = Ok rows0 ->
    recorded results r <-> In r (filter (fun r => value_eqb (column_of r FreeSurface) (Num (Fin 0))) (List.concat rows0)).
  Proof.
    intros E0. split.
    - intros (k & rows & HK & HR & I). rewrite (rows_of_eq cell k results rows rows0 HK HR E0) in I. apply filter_In in I. tauto.
    - intros I. assert (G : s_kind _ (fst r) <> Generic).
      { apply filter_In in I. destruct I as [I _]. apply in_concat in I. destruct I as (l & Hl & I). 
        clear - E0 Hl I. revert rows0 E0 Hl. induction results as [|s results IH]; intros rows0 E0 Hl; cbn [mapM] in E0; [injection E0 as <-; destruct Hl|].
        destruct (records cell s) as [rs|] eqn:ER; [|discriminate]. cbn [bind] in E0. destruct (mapM _ results) as [rl|]; [|discriminate]. cbn [bind] in E0. injection E0 as <-.
        destruct Hl as [<-|Hl]; [|now apply (IH rl)]. unfold records in ER. intros G.
        assert (rs = map (fun dof => (s, dof)) (influenced_dofs cell s)) as -> by (destruct (s_kind cell s); [discriminate|injection ER as <-; reflexivity|injection ER as <-; reflexivity]).
        apply in_map_iff in I. destruct I as (d & <- & _). cbn in G. rewrite G in ER. discriminate. }
      destruct (rows_of_total (s_kind _ (fst r)) results) as (rows & HR). exists (s_kind _ (fst r)), rows. split; [exact G|]. split; [exact HR|].
      rewrite (rows_of_eq cell _ results rows rows0 G HR E0). apply filter_In. split; [exact I|]. unfold is_kind. destruct (s_kind cell (fst r)); [tauto|reflexivity|reflexivity].
  Qed.

  Section Coordinate.
    Variables (rows : list (row cell)) (c : column) (dims optional : list column).
    Hypothesis nodup : NoDup (optional ++ dims).
    Hypothesis apart : forall c, In c dims -> ~ In c optional.
    Lemma coordinate_first r r0 : In r rows -> first_such cell (agrees cell (dims ++ optional) (column_of r)) rows r0 ->
      sel (snd (coordinate cell arrange rows c dims optional)) CoordinateValue (column_of r) = Ok (column_of r0 c).
    Proof.
      intros Hr H0. assert (NE : rows <> []) by (intros E; rewrite E in Hr; destruct Hr).
      unfold coordinate. cbn [snd]. set (get := fun (x : row cell) (_ : quantity) => column_of x c).
      assert (FH := frame_holds cell arrange arranged get Missing rows [CoordinateValue] dims optional CoordinateValue (or_introl eq_refl)).
      assert (G := good_frame cell arrange get Missing rows [CoordinateValue] dims optional nodup).
      rewrite (holds_sel Missing _ _ _ _ (column_of r) G FH).
      - f_equal. destruct (frame_at_agree cell arrange arranged get Missing rows dims optional CoordinateValue (column_of r) NE) as [A _].
        set (kept := filter _ (optional ++ dims)) in *.
        rewrite (A r0); [reflexivity|]. destruct H0 as (l1 & l2 & EL & AG & N). exists l1, l2. split; [exact EL|].
        assert (KI := fun d => kept_In cell arrange arranged rows dims optional d NE apart). fold kept in KI. split.
        + intros d Hd. apply AG. apply KI in Hd. apply in_or_app. tauto.
        + intros r' Hr' K. apply (N r' Hr'). intros d Hd. assert (Hi : In r' rows) by (rewrite EL; apply in_or_app; now left).
          apply in_app_or in Hd. destruct (varying_dec cell rows d) as [VD|NV].
          * apply K. apply KI. tauto.
          * destruct Hd as [Hd|Hd]; [apply K; apply KI; tauto|].
            destruct (value_eqb (column_of r' d) (column_of r d)) eqn:E; [now apply value_eqb_eq|]. exfalso. apply NV. exists r', r.
            split; [exact Hi|]. split; [exact Hr|]. intros H. apply (proj2 (value_eqb_eq _ _)) in H. congruence.
      - intros d Hd. apply labelled_in; [exact G|]. destruct FH as (_ & FD & _). split; [now apply FD|].
        now apply (kept_labels cell arrange arranged get Missing rows [CoordinateValue] dims optional).
    Qed.
    Lemma first_exists (ds : list column) r l : In r l -> exists r0, first_such cell (agrees cell ds (column_of r)) l r0.
    Proof.
      induction l as [|x l IH]; [intros []|]. intros I.
      assert (D : agrees cell ds (column_of r) x \/ ~ agrees cell ds (column_of r) x).
      { destruct (forallb (fun c => value_eqb (column_of x c) (column_of r c)) ds) eqn:E.
        - left. intros d Hd. apply value_eqb_eq. rewrite forallb_forall in E. now apply E.
        - right. intros H. assert (forallb (fun c => value_eqb (column_of x c) (column_of r c)) ds = true); [|congruence].
          apply forallb_forall. intros d Hd. apply value_eqb_eq. now apply H. }
      destruct D as [D|D]; [exists x, [], l; split; [reflexivity|]; split; [exact D|intros ? []]|].
      destruct I as [->|I]; [exfalso; apply D; intros d _; reflexivity|]. destruct (IH I) as (r0 & l1 & l2 & -> & H1 & H2).
      exists r0, (x :: l1), l2. split; [reflexivity|]. split; [exact H1|]. intros r' [<-|I']; [exact D|now apply H2].
    Qed.
  End Coordinate.

  (** The parameters on which each coordinate depends in the dataset. *)
  Definition long (t : freq_type) : bool := match t with Wavelength | Wavenumber => true | _ => false end.
  Inductive depends (main : freq_type) : column -> list column -> Prop :=
  | depends_same t : t <> main -> long t = long main -> depends main (freq_column t) [freq_column main]
  | depends_other t : long t <> long main -> depends main (freq_column t) [freq_column main; Gravity; WaterDepth]
  | depends_encounter : depends main EncounterOmega [ForwardSpeed; WaveDirection; freq_column main; Gravity; WaterDepth]
  | depends_direction : depends main EncounterWaveDirection [ForwardSpeed; WaveDirection; freq_column main].
  Lemma assembled_firsts results a : assemble results = Ok a -> exists rows0, mapM (records cell) results = Ok rows0 /\
    let rows := filter (fun r => value_eqb (column_of r FreeSurface) (Num (Fin 0))) (List.concat rows0) in
    forall c dims r r0, depends (a_main _ a) c dims -> In r rows ->
      (In c [EncounterOmega; EncounterWaveDirection] -> exists r', In r' rows /\ p_speed (s_problem _ (fst r')) <> 0%R) ->
      first_such cell (agrees cell dims (column_of r)) rows r0 ->
      exists ds, In (c, ds) (a_coords _ a) /\ sel ds CoordinateValue (column_of r) = Ok (column_of r0 c).
  Proof.
    unfold assemble_dataset. destruct results as [|s0 results]; [discriminate|]. set (rs := s0 :: results).
    destruct (mapM (records cell) rs) as [rows0|] eqn:ER; [|discriminate]. cbn [bind].
    set (rows := filter _ (List.concat rows0)) in *. set (types := map _ rs). set (main := most_common_from _ types types). cbv zeta.
    destruct (match filter (is_kind cell Radiation) rows with [] => Ok empty_set | _ :: _ => _ end) as [ds1|]; [|discriminate]. cbn [bind].
    destruct (match filter (is_kind cell Diffraction) rows with [] => Ok ds1 | _ :: _ => _ end) as [ds2|]; [|discriminate]. cbn [bind].
    intros H. apply Ok_inj in H. subst a. cbn [a_main a_coords]. exists rows0. split; [reflexivity|]. fold rows. intros c dims r r0 HD Hr HM HF.
    assert (F : forall l l', (forall d, In d dims <-> In d (l ++ l')) -> first_such cell (agrees cell (l ++ l') (column_of r)) rows r0).
    { intros l l' E. destruct HF as (l1 & l2 & EL & AG & N). exists l1, l2. split; [exact EL|]. split.
      - intros d Hd. apply AG. now apply E.
      - intros r' Hr' K. apply (N r' Hr'). intros d Hd. apply K. now apply E. }
    assert (MV : In c [EncounterOmega; EncounterWaveDirection] -> negb (forallb (fun r => value_eqb (column_of r ForwardSpeed) (Num (Fin 0))) rows) = true).
    { intros Hc. destruct (HM Hc) as (r' & Hr' & N). apply negb_true_iff. destruct (forallb _ rows) eqn:E; [|reflexivity]. exfalso.
      rewrite forallb_forall in E. specialize (E r' Hr'). apply value_eqb_eq in E. cbn in E. injection E as E. tauto. }
    clear HF HM. clearbody rows main. destruct HD as [t N L|t L| |].
    - eexists. split; [|apply (coordinate_first rows (freq_column t) [freq_column main] []); [| |exact Hr|]].
      + destruct t, main; try (exfalso; apply N; reflexivity); try discriminate L; cbn; auto 10.
      + cbn. repeat constructor. intros [].
      + intros d _ [].
      + apply F. intros d. cbn. tauto.
    - eexists. split; [|apply (coordinate_first rows (freq_column t) [freq_column main] [Gravity; WaterDepth]); [| |exact Hr|]].
      + destruct t, main; try (exfalso; apply L; reflexivity); cbn; auto 10.
      + destruct main; cbn; repeat constructor; cbn; intuition discriminate.
      + intros d [<-|[]]. destruct main; cbn; intuition discriminate.
      + apply F. intros d. cbn. tauto.
    - rewrite MV by (cbn; auto). eexists. split; [|apply (coordinate_first rows EncounterOmega [ForwardSpeed; WaveDirection; freq_column main] [Gravity; WaterDepth]); [| |exact Hr|]].
      + do 4 (apply in_or_app; right). now left.
      + destruct main; cbn; repeat constructor; cbn; intuition discriminate.
      + intros d H. destruct main; cbn in *; intuition (subst; discriminate).
      + apply F. intros d. cbn. tauto.
    - rewrite MV by (cbn; auto). eexists. split; [|apply (coordinate_first rows EncounterWaveDirection [ForwardSpeed; WaveDirection; freq_column main] []); [| |exact Hr|]].
      + do 4 (apply in_or_app; right). right. now left.
      + destruct main; cbn; repeat constructor; cbn; intuition discriminate.
      + intros d _ [].
      + apply F. intros d. cbn. tauto.
  Qed.

  Lemma assembled_coordinates results a : assemble results = Ok a ->
    forall c dims r, depends (a_main _ a) c dims -> recorded results r ->
      (In c [EncounterOmega; EncounterWaveDirection] -> exists r', recorded results r' /\ p_speed (s_problem _ (fst r')) <> 0%R) ->
      (forall r', recorded results r' -> (forall d, In d dims -> column_of r' d = column_of r d) -> column_of r' c = column_of r c) ->
      exists ds, In (c, ds) (a_coords _ a) /\ sel ds CoordinateValue (column_of r) = Ok (column_of r c).
  Proof.
    intros HA c dims r HD Hr HM HF. destruct (assembled_firsts results a HA) as (rows0 & ER & H).
    assert (RR := fun r => recorded_rows results rows0 r ER). cbv zeta in H. set (rows := filter _ (List.concat rows0)) in *.
    assert (I : In r rows) by (now apply RR). destruct (first_exists dims r rows I) as (r0 & H0).
    destruct (H c dims r r0 HD I) as (ds & I1 & I2); [|exact H0|].
    - intros Hc. destruct (HM Hc) as (r' & Hr' & N). exists r'. split; [now apply RR|exact N].
    - exists ds. split; [exact I1|]. rewrite I2. f_equal. destruct H0 as (l1 & l2 & EL & AG & _). apply HF; [|exact AG].
      apply RR. rewrite EL. apply in_or_app. right. now left.
  Qed.
  (** Results of one class. *)
  Lemma one_class_coordinate k results a rows c dims r r0 : sure k -> assemble results = Ok a -> (forall s, In s results -> s_kind _ s = k) ->
    rows_of cell k results rows -> depends (a_main _ a) c dims -> In r rows ->
    (In c [EncounterOmega; EncounterWaveDirection] -> exists r', In r' rows /\ p_speed (s_problem _ (fst r')) <> 0%R) ->
    first_such cell (agrees cell dims (column_of r)) rows r0 ->
    exists ds, In (c, ds) (a_coords _ a) /\ sel ds CoordinateValue (column_of r) = Ok (column_of r0 c).
  Proof.
    intros HK HA HS HR HD Hr HM HF. destruct (assembled_firsts results a HA) as (rows0 & ER & H). cbv zeta in H.
    assert (E := rows_of_eq cell k results rows rows0 HK HR ER).
    assert (RR := fun r => recorded_rows results rows0 r ER). set (all := filter _ (List.concat rows0)) in *.
    assert (A : rows = all).
    { rewrite E. assert (K : forall r, In r all -> is_kind cell k r = true).
      { intros x Hx. apply RR in Hx. destruct Hx as (k' & rows' & HK' & HR' & Hx).
        assert (E' := rows_of_eq cell k' results rows' rows0 HK' HR' ER). fold all in E'.
        assert (IS : In (fst x) results).
        { clear - HR' Hx. induction HR' as [|s l rs b HF Hb H IH|s l rs Hb H IH|s l rs HF H IH].
          - destruct Hx.
          - apply in_app_or in Hx. destruct Hx as [I|I]; [|right; auto]. apply in_map_iff in I. destruct I as (d & <- & _). now left.
          - right. auto.
          - right. auto. }
        unfold is_kind. rewrite (HS _ IS). unfold sure in HK. destruct k; [tauto|reflexivity|reflexivity]. }
      clear - K. induction all as [|x l IH]; [reflexivity|]. cbn [filter]. rewrite K by now left. f_equal. apply IH. intros; apply K; now right. }
    rewrite A in *. exact (H c dims r r0 HD Hr HM HF).
  Qed.
  Lemma built_travelling newton immersed i bc p t x : exact_root_finder newton -> (0 < i_g i)%R -> pos_depth (p_depth p) ->
    freq_meant i t (Fin x) -> (0 < x)%R -> generic_problem newton immersed i bc = Ok p -> travelling p.
  Proof.
    intros HN Hg Hh Hf Hx H. destruct (generic_inv _ _ _ _ _ H) as (h & f & ob & e & d & _ & Ef & _ & Ee & EP).
    assert (EG : p_g p = i_g i) by (rewrite EP; reflexivity). assert (ES : p_speed p = i_speed i) by (rewrite EP; reflexivity).
    assert (ED : p_dir p = i_dir i) by (rewrite EP; reflexivity). unfold travelling. rewrite EG, ES, ED.
    destruct (Req_dec (i_speed i) 0) as [Z|NZ].
    - destruct (encounter_no_speed _ _ _ _ _ H Z) as [E1 E2].
      rewrite (freq_meant_get _ _ _ _ _ _ Hf) in Ef. assert (p_depth p = h) by (rewrite EP; reflexivity).
      destruct (frequencies_from_pos newton h (i_g i) t x HN Hg) as (w & T & k & L & E3 & SW & _); [congruence|exact Hx|].
      assert (EF : p_freqs p = f) by (rewrite EP; reflexivity). rewrite E3 in Ef. injection Ef as <-.
      exists w, T, k, L, t. split; [exact EF|]. split; [exact Hg|]. split; [exact Hh|]. split; [congruence|]. rewrite Z.
      replace (w - k * 0 * cos (i_dir i))%R with w by ring. rewrite E1, EF. cbn [f_omega ffloat]. destruct SW as [[P _] _ _ _].
      split; [now rewrite Rabs_pos_eq by lra|]. split; [auto|lra].
    - destruct (encounter_speed newton immersed i bc p t (Fin x) HN Hg Hh Hf NZ H) as (w & T & k & L & E1 & SW & A & B & C & D).
      exists w, T, k, L, t. split; [exact E1|]. split; [exact Hg|]. split; [exact Hh|]. split; [exact SW|]. cbv zeta. split; [|split; [exact A|exact B]].
      destruct (Req_dec (w - k * i_speed i * cos (i_dir i)) 0) as [Z|N].
      + rewrite (C Z), Z, Rabs_R0. reflexivity.
      + destruct (D N) as (T' & k' & L' & -> & _). reflexivity.
  Qed.

  Lemma column_component r w T k L t f : p_freqs (s_problem cell (fst r)) = Freqs (FVal (Fin w)) (FVal (Fin T)) (FVal (Fin k)) (FVal (Fin L)) f ->
    column_of r (freq_column t) = Num (Fin (component t w T k L)).
  Proof. intros E. destruct t; cbn [freq_column Model_Dataset.column_of component]; rewrite E; reflexivity. Qed.
  Lemma assembled_frequencies results a r : assemble results = Ok a -> (forall s, In s results -> travelling (s_problem _ s)) -> recorded results r ->
    (forall t, t <> a_main _ a -> exists ds, In (freq_column t, ds) (a_coords _ a) /\ sel ds CoordinateValue (column_of r) = Ok (column_of r (freq_column t)))
    /\ ((exists r', recorded results r' /\ p_speed (s_problem _ (fst r')) <> 0%R) ->
        exists ds, In (EncounterOmega, ds) (a_coords _ a) /\ sel ds CoordinateValue (column_of r) = Ok (column_of r EncounterOmega)).
  Proof.
    intros HA HT Hr.
    assert (IR : forall r, recorded results r -> In (fst r) results).
    { intros r0 (k & rows & _ & HR & I). revert I. clear - HR. induction HR as [|s l rs b HF Hb H IH|s l rs Hb H IH|s l rs HF H IH]; intros I.
      - destruct I.
      - apply in_app_or in I. destruct I as [I|I]; [|right; auto]. apply in_map_iff in I. destruct I as (d & <- & _). now left.
      - right. auto.
      - right. auto. }
    destruct (HT _ (IR r Hr)) as (w & T & k & L & f & E & Pg & Ph & SW & EE & _).
    assert (P2 := PI_RGT_0).
    assert (DET : forall r' t, recorded results r' -> column_of r' (freq_column (a_main _ a)) = column_of r (freq_column (a_main _ a)) ->
      (long t <> long (a_main _ a) -> p_g (s_problem _ (fst r')) = p_g (s_problem _ (fst r)) /\ p_depth (s_problem _ (fst r')) = p_depth (s_problem _ (fst r))) ->
      exists w' T' k' L' f', p_freqs (s_problem _ (fst r')) = Freqs (FVal (Fin w')) (FVal (Fin T')) (FVal (Fin k')) (FVal (Fin L')) f'
        /\ component t w T k L = component t w' T' k' L'
        /\ (p_g (s_problem _ (fst r')) = p_g (s_problem _ (fst r)) -> p_depth (s_problem _ (fst r')) = p_depth (s_problem _ (fst r)) -> w = w' /\ k = k')
        /\ ffloat (f_omega (p_enc (s_problem _ (fst r')))) = Fin (Rabs (w' - k' * p_speed (s_problem _ (fst r')) * cos (p_dir (s_problem _ (fst r')))))).
    { intros r' t Hr' EM HL. destruct (HT _ (IR r' Hr')) as (w' & T' & k' & L' & f' & E' & Pg' & Ph' & SW' & EE' & _).
      exists w', T', k', L', f'. split; [exact E'|].
      rewrite (column_component r w T k L _ f E), (column_component r' w' T' k' L' _ f' E') in EM. injection EM as EM. symmetry in EM.
      assert (DT : p_g (s_problem _ (fst r')) = p_g (s_problem _ (fst r)) -> p_depth (s_problem _ (fst r')) = p_depth (s_problem _ (fst r)) ->
        w = w' /\ T = T' /\ k = k' /\ L = L').
      { intros G D. rewrite G, D in SW'. exact (same_wave_determined _ _ (a_main _ a) _ _ _ _ _ _ _ _ Pg Ph SW SW' EM). }
      split; [|split; [intros G D; destruct (DT G D) as (-> & _ & -> & _); auto|exact EE']].
      destruct SW as [[Pw [PT [Pk PL]]] S1 S2 _], SW' as [[Pw' [PT' [Pk' PL']]] S1' S2' _].
      assert (WT : w = w' <-> T = T').
      { split; intros Eq; subst.
        - apply (Rmult_eq_reg_l w'); [lra|lra].
        - apply (Rmult_eq_reg_r T'); [lra|lra]. }
      assert (KL : k = k' <-> L = L').
      { split; intros Eq; subst.
        - apply (Rmult_eq_reg_l k'); [lra|lra].
        - apply (Rmult_eq_reg_r L'); [lra|lra]. }
      destruct t, (a_main _ a); cbn [component long] in *; try tauto;
        (destruct (DT (proj1 (HL ltac:(discriminate))) (proj2 (HL ltac:(discriminate)))) as (-> & -> & -> & ->); reflexivity). }
    split.
    - intros t Nt. destruct (Bool.bool_dec (long t) (long (a_main _ a))) as [EL|NL].
      + apply (assembled_coordinates results a HA _ _ r (depends_same _ t Nt EL) Hr).
        * destruct t; cbn; intuition discriminate.
        * intros r' Hr' HD. destruct (DET r' t Hr') as (w' & T' & k' & L' & f' & E' & EC & _).
          -- apply HD. now left.
          -- tauto.
          -- now rewrite (column_component r w T k L _ f E), (column_component r' w' T' k' L' _ f' E'), EC.
      + apply (assembled_coordinates results a HA _ _ r (depends_other _ t NL) Hr).
        * destruct t; cbn; intuition discriminate.
        * intros r' Hr' HD. destruct (DET r' t Hr') as (w' & T' & k' & L' & f' & E' & EC & _).
          -- apply HD. now left.
          -- intros _. assert (A := HD Gravity ltac:(cbn; auto)). assert (B := HD WaterDepth ltac:(cbn; auto)). cbn in A, B. injection A as A. injection B as B. auto.
          -- now rewrite (column_component r w T k L _ f E), (column_component r' w' T' k' L' _ f' E'), EC.
    - intros HM. apply (assembled_coordinates results a HA _ _ r (depends_encounter _) Hr); [auto|].
      intros r' Hr' HD. assert (A := HD Gravity ltac:(cbn; auto)). assert (B := HD WaterDepth ltac:(cbn; auto 10)). cbn in A, B. injection A as A. injection B as B.
      assert (U := HD ForwardSpeed ltac:(cbn; auto)). assert (D := HD WaveDirection ltac:(cbn; auto)). cbn in U, D. injection U as U. injection D as D.
      destruct (DET r' (a_main _ a) Hr') as (w' & T' & k' & L' & f' & E' & EC & WK & EE').
      + apply HD. cbn. auto.
      + auto.
      + destruct (WK A B) as [-> ->]. cbn. rewrite EE', EE, U, D. reflexivity.
  Qed.
End Assemble.
