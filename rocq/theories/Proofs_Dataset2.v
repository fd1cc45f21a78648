From Coq Require Import Reals String List Bool Arith Permutation Lia.
From Verif Require Import Model_Base Model_Mesh Proofs_Mesh Model_Problem Model_Solver Proofs_Problem Proofs_Problem2 Model_Dataset Spec_Dataset Proofs_Dataset.
Import ListNotations.
Open Scope nat_scope.

Section Assemble.
  Variable cell : Type.
  Variable nan : cell.
  Variable cell_add : cell -> cell -> cell.
  Hypothesis nan_add : cell_add nan nan = nan.
  Variable arrange : column -> list value -> list value.
  Hypothesis arranged : forall c l, Permutation l (arrange c l).
  Notation column_of := (column_of cell).
  Notation assemble := (assemble_dataset cell nan cell_add arrange).

  Definition sure (k : pkind) : Prop := k <> Generic.
  Lemma rows_value s d (k : pkind) : sure k -> value_eqb (column_of (s, d) FreeSurface) (Num (Fin 0)) = true /\ is_kind cell k (s, d) = true <-> is_finite_kind cell k s.
  Proof.
    intros HK. unfold is_finite_kind. cbn [Model_Dataset.column_of fst]. unfold is_kind. cbn [fst]. rewrite value_eqb_eq. split.
    - intros [H1 H2]. split; [|congruence]. destruct (s_kind cell s), k; try discriminate; reflexivity.
    - intros [<- ->]. split; [reflexivity|]. unfold sure in HK. destruct (s_kind cell s); congruence.
  Qed.
  Lemma rows_of_eq k results rs rows0 : sure k -> rows_of cell k results rs -> mapM (records cell) results = Ok rows0 ->
    rs = filter (is_kind cell k) (filter (fun r => value_eqb (column_of r FreeSurface) (Num (Fin 0))) (List.concat rows0)).
  Proof.
    intros HK H. revert rows0. induction H as [|s l rs b HF Hb H IH|s l rs Hb H IH|s l rs HF H IH]; intros rows0 E; cbn [mapM] in E.
    - injection E as <-. reflexivity.
    - destruct (records cell s) as [rs0|] eqn:ER; [|discriminate]. cbn [bind] in E. destruct (mapM _ l) as [rl|]; [|discriminate].
      cbn [bind] in E. injection E as <-. cbn [List.concat]. rewrite !filter_app, <- (IH rl eq_refl). f_equal.
      unfold records, influenced_dofs in ER. rewrite Hb in ER. rewrite map_map in ER.
      assert (rs0 = map (fun nd => (s, fst nd)) (b_dofs b)) as -> by (destruct (s_kind cell s); [discriminate|injection ER as <-; reflexivity|injection ER as <-; reflexivity]). clear ER.
      induction (b_dofs b) as [|d dl IHd]; [reflexivity|]. cbn [map filter].
      destruct (proj2 (rows_value s (fst d) k HK) HF) as [-> E2]. cbn [filter]. rewrite E2. now f_equal.
    - destruct (records cell s) as [rs0|] eqn:ER; [|discriminate]. cbn [bind] in E. destruct (mapM _ l) as [rl|]; [|discriminate].
      cbn [bind] in E. injection E as <-. cbn [List.concat]. rewrite !filter_app, <- (IH rl eq_refl).
      unfold records, influenced_dofs in ER. rewrite Hb in ER. assert (rs0 = []) as -> by (destruct (s_kind cell s); [discriminate|injection ER as <-; reflexivity|injection ER as <-; reflexivity]). reflexivity.
    - destruct (records cell s) as [rs0|] eqn:ER; [|discriminate]. cbn [bind] in E. destruct (mapM _ l) as [rl|]; [|discriminate].
      cbn [bind] in E. injection E as <-. cbn [List.concat]. rewrite !filter_app, <- (IH rl eq_refl).
      assert (EM : filter (is_kind cell k) (filter (fun r => value_eqb (column_of r FreeSurface) (Num (Fin 0))) rs0) = []); [|now rewrite EM].
      unfold records in ER. assert (rs0 = map (fun dof => (s, dof)) (influenced_dofs cell s)) as -> by (destruct (s_kind cell s); [discriminate|injection ER as <-; reflexivity|injection ER as <-; reflexivity]).
      clear ER. induction (influenced_dofs cell s) as [|d dl IHd]; [reflexivity|]. cbn [map filter].
      destruct (value_eqb (column_of (s, d) FreeSurface) (Num (Fin 0))) eqn:E1; [|exact IHd]. cbn [filter].
      destruct (is_kind cell k (s, d)) eqn:E2; [|exact IHd]. exfalso. apply HF. apply (rows_value s d k HK). auto.
  Qed.

  (** ** Distinct dimensions *)
  Definition good {X} (ds : dset quantity X) : Prop := NoDup (map fst (d_coords _ _ ds)).
  Lemma labels_of coords c l : NoDup (map fst coords) -> In (c, l) coords -> labels_in coords c = l.
  Proof.
    intros ND H. unfold labels_in. induction coords as [|[d l'] coords IH]; [destruct H|]. cbn [find fst]. cbn in ND. inversion ND as [|? ? N1 N2]; subst.
    destruct H as [[= -> ->]|H].
    - now rewrite (proj2 (column_eq c c) eq_refl).
    - destruct (column_beq c d) eqn:E; [|now apply IH]. apply column_eq in E. subst. exfalso. apply N1. apply in_map_iff. exists (d, l). auto.
  Qed.
  Lemma labels_of_in coords c : In c (map fst coords) -> In (c, labels_in coords c) coords.
  Proof.
    intros H. unfold labels_in. induction coords as [|[d l'] coords IH]; [destruct H|]. cbn [find fst].
    destruct (column_beq c d) eqn:E; [apply column_eq in E; subst; now left|]. right. apply IH. destruct H as [<-|H]; [|exact H].
    cbn in E. rewrite (proj2 (column_eq _ _) eq_refl) in E. discriminate.
  Qed.
  Lemma labelled_in {X} (ds : dset quantity X) c v : good ds -> labelled ds c v <-> In c (map fst (d_coords _ _ ds)) /\ In v (labels_in (d_coords _ _ ds) c).
  Proof.
    intros G. unfold labelled. split.
    - intros (l & H & I). split; [apply in_map_iff; exists (c, l); auto|]. now rewrite (labels_of _ c l G H).
    - intros [H I]. eexists. split; [apply labels_of_in; exact H|exact I].
  Qed.
  Lemma nodup_coords (p : column * list value -> bool) (F : column -> list value) l : NoDup l -> NoDup (map fst (filter p (map (fun c => (c, F c)) l))).
  Proof.
    induction l as [|c l IH]; intros H; [constructor|]. cbn [map filter].
    inversion H as [|? ? N1 N2]; subst. destruct (p (c, F c)); [|now apply IH]. cbn [map fst]. constructor; [|now apply IH].
    intros I. apply in_map_iff in I. destruct I as ([d l'] & <- & I). apply filter_In in I. destruct I as [I _]. apply in_map_iff in I.
    destruct I as (d' & [= <- _] & I). tauto.
  Qed.
  Lemma good_frame {X} get (missing : X) rows vars dims optional : NoDup (optional ++ dims) ->
    good (from_dataframe cell arrange get missing rows vars dims optional).
  Proof.
    intros H. unfold good, from_dataframe. cbn [d_coords].
    exact (nodup_coords _ (fun c => arrange c (unique (map (fun r => column_of r c) (drop_duplicates cell (optional ++ dims) [] rows)))) _ H).
  Qed.
  Lemma good_merge {X} (missing : X) a b m : xmerge arrange missing a b = Ok m -> good a -> good b -> good m.
  Proof.
    intros E GA GB. unfold good. rewrite (merge_coords_of arrange missing a b m E), map_map. cbn [fst]. rewrite map_id.
    assert (J : forall u v : list column, NoDup u -> NoDup v -> (forall z, In z u -> In z v -> False) -> NoDup (u ++ v)).
    { clear. intros u v HU HV HJ. induction HU as [|a u Ha HU IH]; [exact HV|]. cbn. constructor.
      - intros H. apply in_app_or in H. destruct H as [H|H]; [tauto|]. apply (HJ a); [now left|exact H].
      - apply IH. intros z Z. apply HJ. now right. }
    apply J; [exact GA|now apply NoDup_filter|]. intros z Z Z'. apply filter_In in Z'. destruct Z' as [_ Z']. apply negb_true_iff in Z'.
    apply (proj2 (mem_In _ _)) in Z. congruence.
  Qed.

  (** ** The excitation force *)
  Lemma find_excitation (ds : dset quantity cell) q : q <> ExcitationForce -> find_var q (add_excitation cell cell_add ds) = find_var q ds.
  Proof.
    intros N. unfold add_excitation. destruct (find_var FroudeKrylovForce ds) as [[dims xs]|]; [|reflexivity].
    destruct (find_var DiffractionForce ds) as [[dims' ys]|]; [|reflexivity]. unfold find_var. cbn [d_vars]. rewrite find_app_case.
    destruct (find _ (d_vars _ _ ds)); [reflexivity|]. cbn [find fst]. destruct q; try reflexivity. tauto.
  Qed.
  Lemma excitation_coords (ds : dset quantity cell) : d_coords _ _ (add_excitation cell cell_add ds) = d_coords _ _ ds.
  Proof.
    unfold add_excitation. destruct (find_var FroudeKrylovForce ds) as [[dims xs]|]; [|reflexivity].
    destruct (find_var DiffractionForce ds) as [[dims' ys]|]; reflexivity.
  Qed.
  Lemma excitation_holds ds q dims f : q <> ExcitationForce -> holds nan ds q dims f -> holds nan (add_excitation cell cell_add ds) q dims f.
  Proof. intros N H. unfold holds. rewrite find_excitation by exact N. rewrite excitation_coords. exact H. Qed.
  Lemma excitation_sum ds dims f g : find_var ExcitationForce ds = None -> holds nan ds FroudeKrylovForce dims f -> holds nan ds DiffractionForce dims g ->
    holds nan (add_excitation cell cell_add ds) ExcitationForce dims (fun labels => cell_add (f labels) (g labels)).
  Proof.
    intros N (F1 & D1 & M1) (F2 & D2 & M2). unfold holds. rewrite excitation_coords. split; [|split].
    - unfold add_excitation. rewrite F1, F2. unfold find_var. cbn [d_vars]. rewrite find_app_case.
      unfold find_var in N. destruct (find _ (d_vars _ _ ds)); [discriminate|]. cbn. do 2 f_equal.
      clear F1 F2. induction (product _) as [|x l IH]; [reflexivity|]. cbn [map Model_Problem.map2]. now rewrite IH.
    - exact D1.
    - intros labels HL HN. now rewrite M1, M2.
  Qed.

  Lemma find_empty {X} q : find_var q (@empty_set quantity X) = None.
  Proof. reflexivity. Qed.
  Lemma holds_sel {X} (missing : X) ds q dims f s : good ds -> holds missing ds q dims f -> (forall c, In c dims -> labelled ds c (s c)) -> sel ds q s = Ok (f (map s dims)).
  Proof.
    intros G (F & D & M) HL. unfold sel. rewrite F, at_labels_In; [reflexivity|].
    assert (A : forall c, In c dims -> In (s c) (labels_in (d_coords _ _ ds) c)) by (intros c Hc; apply labelled_in; auto).
    clear - A. induction dims as [|c dims IH]; cbn; constructor; [apply A; now left|apply IH; intros; apply A; now right].
  Qed.

  Definition quantities (k : pkind) : list quantity := match k with Diffraction => [DiffractionForce; FroudeKrylovForce] | _ => [AddedMass; RadiationDamping] end.
  Definition frame (k : pkind) (t : freq_type) (rows : list (row cell)) : dset quantity cell :=
    from_dataframe cell arrange (cell_of cell) nan rows (quantities k) (main_dims k t) (other_dims k).

  Lemma assemble_inv results a : assemble results = Ok a -> exists rows0, mapM (records cell) results = Ok rows0
    /\ let rows := filter (fun r => value_eqb (column_of r FreeSurface) (Num (Fin 0))) (List.concat rows0) in
       let rad := filter (is_kind cell Radiation) rows in
       let dif := filter (is_kind cell Diffraction) rows in
       exists ds1, (rad = [] /\ ds1 = empty_set \/ rad <> [] /\ xmerge arrange nan empty_set (frame Radiation (a_main _ a) rad) = Ok ds1)
       /\ (dif = [] /\ a_data _ a = ds1 \/ dif <> [] /\ exists ds2, xmerge arrange nan ds1 (frame Diffraction (a_main _ a) dif) = Ok ds2
           /\ a_data _ a = add_excitation cell cell_add ds2).
  Proof.
    unfold assemble_dataset. destruct results as [|s0 results]; [discriminate|]. set (rs := s0 :: results).
    destruct (mapM (records cell) rs) as [rows0|] eqn:ER; [|discriminate]. cbn [bind]. intros H. exists rows0. split; [reflexivity|].
    set (rows := filter _ (List.concat rows0)) in *. set (types := map _ rs) in *.
    set (main := most_common_from _ types types) in *. cbv zeta.
    set (rad := filter (is_kind cell Radiation) rows) in *. set (dif := filter (is_kind cell Diffraction) rows) in *.
    assert (EM : forall k t rw, frame k t rw = from_dataframe cell arrange (cell_of cell) nan rw (quantities k) (main_dims k t) (other_dims k)) by reflexivity.
    destruct (match rad with [] => Ok empty_set | _ :: _ => _ end) as [ds1|] eqn:E1; [|discriminate]. cbn [bind] in H.
    destruct (match dif with [] => Ok ds1 | _ :: _ => _ end) as [ds2|] eqn:E2; [|discriminate]. cbn [bind] in H. injection H as <-.
    cbn [a_main a_data]. exists ds1. split.
    - destruct rad as [|r rad']; [left; split; [reflexivity|congruence]|]. right. split; [discriminate|].
      rewrite EM. destruct main; exact E1.
    - destruct dif as [|r dif']; [left; split; [reflexivity|congruence]|]. right. split; [discriminate|].
      match type of E2 with bind ?x _ = _ => destruct x as [ds3|] eqn:E3; [|discriminate] end. cbn [bind] in E2. exists ds3. split; [|congruence].
      rewrite EM. destruct main; exact E3.
  Qed.
  Lemma index_nodup k t : sure k -> NoDup (other_dims k ++ main_dims k t).
  Proof. unfold sure. destruct k, t; intros H; try tauto; cbn; repeat constructor; cbn; intuition discriminate. Qed.
  Lemma dims_disjoint k t c : sure k -> In c (main_dims k t) -> ~ In c (other_dims k).
  Proof. unfold sure. destruct k, t; intros H I; try tauto; cbn in *; intuition (subst; discriminate). Qed.

  (** ** The values of the assembled dataset *)
  Lemma assembled_values k results a rows : sure k -> assemble results = Ok a -> rows_of cell k results rows -> rows <> [] ->
    exists dims, dims_for cell k (a_main _ a) rows dims
      /\ (forall r c, In r rows -> In c dims -> labelled (a_data _ a) c (column_of r c))
      /\ forall s, (forall c, In c dims -> labelled (a_data _ a) c (s c)) ->
         (forall q, In q (quantities k) ->
           (forall r, first_such cell (agrees cell dims s) rows r -> sel (a_data _ a) q s = Ok (cell_of cell r q))
           /\ ((forall r, In r rows -> ~ agrees cell dims s r) -> sel (a_data _ a) q s = Ok nan))
         /\ (k = Diffraction ->
           (forall r, first_such cell (agrees cell dims s) rows r ->
              sel (a_data _ a) ExcitationForce s = Ok (cell_add (cell_of cell r FroudeKrylovForce) (cell_of cell r DiffractionForce)))
           /\ ((forall r, In r rows -> ~ agrees cell dims s r) -> sel (a_data _ a) ExcitationForce s = Ok nan)).
  Proof.
    intros HK HA HR HN. destruct (assemble_inv results a HA) as (rows0 & ER & ds1 & H1 & H2).
    set (rad := filter (is_kind cell Radiation) _) in *. set (dif := filter (is_kind cell Diffraction) _) in *.
    assert (RK := rows_of_eq k results rows rows0 HK HR ER).
    assert (GF : forall k rows, sure k -> good (frame k (a_main _ a) rows)) by (intros; apply good_frame; now apply index_nodup).
    assert (GE : good (@empty_set quantity cell)) by constructor.
    assert (G1 : good ds1).
    { destruct H1 as [[_ ->]|[_ H1]]; [exact GE|]. eapply good_merge; [exact H1|exact GE|]. apply GF. discriminate. }
    assert (G : good (a_data _ a)).
    { destruct H2 as [[_ ->]|(_ & ds2 & H2 & ->)]; [exact G1|]. unfold good. rewrite excitation_coords. eapply good_merge; [exact H2|exact G1|].
      apply GF. discriminate. }
    set (kept := filter (fun c => negb (mem c (other_dims k) && Nat.eqb (length (labels_in (map (fun c =>
      (c, arrange c (unique (map (fun r => column_of r c) (drop_duplicates cell (other_dims k ++ main_dims k (a_main _ a)) [] rows)))))
      (other_dims k ++ main_dims k (a_main _ a))) c)) 1)) (other_dims k ++ main_dims k (a_main _ a))).
    set (at_ := fun q => frame_at cell arrange (cell_of cell) nan rows (main_dims k (a_main _ a)) (other_dims k) q).
    assert (FH : forall q, In q (quantities k) -> holds nan (frame k (a_main _ a) rows) q kept (at_ q)).
    { intros q Hq. apply (frame_holds cell arrange arranged (cell_of cell) nan rows (quantities k) (main_dims k (a_main _ a)) (other_dims k) q Hq). }
    assert (FA : forall q s, (forall r, first_such cell (agrees cell kept s) rows r -> at_ q (map s kept) = cell_of cell r q)
      /\ ((forall r, In r rows -> ~ agrees cell kept s r) -> at_ q (map s kept) = nan)).
    { intros q s. exact (frame_at_agree cell arrange arranged (cell_of cell) nan rows (main_dims k (a_main _ a)) (other_dims k) q s HN). }
    assert (KI : dims_for cell k (a_main _ a) rows kept).
    { intros c. apply (kept_In cell arrange arranged rows (main_dims k (a_main _ a)) (other_dims k) c HN). intros c' H. now apply (dims_disjoint k (a_main _ a)). }
    assert (KL : forall c r, In c kept -> In r rows -> In c (map fst (d_coords _ _ (frame k (a_main _ a) rows))) /\ In (column_of r c) (labels_in (d_coords _ _ (frame k (a_main _ a) rows)) c)).
    { intros c r Hc Hr. split.
      - destruct (quantities k) as [|q l] eqn:EQ; [destruct k; discriminate|]. destruct (FH q) as (_ & D & _); [rewrite ?EQ; now left|]. now apply D.
      - exact (kept_labels cell arrange arranged (cell_of cell) nan rows (quantities k) (main_dims k (a_main _ a)) (other_dims k) c r Hc Hr). }
    exists kept. split; [exact KI|].
    (* the whole dataset *)
    assert (W : (forall q, In q (quantities k) -> holds nan (a_data _ a) q kept (at_ q))
      /\ (k = Diffraction -> holds nan (a_data _ a) ExcitationForce kept (fun l => cell_add (at_ FroudeKrylovForce l) (at_ DiffractionForce l)))
      /\ (forall c v, In c (map fst (d_coords _ _ (frame k (a_main _ a) rows))) -> In v (labels_in (d_coords _ _ (frame k (a_main _ a) rows)) c) ->
          In c (map fst (d_coords _ _ (a_data _ a))) /\ In v (labels_in (d_coords _ _ (a_data _ a)) c))).
    { destruct k; [unfold sure in HK; congruence| |].
      - (* diffraction *)
        assert (ED : dif = rows) by (symmetry; exact RK). destruct H2 as [[E _]|(_ & ds2 & H2 & EA)]; [congruence|]. rewrite ED in H2.
        assert (N1 : forall q, In q [DiffractionForce; FroudeKrylovForce; ExcitationForce] -> find_var q ds1 = None).
        { intros q Hq. destruct H1 as [[_ ->]|[_ H1]]; [reflexivity|]. rewrite (find_var_merge arrange nan _ _ _ H1 q), find_empty.
          unfold frame. rewrite (frame_var_none cell arrange (cell_of cell) nan rad (quantities Radiation) _ _ q); [reflexivity|].
          cbn in Hq |- *. intuition (subst; discriminate). }
        assert (HQ : forall q, In q (quantities Diffraction) -> holds nan ds2 q kept (at_ q)).
        { intros q Hq. apply (merge_holds_r arrange arranged nan _ _ _ H2); [apply N1; cbn in *; tauto|]. now apply FH. }
        assert (NX : find_var ExcitationForce ds2 = None).
        { rewrite (find_var_merge arrange nan _ _ _ H2 ExcitationForce), N1 by (cbn; tauto). unfold frame.
          rewrite (frame_var_none cell arrange (cell_of cell) nan rows (quantities Diffraction) (main_dims Diffraction (a_main _ a)) (other_dims Diffraction) ExcitationForce); [reflexivity|]. cbn. intuition discriminate. }
        rewrite EA. split; [|split].
        + intros q Hq. apply excitation_holds; [cbn in Hq; intuition (subst; discriminate)|]. now apply HQ.
        + intros _. apply excitation_sum; [exact NX| |]; apply HQ; cbn; tauto.
        + rewrite excitation_coords. intros c v Hc Hv. split; [apply (merge_dims arrange nan _ _ _ H2); now right|].
          now apply (merge_labels_r arrange arranged nan _ _ _ H2).
      - (* radiation *)
        assert (ED : rad = rows) by (symmetry; exact RK). destruct H1 as [[E _]|(_ & H1)]; [congruence|]. rewrite ED in H1.
        assert (HQ : forall q, In q (quantities Radiation) -> holds nan ds1 q kept (at_ q)).
        { intros q Hq. apply (merge_holds_r arrange arranged nan _ _ _ H1); [reflexivity|]. now apply FH. }
        assert (HL : forall c v, In c (map fst (d_coords _ _ (frame Radiation (a_main _ a) rows))) -> In v (labels_in (d_coords _ _ (frame Radiation (a_main _ a) rows)) c) ->
          In c (map fst (d_coords _ _ ds1)) /\ In v (labels_in (d_coords _ _ ds1) c)).
        { intros c v Hc Hv. split; [apply (merge_dims arrange nan _ _ _ H1); now right|]. now apply (merge_labels_r arrange arranged nan _ _ _ H1). }
        destruct H2 as [[_ EA]|(_ & ds2 & H2 & EA)]; rewrite EA.
        + split; [exact HQ|]. split; [discriminate|exact HL].
        + split; [|split; [discriminate|]].
          * intros q Hq. apply excitation_holds; [cbn in Hq; intuition (subst; discriminate)|].
            apply (merge_holds_l arrange arranged nan _ _ _ H2). now apply HQ.
          * rewrite excitation_coords. intros c v Hc Hv. destruct (HL c v Hc Hv) as [Hc' Hv'].
            split; [apply (merge_dims arrange nan _ _ _ H2); now left|]. now apply (merge_labels_l arrange arranged nan _ _ _ H2). }
    destruct W as (W1 & W2 & W3). split.
    - intros r c Hr Hc. apply labelled_in; [exact G|]. destruct (KL c r Hc Hr) as [A B]. apply W3; assumption.
    - intros s HS. split.
      + intros q Hq. rewrite (holds_sel nan (a_data _ a) q kept (at_ q) s G (W1 q Hq) HS). split.
        * intros r Hr. now rewrite (proj1 (FA q s) r Hr).
        * intros Hr. now rewrite (proj2 (FA q s) Hr).
      + intros ED. rewrite (holds_sel nan (a_data _ a) ExcitationForce kept _ s G (W2 ED) HS). split.
        * intros r Hr. now rewrite (proj1 (FA FroudeKrylovForce s) r Hr), (proj1 (FA DiffractionForce s) r Hr).
        * intros Hr. now rewrite (proj2 (FA FroudeKrylovForce s) Hr), (proj2 (FA DiffractionForce s) Hr), nan_add.
  Qed.
End Assemble.
