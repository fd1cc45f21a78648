(** The values that are written in the files of results. *)
From Coq Require Import Reals String Ascii.
From Coq Require Import List Bool ZArith Arith Lia Permutation.
From Verif Require Import Model_Base Model_Geometry Model_Problem Model_Solver Model_Text Model_Files Model_Nemoh Model_Dataset Spec_Dataset Model_Matrices Spec_Matrices
  Proofs_Dataset Proofs_Dataset2 Proofs_Dataset3 Proofs_Matrices Proofs_Matrices2 Proofs_Matrices3 Proofs_Text Spec_Tecplot Model_Tecplot Proofs_Tecplot.
Import ListNotations.
Open Scope nat_scope.

Section Values.
  Variable cell : Type.
  Variable nan : cell.
  Variable cell_add : cell -> cell -> cell.
  Hypothesis nan_add : cell_add nan nan = nan.
  Variable arrange : column -> list value -> list value.
  Hypothesis arranged : forall c l, Permutation l (arrange c l).
  Notation assemble := (assemble_dataset cell nan cell_add arrange).
  Notation column_of := (column_of cell).
  Notation ticks := (ticks cell).
  Notation third := (three Omega).

  Lemma loop_of (ds : dset quantity cell) c v : In v (labels_in (d_coords _ _ ds) c) -> loop_labels cell ds c = Ok (labels_in (d_coords _ _ ds) c).
  Proof.
    intros H. unfold loop_labels. destruct (labels_or (d_coords _ _ ds) c) as [E|E]; [rewrite E in H; destruct H|].
    assert (M : mem c (map fst (d_coords _ _ ds)) = true) by (apply mem_In; apply in_map_iff; exists (c, labels_in (d_coords _ _ ds) c); auto). now rewrite M.
  Qed.
  Lemma loop_ok k results a rows : sure k -> assemble results = Ok a -> rows_of cell k results rows -> rows <> [] -> forall c, In c (main_dims k (a_main _ a)) ->
    loop_labels cell (a_data _ a) c = Ok (ticks a c) /\ ticks a c <> [].
  Proof.
    intros HK HA HR HN c Hc. destruct rows as [|r rows]; [contradiction|].
    assert (H := ticks_have cell nan cell_add nan_add arrange arranged k results a (r :: rows) HK HA HR c r Hc (or_introl eq_refl)).
    split; [exact (loop_of _ _ _ H)|]. intros E. rewrite E in H. destruct H.
  Qed.
  Definition params (k : pkind) (w d e : value) : list (column * value) := [(COmega, w); (third k, d); (InfluencedDof, e)].
  Lemma picked_ok k results a rows q : sure k -> assemble results = Ok a -> a_main _ a = Omega -> rows_of cell k results rows -> rows <> [] -> same_conditions cell k rows -> wanted k q ->
    forall w d e, In w (ticks a COmega) -> In d (ticks a (third k)) -> In e (ticks a InfluencedDof) ->
    exists x, picked cell (a_data _ a) q (params k w d e) = Ok x /\ coefficient cell nan rows (params k w d e) (meaning cell cell_add q) x.
  Proof.
    intros HK HA HM HR HN HV Hq w d e Hw Hd He. destruct (found cell nan cell_add arrange arranged k results a rows q HK HA HR HN HV Hq) as (T & xs & F).
    destruct (assembled_values cell nan cell_add nan_add arrange arranged k results a rows HK HA HR HN) as (dims & DF & DL & DS).
    rewrite HM in *. assert (EM : main_dims k Omega = [COmega; third k; InfluencedDof]) by (apply main_three).
    assert (DI : forall c, In c dims <-> In c [COmega; third k; InfluencedDof]).
    { intros c. rewrite (DF c), EM. split; [intros [H|[H1 H2]]; [exact H|exfalso; exact (HV c H1 H2)]|now left]. }
    unfold picked. rewrite F, EM.
    assert (M1 : forallb (fun cv => mem (fst cv) [COmega; third k; InfluencedDof]) (params k w d e) = true) by (destruct k; reflexivity).
    assert (M2 : forallb (fun c => mem c (map fst (params k w d e))) [COmega; third k; InfluencedDof] = true) by (destruct k; reflexivity).
    rewrite M1, M2. cbn [negb]. set (s := fun c => match find (fun cv => column_beq c (fst cv)) (params k w d e) with Some (_, v) => v | None => Missing end).
    assert (Sw : s COmega = w) by reflexivity. assert (Sd : s (third k) = d) by (destruct k; reflexivity). assert (Se : s InfluencedDof = e) by (destruct k; reflexivity).
    assert (G : forall c v, In v (ticks a c) -> labelled (a_data _ a) c v).
    { intros c v H. unfold Spec_Matrices.ticks in H. destruct (labels_or (d_coords _ _ (a_data _ a)) c) as [X|X]; [rewrite X in H; destruct H|].
      exists (labels_in (d_coords _ _ (a_data _ a)) c). now split. }
    assert (SL : forall c, In c dims -> labelled (a_data _ a) c (s c)).
    { intros c Hc. apply DI in Hc. destruct Hc as [<-|[<-|[<-|[]]]]; [rewrite Sw|rewrite Sd|rewrite Se]; now apply G. }
    assert (AG : forall r, agrees cell dims s r <-> forall c v, In (c, v) (params k w d e) -> column_of r c = v).
    { intros r. unfold agrees. split.
      - intros H c v [E|[E|[E|[]]]]; injection E as <- <-; [rewrite <- Sw|rewrite <- Sd|rewrite <- Se]; apply H; apply DI; cbn; tauto.
      - intros H c Hc. apply DI in Hc. destruct Hc as [<-|[<-|[<-|[]]]]; [rewrite Sw|rewrite Sd|rewrite Se]; apply H; cbn; tauto. }
    destruct (DS s SL) as [D1 D2].
    assert (VA : (forall r, first_such cell (agrees cell dims s) rows r -> sel (a_data _ a) q s = Ok (meaning cell cell_add q r)) /\ ((forall r, In r rows -> ~ agrees cell dims s r) -> sel (a_data _ a) q s = Ok nan)).
    { destruct Hq as [Hq|[-> ->]]; [|exact (D2 eq_refl)]. destruct (D1 q Hq) as [E1 E2]. split; [|exact E2]. intros r H. rewrite (E1 r H). clear - Hq. destruct q; try reflexivity. destruct k; cbn in Hq; intuition discriminate. }
    destruct (decide_row cell (params k w d e) rows) as [(r & Hr)|Hno].
    - exists (meaning cell cell_add q r). split; [|left; exists r; now split]. apply VA. destruct Hr as (l1 & l2 & E & P & N). exists l1, l2. split; [exact E|]. split; [now apply AG|].
      intros r' Hr' A. apply (N r' Hr'). now apply AG.
    - exists nan. split; [|right; now split]. apply VA. intros r Hr A. apply (Hno r Hr). now apply AG.
  Qed.

  (** ** The excitation force is added again *)
  Lemma find_filter (l : list (quantity * (list column * list cell))) q : q <> ExcitationForce ->
    find (fun v => quantity_beq q (fst v)) (filter (fun v => negb (quantity_beq ExcitationForce (fst v))) l) = find (fun v => quantity_beq q (fst v)) l.
  Proof.
    intros N. induction l as [|[q' v] l IH]; [reflexivity|]. cbn [filter find fst]. destruct (quantity_beq ExcitationForce q') eqn:E; cbn [negb find fst]; [|now rewrite IH].
    apply internal_quantity_dec_bl in E. subst q'. destruct q; try exact IH. tauto.
  Qed.
  Lemma find_removed (l : list (quantity * (list column * list cell))) :
    find (fun v => quantity_beq ExcitationForce (fst v)) (filter (fun v => negb (quantity_beq ExcitationForce (fst v))) l) = None.
  Proof. induction l as [|[q' v] l IH]; [reflexivity|]. cbn [filter fst]. destruct (quantity_beq ExcitationForce q') eqn:E; cbn [negb]; [exact IH|]. cbn [find fst]. now rewrite E. Qed.
  Lemma set_again results a rows : assemble results = Ok a -> rows_of cell Diffraction results rows -> rows <> [] ->
    exists ds', set_excitation cell cell_add (a_data _ a) = Ok ds' /\ d_coords _ _ ds' = d_coords _ _ (a_data _ a) /\ (forall q, find_var q ds' = find_var q (a_data _ a)).
  Proof.
    intros HA HR HN. destruct (assemble_inv cell nan cell_add arrange results a HA) as (rows0 & ER & ds1 & H1 & H2).
    set (rad := filter (is_kind cell Radiation) _) in *. set (dif := filter (is_kind cell Diffraction) _) in *.
    assert (RK := rows_of_eq cell Diffraction results rows rows0 ltac:(discriminate) HR ER). assert (ED : dif = rows) by (symmetry; exact RK).
    destruct H2 as [[E _]|(_ & ds2 & H2 & EA)]; [congruence|]. rewrite ED in H2.
    assert (N1 : forall q, In q [DiffractionForce; FroudeKrylovForce; ExcitationForce] -> find_var q ds1 = None).
    { intros q' Hq'. destruct H1 as [[_ ->]|[_ H1]]; [reflexivity|]. rewrite (find_var_merge arrange nan _ _ _ H1 q'), find_empty.
      unfold frame. rewrite (frame_var_none cell arrange (cell_of cell) nan rad (quantities Radiation) _ _ q'); [reflexivity|].
      cbn in Hq' |- *. intuition (subst; discriminate). }
    assert (F2 : forall q, In q (quantities Diffraction) -> exists dims xs, find_var q ds2 = Some (dims, xs)).
    { intros q' Hq'. rewrite (find_var_merge arrange nan _ _ _ H2 q'), N1 by (cbn in *; tauto).
      unfold frame, from_dataframe. cbv zeta. rewrite find_var_map by exact Hq'. eauto. }
    assert (NX : find_var ExcitationForce ds2 = None).
    { rewrite (find_var_merge arrange nan _ _ _ H2 ExcitationForce), N1 by (cbn; tauto). unfold frame.
      rewrite (frame_var_none cell arrange (cell_of cell) nan rows (quantities Diffraction) (main_dims Diffraction (a_main _ a)) (other_dims Diffraction) ExcitationForce); [reflexivity|]. cbn. intuition discriminate. }
    destruct (F2 FroudeKrylovForce) as (dims & xs & X1); [cbn; tauto|]. destruct (F2 DiffractionForce) as (dims' & ys & X2); [cbn; tauto|].
    assert (Y1 : find_var FroudeKrylovForce (a_data _ a) = Some (dims, xs)) by (rewrite EA, find_excitation by discriminate; exact X1).
    assert (Y2 : find_var DiffractionForce (a_data _ a) = Some (dims', ys)) by (rewrite EA, find_excitation by discriminate; exact X2).
    assert (Y3 : find_var ExcitationForce (a_data _ a) = Some (dims, map2 cell_add xs ys)).
    { rewrite EA. unfold add_excitation. rewrite X1, X2. unfold find_var in *. cbn [d_vars]. rewrite find_app_case. destruct (find _ (d_vars _ _ ds2)) eqn:Ef; [discriminate|]. reflexivity. }
    unfold set_excitation. rewrite Y1, Y2. eexists. split; [reflexivity|]. split; [reflexivity|]. intros q.
    destruct (quantity_beq q ExcitationForce) eqn:Eq.
    - apply internal_quantity_dec_bl in Eq. subst q. rewrite Y3. unfold find_var. cbn [d_vars]. rewrite find_app_case, find_removed. reflexivity.
    - assert (Nq : q <> ExcitationForce) by (intros ->; discriminate). unfold find_var. cbn [d_vars]. rewrite find_app_case, find_filter by exact Nq.
      destruct (find _ (d_vars _ _ (a_data _ a))); [reflexivity|]. cbn [find fst]. now rewrite Eq.
  Qed.
  Lemma picked_same ds ds' q l : d_coords _ _ ds' = d_coords _ _ ds -> (forall q, find_var q ds' = find_var q ds) -> picked cell ds' q l = picked cell ds q l.
  Proof. intros E1 E2. unfold picked, sel. now rewrite E2, E1. Qed.
  Lemma loop_same ds ds' c : d_coords _ _ ds' = d_coords _ _ ds -> loop_labels cell ds' c = loop_labels cell ds c.
  Proof. intros E. unfold loop_labels. now rewrite E. Qed.

  (** ** Which arrays there are *)
  Lemma no_var k results a : sure k -> assemble results = Ok a -> rows_of cell k results [] -> forall q, In q (quantities k) -> find_var q (a_data _ a) = None.
  Proof.
    intros HK HA HR q Hq. destruct (assemble_inv cell nan cell_add arrange results a HA) as (rows0 & ER & ds1 & H1 & H2).
    set (rad := filter (is_kind cell Radiation) _) in *. set (dif := filter (is_kind cell Diffraction) _) in *.
    assert (RK := rows_of_eq cell k results [] rows0 HK HR ER).
    assert (FN : forall k' rows, k' <> k -> sure k' -> find_var q (frame cell nan arrange k' (a_main _ a) rows) = None).
    { intros k' rows Nk Sk. unfold frame. apply frame_var_none. unfold sure in *. destruct k, k'; try congruence; cbn in Hq |- *; intuition (subst; discriminate). }
    destruct k; [unfold sure in HK; congruence| |].
    - assert (ED : dif = []) by (symmetry; exact RK). destruct H2 as [[_ ->]|(E & _)]; [|contradiction]. destruct H1 as [[_ ->]|[_ H1]]; [reflexivity|].
      rewrite (find_var_merge arrange nan _ _ _ H1 q), find_empty. rewrite FN by discriminate. reflexivity.
    - assert (ED : rad = []) by (symmetry; exact RK). destruct H1 as [[_ ->]|[E _]]; [|contradiction]. destruct H2 as [[_ ->]|(_ & ds2 & H2 & ->)]; [reflexivity|].
      rewrite find_excitation by (cbn in Hq; intuition (subst; discriminate)). rewrite (find_var_merge arrange nan _ _ _ H2 q), find_empty. rewrite FN by discriminate. reflexivity.
  Qed.
  Lemma some_var k results a rows : sure k -> assemble results = Ok a -> rows_of cell k results rows -> rows <> [] -> forall q, In q (quantities k) ->
    exists dims xs, find_var q (a_data _ a) = Some (dims, xs) /\ dims_for cell k (a_main _ a) rows dims.
  Proof.
    intros HK HA HR HN q Hq. destruct (assemble_inv cell nan cell_add arrange results a HA) as (rows0 & ER & ds1 & H1 & H2).
    set (rad := filter (is_kind cell Radiation) _) in *. set (dif := filter (is_kind cell Diffraction) _) in *.
    assert (RK := rows_of_eq cell k results rows rows0 HK HR ER).
    assert (FR : exists dims xs, find_var q (frame cell nan arrange k (a_main _ a) rows) = Some (dims, xs) /\ dims_for cell k (a_main _ a) rows dims).
    { unfold frame, from_dataframe. cbv zeta. rewrite find_var_map by exact Hq. do 2 eexists. split; [reflexivity|].
      intros c. apply (kept_In cell arrange arranged rows (main_dims k (a_main _ a)) (other_dims k) c HN). intros c' H. now apply (dims_disjoint k (a_main _ a)). }
    destruct FR as (dims & xs & FR & DF).
    destruct k; [unfold sure in HK; congruence| |].
    - assert (ED : dif = rows) by (symmetry; exact RK). destruct H2 as [[E _]|(_ & ds2 & H2 & EA)]; [congruence|]. rewrite ED in H2.
      assert (N1 : find_var q ds1 = None).
      { destruct H1 as [[_ ->]|[_ H1]]; [reflexivity|]. rewrite (find_var_merge arrange nan _ _ _ H1 q), find_empty.
        unfold frame. rewrite (frame_var_none cell arrange (cell_of cell) nan rad (quantities Radiation) _ _ q); [reflexivity|]. cbn in Hq |- *. intuition (subst; discriminate). }
      rewrite EA, find_excitation by (cbn in Hq; intuition (subst; discriminate)). rewrite (find_var_merge arrange nan _ _ _ H2 q), N1, FR. cbn. eauto.
    - assert (ED : rad = rows) by (symmetry; exact RK). destruct H1 as [[E _]|[_ H1]]; [congruence|]. rewrite ED in H1.
      assert (F1 : exists ys, find_var q ds1 = Some (dims, ys)) by (rewrite (find_var_merge arrange nan _ _ _ H1 q), find_empty, FR; cbn; eauto).
      destruct F1 as (ys & F1). destruct H2 as [[_ ->]|(_ & ds2 & H2 & ->)]; [eauto|].
      rewrite find_excitation by (cbn in Hq; intuition (subst; discriminate)). rewrite (find_var_merge arrange nan _ _ _ H2 q), F1. cbn. eauto.
  Qed.
  Lemma no_omega results a : assemble results = Ok a -> a_main _ a <> Omega -> loop_labels cell (a_data _ a) COmega = Err KeyError.
  Proof.
    intros HA HM. destruct (assemble_inv cell nan cell_add arrange results a HA) as (rows0 & ER & ds1 & H1 & H2).
    assert (FN : forall k rows, sure k -> ~ In COmega (map fst (d_coords _ _ (frame cell nan arrange k (a_main _ a) rows)))).
    { intros k rows HK H. unfold frame, from_dataframe in H. cbn [d_coords] in H. apply in_map_iff in H. destruct H as ([c l] & E & H). cbn in E. subst c. apply filter_In in H. destruct H as [H _].
      apply in_map_iff in H. destruct H as (c & E & H). injection E as -> _. destruct k, (a_main _ a); cbn in H; intuition (try discriminate; congruence). }
    assert (N1 : ~ In COmega (map fst (d_coords _ _ ds1))).
    { destruct H1 as [[_ ->]|[_ H1]]; [intros []|]. intros H. apply (merge_dims arrange nan _ _ _ H1) in H. destruct H as [[]|H]. revert H. apply FN. discriminate. }
    assert (N : ~ In COmega (map fst (d_coords _ _ (a_data _ a)))).
    { destruct H2 as [[_ ->]|(_ & ds2 & H2 & ->)]; [exact N1|]. rewrite excitation_coords. intros H. apply (merge_dims arrange nan _ _ _ H2) in H. destruct H as [H|H]; [contradiction|]. revert H. apply FN. discriminate. }
    unfold loop_labels. destruct (mem COmega _) eqn:E; [|reflexivity]. apply mem_In in E. contradiction.
  Qed.
End Values.
