(** The bare matrices of a list of results. *)
From Coq Require Import Reals String List Bool Arith Permutation Lia.
From Verif Require Import Model_Base Model_Mesh Proofs_Mesh Model_Problem Model_Solver Proofs_Problem Proofs_Problem2 Model_Dataset Spec_Dataset Proofs_Dataset Proofs_Dataset2 Model_Matrices Spec_Matrices.
Import ListNotations.
Open Scope nat_scope.

Lemma position_at x l i : NoDup l -> nth_error l i = Some x -> position x l = Some i.
Proof.
  intros ND. revert i. induction ND as [|y l Ny ND IH]; intros [|i] H; try discriminate; cbn [position nth_error] in *.
  - injection H as ->. now rewrite (proj2 (value_eqb_eq x x) eq_refl).
  - destruct (value_eqb x y) eqn:E; [apply value_eqb_eq in E; subst; apply nth_error_In in H; contradiction|]. now rewrite (IH i H).
Qed.
Lemma flat_three la lb lc a b c i j k : NoDup la -> NoDup lb -> NoDup lc -> nth_error la i = Some a -> nth_error lb j = Some b -> nth_error lc k = Some c ->
  flat_position [la; lb; lc] [a; b; c] = Some (i * (length lb * length lc) + (j * length lc + k)).
Proof.
  intros Na Nb Nc Ha Hb Hc. cbn [flat_position]. rewrite (position_at a la i), (position_at b lb j), (position_at c lc k) by assumption. f_equal.
  assert (L1 : length (product [lc]) = length lc) by (cbn [product]; clear; induction lc; cbn; auto).
  assert (L2 : length (product [lb; lc]) = length lb * length lc).
  { change (product [lb; lc]) with (flat_map (fun x => map (cons x) (product [lc])) lb). clear Nb Hb. induction lb as [|y l IH]; [reflexivity|]. cbn [flat_map]. rewrite app_length, map_length, L1, IH. reflexivity. }
  rewrite L1, L2. cbn [product length]. lia.
Qed.

Section Matrices.
  Variable cell : Type.
  Variable nan : cell.
  Variable cell_add : cell -> cell -> cell.
  Hypothesis nan_add : cell_add nan nan = nan.
  Variable arrange : column -> list value -> list value.
  Hypothesis arranged : forall c l, Permutation l (arrange c l).
  Notation column_of := (column_of cell).
  Notation assemble := (assemble_dataset cell nan cell_add arrange).

  (** ** The labels of a coordinate are different *)
  Definition tidy {X} (ds : dset quantity X) : Prop := forall c, NoDup (labels_in (d_coords _ _ ds) c).
  Lemma labels_or (coords : list (column * list value)) c : labels_in coords c = [] \/ In (c, labels_in coords c) coords.
  Proof.
    unfold labels_in. destruct (find _ coords) as [[c' l]|] eqn:E; [|now left]. right. apply find_some in E. destruct E as [H E]. cbn in E. apply column_eq in E. now subst.
  Qed.
  Lemma frame_tidy k t rows : tidy (frame cell nan arrange k t rows).
  Proof.
    intros c. destruct (labels_or (d_coords _ _ (frame cell nan arrange k t rows)) c) as [->|H]; [constructor|]. revert H. generalize (labels_in (d_coords _ _ (frame cell nan arrange k t rows)) c).
    intros l H. unfold frame, from_dataframe in H. cbn [d_coords] in H. apply filter_In in H. destruct H as [H _]. apply in_map_iff in H. destruct H as (c' & E & _). injection E as <- <-.
    eapply Permutation_NoDup; [apply arranged|apply unique_NoDup].
  Qed.
  Lemma merge_tidy (a b m : dset quantity cell) : xmerge arrange nan a b = Ok m -> tidy a -> tidy b -> tidy m.
  Proof.
    intros E Ta Tb c. destruct (labels_or (d_coords _ _ m) c) as [->|H]; [constructor|]. revert H. generalize (labels_in (d_coords _ _ m) c). intros l H.
    rewrite (merge_coords_of arrange nan a b m E) in H. apply in_map_iff in H. destruct H as (c' & X & _). injection X as <- <-. unfold merge_labels.
    destruct (negb (mem c' (map fst (d_coords _ _ a)))); [apply Tb|]. destruct (negb (mem c' (map fst (d_coords _ _ b)))); [apply Ta|].
    destruct (list_eqb _ _); [apply Ta|]. eapply Permutation_NoDup; [apply arranged|apply unique_NoDup].
  Qed.

  (** ** The dimensions of the arrays, in their order *)
  Definition wanted (k : pkind) (q : quantity) : Prop := In q (quantities k) \/ (k = Diffraction /\ q = ExcitationForce).
  Lemma frame_find k t rows q : sure k -> rows <> [] -> (forall c, In c (other_dims k) -> ~ varying cell rows c) -> In q (quantities k) ->
    exists xs, find_var q (frame cell nan arrange k t rows) = Some (main_dims k t, xs).
  Proof.
    intros HK HR HV Hq. unfold frame, from_dataframe. cbv zeta. rewrite find_var_map by exact Hq. eexists. f_equal. f_equal.
    set (coords := map (fun c => _) (other_dims k ++ main_dims k t)).
    assert (SQ := sq_spec cell arrange arranged rows (main_dims k t) (other_dims k)). cbv zeta in SQ. fold coords in SQ.
    rewrite filter_app. assert (E1 : filter (fun c => negb (mem c (other_dims k) && Nat.eqb (length (labels_in coords c)) 1)) (other_dims k) = []).
    { assert (G : forall c, In c (other_dims k) -> (mem c (other_dims k) && Nat.eqb (length (labels_in coords c)) 1)%bool = true).
      { intros c Hc. apply SQ; [apply in_or_app; now left|exact HR|]. split; [exact Hc|now apply HV]. }
      revert G. generalize (other_dims k) at 1 4. intros l G. induction l as [|c l IH]; [reflexivity|]. cbn [filter]. rewrite (G c (or_introl eq_refl)). cbn [negb]. apply IH. intros c' H. apply G. now right. }
    assert (E2 : filter (fun c => negb (mem c (other_dims k) && Nat.eqb (length (labels_in coords c)) 1)) (main_dims k t) = main_dims k t).
    { assert (G : forall c, In c (main_dims k t) -> mem c (other_dims k) = false).
      { intros c Hc. destruct (mem c (other_dims k)) eqn:M; [|reflexivity]. apply mem_In in M. exfalso. exact (dims_disjoint k t c HK Hc M). }
      revert G. generalize (main_dims k t). intros l G. induction l as [|c l IH]; [reflexivity|]. cbn [filter]. rewrite (G c (or_introl eq_refl)). cbn [andb negb]. f_equal. apply IH. intros c' H. apply G. now right. }
    rewrite E1, E2. reflexivity.
  Qed.
  Lemma found k results a rows q : sure k -> assemble results = Ok a -> rows_of cell k results rows -> rows <> [] ->
    (forall c, In c (other_dims k) -> ~ varying cell rows c) -> wanted k q ->
    tidy (a_data _ a) /\ exists xs, find_var q (a_data _ a) = Some (main_dims k (a_main _ a), xs).
  Proof.
    intros HK HA HR HN HV Hq. destruct (assemble_inv cell nan cell_add arrange results a HA) as (rows0 & ER & ds1 & H1 & H2).
    set (rad := filter (is_kind cell Radiation) _) in *. set (dif := filter (is_kind cell Diffraction) _) in *.
    assert (RK := rows_of_eq cell k results rows rows0 HK HR ER).
    assert (TE : tidy (@empty_set quantity cell)) by (intros c; constructor).
    assert (T1 : tidy ds1) by (destruct H1 as [[_ ->]|[_ H1]]; [exact TE|]; eapply merge_tidy; [exact H1|exact TE|apply frame_tidy]).
    split.
    - destruct H2 as [[_ ->]|(_ & ds2 & H2 & ->)]; [exact T1|]. unfold tidy. rewrite excitation_coords. eapply merge_tidy; [exact H2|exact T1|apply frame_tidy].
    - destruct k; [unfold sure in HK; congruence| |].
      + assert (ED : dif = rows) by (symmetry; exact RK). destruct H2 as [[E _]|(_ & ds2 & H2 & EA)]; [congruence|]. rewrite ED in H2.
        assert (N1 : forall q, In q [DiffractionForce; FroudeKrylovForce; ExcitationForce] -> find_var q ds1 = None).
        { intros q' Hq'. destruct H1 as [[_ ->]|[_ H1]]; [reflexivity|]. rewrite (find_var_merge arrange nan _ _ _ H1 q'), find_empty.
          unfold frame. rewrite (frame_var_none cell arrange (cell_of cell) nan rad (quantities Radiation) _ _ q'); [reflexivity|].
          cbn in Hq' |- *. intuition (subst; discriminate). }
        assert (F2 : forall q, In q (quantities Diffraction) -> exists xs, find_var q ds2 = Some (main_dims Diffraction (a_main _ a), xs)).
        { intros q' Hq'. rewrite (find_var_merge arrange nan _ _ _ H2 q'), N1 by (cbn in *; tauto).
          destruct (frame_find Diffraction (a_main _ a) rows q') as (xs & ->); [discriminate|exact HN|exact HV|exact Hq'|]. eauto. }
        rewrite EA. destruct Hq as [Hq|[_ ->]].
        * rewrite find_excitation by (cbn in Hq; intuition (subst; discriminate)). now apply F2.
        * assert (NX : find_var ExcitationForce ds2 = None).
          { rewrite (find_var_merge arrange nan _ _ _ H2 ExcitationForce), N1 by (cbn; tauto). unfold frame.
            rewrite (frame_var_none cell arrange (cell_of cell) nan rows (quantities Diffraction) (main_dims Diffraction (a_main _ a)) (other_dims Diffraction) ExcitationForce); [reflexivity|]. cbn. intuition discriminate. }
          destruct (F2 FroudeKrylovForce) as (xs & X1); [cbn; tauto|]. destruct (F2 DiffractionForce) as (ys & X2); [cbn; tauto|].
          unfold add_excitation. rewrite X1, X2. unfold find_var in *. cbn [d_vars]. rewrite find_app_case. destruct (find _ (d_vars _ _ ds2)) eqn:Ef; [discriminate|]. cbn. eauto.
      + assert (ED : rad = rows) by (symmetry; exact RK). destruct H1 as [[E _]|[_ H1]]; [congruence|]. rewrite ED in H1. destruct Hq as [Hq|[Hq _]]; [|discriminate].
        destruct (frame_find Radiation (a_main _ a) rows q) as (xs & X); [discriminate|exact HN|exact HV|exact Hq|].
        assert (F1 : exists ys, find_var q ds1 = Some (main_dims Radiation (a_main _ a), ys)) by (rewrite (find_var_merge arrange nan _ _ _ H1 q), find_empty, X; eauto).
        destruct F1 as (ys & F1). destruct H2 as [[_ ->]|(_ & ds2 & H2 & ->)]; [eauto|].
        rewrite find_excitation by (cbn in Hq; intuition (subst; discriminate)). rewrite (find_var_merge arrange nan _ _ _ H2 q), F1. eauto.
  Qed.

  Lemma good_of results a : assemble results = Ok a -> good (a_data _ a).
  Proof.
    intros HA. destruct (assemble_inv cell nan cell_add arrange results a HA) as (rows0 & ER & ds1 & H1 & H2).
    assert (GF : forall k rows, sure k -> good (frame cell nan arrange k (a_main _ a) rows)) by (intros; apply good_frame; now apply index_nodup).
    assert (GE : good (@empty_set quantity cell)) by constructor.
    assert (G1 : good ds1) by (destruct H1 as [[_ ->]|[_ H1]]; [exact GE|]; eapply good_merge; [exact H1|exact GE|apply GF; discriminate]).
    destruct H2 as [[_ ->]|(_ & ds2 & H2 & ->)]; [exact G1|]. unfold good. rewrite excitation_coords. eapply good_merge; [exact H2|exact G1|apply GF; discriminate].
  Qed.
  (** ** The values *)
  Definition three (t : freq_type) (k : pkind) : column := match k with Diffraction => WaveDirection | _ => RadiatingDof end.
  Lemma main_three k t : main_dims k t = [freq_column t; three t k; InfluencedDof].
  Proof. destruct k, t; reflexivity. Qed.
  Definition meaning (q : quantity) (r : row cell) : cell :=
    match q with ExcitationForce => cell_add (cell_of cell r FroudeKrylovForce) (cell_of cell r DiffractionForce) | _ => cell_of cell r q end.
  Lemma decide_row (params : list (column * value)) (rows : list (row cell)) :
    (exists r, first_such cell (fun r => forall c v, In (c, v) params -> column_of r c = v) rows r) \/ (forall r, In r rows -> ~ forall c v, In (c, v) params -> column_of r c = v).
  Proof.
    set (p := fun r : row cell => forallb (fun cv => value_eqb (column_of r (fst cv)) (snd cv)) params).
    assert (E : forall r, p r = true <-> forall c v, In (c, v) params -> column_of r c = v).
    { intros r. unfold p. rewrite forallb_forall. split; [intros H c v Hc; apply (proj1 (value_eqb_eq _ _)); exact (H (c, v) Hc)|intros H [c v] Hc; apply (proj2 (value_eqb_eq _ _)); now apply H]. }
    destruct (find p rows) as [r|] eqn:Ef.
    - left. exists r. apply (find_first cell _ p rows r); [intros x _; apply E|exact Ef].
    - right. intros r Hr H. apply E in H. rewrite (find_none p rows Ef r Hr) in H. discriminate.
  Qed.
  Lemma values_are k results a rows q : sure k -> assemble results = Ok a -> rows_of cell k results rows -> rows <> [] -> same_conditions cell k rows -> wanted k q ->
    exists xs, values_of cell (a_data _ a) q = Some ([length (ticks cell a (frequency_of cell a)); length (ticks cell a (three (a_main _ a) k)); length (ticks cell a InfluencedDof)], xs)
      /\ (0 < length (ticks cell a (frequency_of cell a)) /\ 0 < length (ticks cell a (three (a_main _ a) k)) /\ 0 < length (ticks cell a InfluencedDof))
      /\ forall p i j w d e, nth_error (ticks cell a (frequency_of cell a)) p = Some w -> nth_error (ticks cell a (three (a_main _ a) k)) i = Some d -> nth_error (ticks cell a InfluencedDof) j = Some e ->
         exists x, nth_error xs (p * (length (ticks cell a (three (a_main _ a) k)) * length (ticks cell a InfluencedDof)) + (i * length (ticks cell a InfluencedDof) + j)) = Some x
           /\ coefficient cell nan rows [(frequency_of cell a, w); (three (a_main _ a) k, d); (InfluencedDof, e)] (meaning q) x.
  Proof.
    intros HK HA HR HN HV Hq. destruct (found k results a rows q HK HA HR HN HV Hq) as (T & xs & F). exists xs.
    destruct (assembled_values cell nan cell_add nan_add arrange arranged k results a rows HK HA HR HN) as (dims & DF & DL & DS).
    assert (FE : frequency_of cell a = freq_column (a_main _ a)) by (unfold frequency_of; destruct (a_main _ a); reflexivity).
    assert (DI : forall c, In c dims <-> In c [freq_column (a_main _ a); three (a_main _ a) k; InfluencedDof]).
    { intros c. rewrite (DF c), main_three. split; [intros [H|[H1 H2]]; [exact H|exfalso; exact (HV c H1 H2)]|now left]. }
    split; [unfold values_of; rewrite F; cbn [option_map fst snd]; rewrite main_three; cbn [map]; rewrite FE; reflexivity|]. split.
    { assert (P : forall c, In c dims -> 0 < length (ticks cell a c)).
      { intros c Hc. destruct rows as [|r0 rows']; [contradiction|]. destruct (DL r0 c (or_introl eq_refl) Hc) as (l & Hl & Hv).
        unfold ticks. unfold labels_in. destruct (find (fun cl => column_beq c (fst cl)) (d_coords _ _ (a_data _ a))) as [[c' l']|] eqn:Ef.
        - (* any list of labels under this name is not empty *)
          assert (G : Proofs_Dataset2.good (a_data _ a)) by (exact (good_of results a HA)).
          apply find_some in Ef. destruct Ef as [Hin E]. cbn in E. apply column_eq in E. subst c'.
          assert (E1 := labels_of _ c l G Hl). assert (E2 := labels_of _ c l' G Hin). rewrite E1 in E2. subst l'. destruct l; [destruct Hv|cbn; lia].
        - exfalso. apply (find_none _ _ Ef) in Hl. cbn in Hl. rewrite (proj2 (column_eq c c) eq_refl) in Hl. discriminate. }
      rewrite FE. split; [|split]; apply P; apply DI; cbn; tauto. }
    intros p i j w d e Hw Hd He. rewrite FE in *.
    set (s := fun c => if column_beq c (freq_column (a_main _ a)) then w else if column_beq c (three (a_main _ a) k) then d else e).
    assert (Sw : s (freq_column (a_main _ a)) = w) by (unfold s; now rewrite (proj2 (column_eq _ _) eq_refl)).
    assert (Sd : s (three (a_main _ a) k) = d) by (unfold s; destruct (a_main _ a), k; reflexivity).
    assert (Se : s InfluencedDof = e) by (unfold s; destruct (a_main _ a), k; reflexivity).
    assert (SL : forall c, In c dims -> labelled (a_data _ a) c (s c)).
    { intros c Hc. apply DI in Hc.
      assert (G : forall c' n v, nth_error (ticks cell a c') n = Some v -> labelled (a_data _ a) c' v).
      { intros c' n v H. unfold ticks in H. destruct (labels_or (d_coords _ _ (a_data _ a)) c') as [X|X]; [rewrite X in H; destruct n; discriminate|].
        exists (labels_in (d_coords _ _ (a_data _ a)) c'). split; [exact X|eapply nth_error_In; exact H]. }
      destruct Hc as [<-|[<-|[<-|[]]]]; [rewrite Sw; now apply (G _ p)|rewrite Sd; now apply (G _ i)|rewrite Se; now apply (G _ j)]. }
    assert (AG : forall r, agrees cell dims s r <-> forall c v, In (c, v) [(freq_column (a_main _ a), w); (three (a_main _ a) k, d); (InfluencedDof, e)] -> column_of r c = v).
    { intros r. unfold agrees. split.
      - intros H c v [E|[E|[E|[]]]]; injection E as <- <-; [rewrite <- Sw|rewrite <- Sd|rewrite <- Se]; apply H; apply DI; cbn; tauto.
      - intros H c Hc. apply DI in Hc. destruct Hc as [<-|[<-|[<-|[]]]]; [rewrite Sw|rewrite Sd|rewrite Se]; apply H; cbn; tauto. }
    destruct (DS s SL) as [D1 D2].
    assert (AT : forall x, sel (a_data _ a) q s = Ok x -> nth_error xs (p * (length (ticks cell a (three (a_main _ a) k)) * length (ticks cell a InfluencedDof)) + (i * length (ticks cell a InfluencedDof) + j)) = Some x).
    { intros x. unfold sel. rewrite F. unfold at_labels. rewrite main_three. cbn [map]. rewrite Sw, Sd, Se.
      rewrite (flat_three _ _ _ w d e p i j) by (try apply T; assumption). unfold ticks. destruct (nth_error xs _); [|discriminate]. intros E. now injection E as ->. }
    assert (FS : forall r, first_such cell (fun r => forall c v, In (c, v) [(freq_column (a_main _ a), w); (three (a_main _ a) k, d); (InfluencedDof, e)] -> column_of r c = v) rows r ->
      first_such cell (agrees cell dims s) rows r).
    { intros r (l1 & l2 & E & P & N). exists l1, l2. split; [exact E|]. split; [now apply AG|]. intros r' Hr' A. apply (N r' Hr'). now apply AG. }
    assert (VA : (forall r, first_such cell (agrees cell dims s) rows r -> sel (a_data _ a) q s = Ok (meaning q r)) /\ ((forall r, In r rows -> ~ agrees cell dims s r) -> sel (a_data _ a) q s = Ok nan)).
    { destruct Hq as [Hq|[-> ->]]; [|exact (D2 eq_refl)]. destruct (D1 q Hq) as [E1 E2]. split; [|exact E2]. intros r H. rewrite (E1 r H). clear - Hq. destruct q; try reflexivity. destruct k; cbn in Hq; intuition discriminate. }
    destruct (decide_row [(freq_column (a_main _ a), w); (three (a_main _ a) k, d); (InfluencedDof, e)] rows) as [(r & Hr)|Hno].
    - exists (meaning q r). split; [apply AT; apply VA; now apply FS|]. left. eauto.
    - exists nan. split; [apply AT; apply VA; intros r Hr A; apply (Hno r Hr); now apply AG|]. right. auto.
  Qed.
End Matrices.
