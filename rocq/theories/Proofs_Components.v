(** Proofs about the connected components. *)
From Coq Require Import Reals List Bool Arith Permutation Relation_Operators Lia.
From Verif Require Import Model_Base Model_Geometry Model_Mesh Spec_Mesh Model_Quality Spec_Quality
  Proofs_Mesh Proofs_Mesh2 Proofs_Mesh3 Proofs_Quality.
Import ListNotations.
Open Scope nat_scope.

Definition shares (f h : face) : Prop := exists v, In v (face_ids f) /\ In v (face_ids h).
Inductive chain (fs : list face) : face -> face -> Prop :=
| chain_refl f : In f fs -> chain fs f f
| chain_step f h k : chain fs f h -> In k fs -> shares h k -> chain fs f k.
Lemma chain_In fs f h : chain fs f h -> In f fs /\ In h fs.
Proof. induction 1 as [f H|f h k H [IH _] Hk _]; auto. Qed.
Lemma chain_trans fs f h k : chain fs f h -> chain fs h k -> chain fs f k.
Proof. intros H1 H2. revert f H1. induction H2 as [h _|h k l _ IH Hl Hs]; intros f H1; [exact H1|]. eapply chain_step; [apply IH|exact Hl|exact Hs]. exact H1. Qed.
Lemma shares_sym f h : shares f h -> shares h f.
Proof. intros (v & A & B). now exists v. Qed.
Lemma chain_sym fs f h : chain fs f h -> chain fs h f.
Proof.
  induction 1 as [f Hf|f h k H IH Hk Hs]; [now constructor|]. apply chain_trans with h; [|exact IH].
  apply chain_step with k; [now constructor|now apply (chain_In fs f h)|now apply shares_sym].
Qed.
Lemma chain_incl fs fs' f h : incl fs fs' -> chain fs f h -> chain fs' f h.
Proof. intros Hi. induction 1 as [f H|f h k H IH Hk Hs]; [constructor; auto|]. econstructor; eauto. Qed.

Lemma unique_In l i : In i (unique l) <-> In i l.
Proof.
  unfold unique. rewrite filter_In, memb_In, in_seq. split; [tauto|]. intros H. split; [|exact H].
  assert (i <= list_max l); [|lia]. pose proof (list_max_le l (list_max l)) as [M _]. specialize (M (le_n _)).
  rewrite Forall_forall in M. now apply M.
Qed.
Lemma unique_NoDup l : NoDup (unique l).
Proof. apply NoDup_filter, seq_NoDup. Qed.
Lemma touches_spec g f : touches g f = true <-> exists v, In v (face_ids f) /\ In v g.
Proof.
  unfold touches. rewrite existsb_exists. split; intros (v & A & B); exists v; (split; [exact A|]); now apply memb_In.
Qed.
Lemma select_map {A} (t : A -> bool) l : select (map t l) l = filter t l.
Proof. unfold select. induction l as [|a l IH]; cbn; [reflexivity|]. destruct (t a); cbn; now rewrite IH. Qed.
Definition next_group (fs : list face) (g : list nat) : list nat := unique (vertices_of (filter (touches g) fs)).
Lemma next_group_In fs g v : In v (next_group fs g) <-> exists h, In h fs /\ touches g h = true /\ In v (face_ids h).
Proof.
  unfold next_group, vertices_of. rewrite unique_In, in_flat_map. split.
  - intros (h & H & Hv). apply filter_In in H. exists h. tauto.
  - intros (h & A & B & C). exists h. rewrite filter_In. auto.
Qed.
Lemma touches_own h g : (forall v, In v (face_ids h) -> In v g) -> touches g h = true.
Proof. intros H. apply touches_spec. exists (fa h). split; [cbn; auto|apply H; cbn; auto]. Qed.
Lemma next_monotone fs g h : In h fs -> touches g h = true -> touches (next_group fs g) h = true.
Proof. intros Hh T. apply touches_own. intros v Hv. apply next_group_In. exists h. auto. Qed.

Record component (fs : list face) (f : face) (g : list nat) : Prop := {
  cp_first : forall v, In v (face_ids f) -> In v g;
  cp_closed : forall h v, In h fs -> touches g h = true -> In v (face_ids h) -> In v g;
  cp_from : forall v, In v g -> exists h, In h fs /\ In v (face_ids h);
  cp_chain : forall h, In h fs -> touches g h = true -> chain fs f h;
  cp_nodup : NoDup g }.

Lemma grow_spec fs f : In f fs -> forall fuel group mask g,
  grow fuel fs group mask = Some g ->
  (forall v, In v (face_ids f) -> In v group) ->
  (forall h, In h fs -> touches group h = true -> chain fs f h) ->
  (mask = map (fun _ => true) fs \/ exists gp, mask = map (touches gp) fs /\ group = next_group fs gp) ->
  component fs f g.
Proof.
  intros Hf. induction fuel as [|n IH]; intros group mask g; cbn [grow]; [discriminate|]. unfold faces_in_group.
  rewrite select_map. fold (next_group fs group). intros E H1 H2 H3.
  assert (N1 : forall v, In v (face_ids f) -> In v (next_group fs group)).
  { intros v Hv. apply next_group_In. exists f. split; [exact Hf|]. split; [|exact Hv]. now apply touches_own. }
  assert (N2 : forall h, In h fs -> touches (next_group fs group) h = true -> chain fs f h).
  { intros h Hh T. apply touches_spec in T. destruct T as (v & A & B). apply next_group_In in B.
    destruct B as (h' & B1 & B2 & B3). apply chain_step with h'; [now apply H2|exact Hh|now exists v]. }
  destruct (list_eq_dec _ _ _) as [Eq|Ne].
  - injection E as <-. constructor; [exact N1| | |exact N2|apply unique_NoDup].
    + assert (C : forall h, In h fs -> touches (next_group fs group) h = true -> touches group h = true).
      { intros h Hh T. destruct H3 as [->|(gp & -> & ->)].
        - rewrite map_ext_in_iff in Eq. auto.
        - rewrite map_ext_in_iff in Eq.
          apply touches_spec in T. destruct T as (v & A & B). apply next_group_In in B. destruct B as (h' & B1 & B2 & B3).
          apply touches_spec. exists v. split; [exact A|]. apply next_group_In. exists h'.
          split; [exact B1|]. split; [|exact B3]. now rewrite <- (Eq h' B1). }
      intros h v Hh T Hv. apply next_group_In. exists h. auto.
    + intros v Hv. apply next_group_In in Hv. destruct Hv as (h & A & _ & B). now exists h.
  - apply (IH _ _ _ E N1 N2). right. exists group. auto.
Qed.
Definition count_true (m : list bool) : nat := length (filter (fun b => b) m).
Lemma count_true_le m : count_true m <= length m.
Proof. unfold count_true. induction m as [|[] m IH]; cbn; lia. Qed.
Lemma count_true_lt : forall m1 m2 : list bool, length m1 = length m2 ->
  (forall k, nth_error m1 k = Some true -> nth_error m2 k = Some true) -> m2 <> m1 -> count_true m1 < count_true m2.
Proof.
  assert (Le : forall m1 m2 : list bool, length m1 = length m2 ->
     (forall k, nth_error m1 k = Some true -> nth_error m2 k = Some true) -> count_true m1 <= count_true m2).
  { induction m1 as [|a m1 IH]; intros [|b m2] L H; try discriminate; [auto|]. injection L as L.
    specialize (IH m2 L (fun k => H (S k))). specialize (H 0). unfold count_true in *. destruct a, b; cbn in *; try lia.
    specialize (H eq_refl). discriminate. }
  induction m1 as [|a m1 IH]; intros [|b m2] L H N; try discriminate; [contradiction|]. injection L as L.
  destruct (Bool.bool_dec b a) as [->|Nab].
  - specialize (IH m2 L (fun k => H (S k))). assert (m2 <> m1) by (intros ->; contradiction).
    specialize (IH H0). unfold count_true in *. destruct a; cbn; lia.
  - specialize (Le m1 m2 L (fun k => H (S k))). specialize (H 0). destruct a, b; cbn in *; try congruence.
    + specialize (H eq_refl). discriminate.
    + unfold count_true in *. cbn. lia.
Qed.
Lemma grow_ends fs : forall fuel gp, length fs < fuel + count_true (map (touches gp) fs) ->
  exists g, grow fuel fs (next_group fs gp) (map (touches gp) fs) = Some g.
Proof.
  induction fuel as [|n IH]; intros gp H.
  - pose proof (count_true_le (map (touches gp) fs)) as L. rewrite map_length in L. lia.
  - cbn [grow]. unfold faces_in_group. destruct (list_eq_dec _ _ _) as [Eq|Ne]; [eauto|].
    rewrite select_map. apply IH.
    pose proof (count_true_lt (map (touches gp) fs) (map (touches (next_group fs gp)) fs)) as L. rewrite !map_length in L.
    specialize (L eq_refl). assert (count_true (map (touches gp) fs) < count_true (map (touches (next_group fs gp)) fs)); [|lia].
    apply L; [|exact Ne]. intros k. rewrite !nth_error_map. destruct (nth_error fs k) as [h|] eqn:E; cbn; [|discriminate].
    intros [= T]. f_equal. apply next_monotone; [now apply nth_error_In in E|exact T].
Qed.
Lemma grow_first fs f : In f fs -> exists g, grow (S (S (length fs))) fs (face_ids f) (map (fun _ => true) fs) = Some g /\ component fs f g.
Proof.
  intros Hf. assert (E : exists g, grow (S (S (length fs))) fs (face_ids f) (map (fun _ => true) fs) = Some g).
  { remember (S (length fs)) as n. cbn [grow]. unfold faces_in_group. destruct (list_eq_dec _ _ _) as [Eq|Ne]; [eauto|].
    rewrite select_map. apply (grow_ends fs n (face_ids f)). lia. }
  destruct E as [g E]. exists g. split; [exact E|]. apply (grow_spec fs f Hf _ _ _ _ E); [auto| |now left].
  intros h Hh T. apply touches_spec in T. destruct T as (v & A & B).
  apply chain_step with f; [now constructor|exact Hh|now exists v].
Qed.

Record clusters (fs : list face) (groups : list (list nat)) : Prop := {
  cl_closed : forall g h v, In g groups -> In h fs -> touches g h = true -> In v (face_ids h) -> In v g;
  cl_from : forall g v, In g groups -> In v g -> exists h, In h fs /\ In v (face_ids h);
  cl_chain : forall g f h, In g groups -> In f fs -> In h fs -> touches g f = true -> touches g h = true -> chain fs f h;
  cl_nodup : NoDup (concat groups);
  cl_some : forall g, In g groups -> exists f, In f fs /\ touches g f = true }.
Lemma NoDup_concat_app (groups : list (list nat)) g : NoDup (concat groups) -> NoDup g ->
  (forall v, In v g -> ~ In v (concat groups)) -> NoDup (concat (groups ++ [g])).
Proof.
  intros H1 H2 H3. rewrite concat_app. cbn. rewrite app_nil_r.
  apply (Permutation_NoDup (l := g ++ concat groups)); [apply Permutation_app_comm|].
  induction g as [|v g IH]; cbn; [exact H1|]. inversion H2; subst. constructor.
  - intros H. apply in_app_or in H. destruct H as [H|H]; [contradiction|]. apply (H3 v); cbn; auto.
  - apply IH; [assumption|]. intros w Hw. apply H3. now right.
Qed.
Lemma filter_length_lt {A} (t t' : A -> bool) l x : (forall y, t' y = true -> t y = true) -> In x l -> t x = true -> t' x = false ->
  length (filter t' l) < length (filter t l).
Proof.
  intros H. assert (Le : forall l, length (filter t' l) <= length (filter t l)).
  { clear l. induction l as [|a l IH]; cbn; [auto|]. specialize (H a). destruct (t' a); [rewrite H by reflexivity; cbn; lia|].
    destruct (t a); cbn; lia. }
  induction l as [|a l IH]; cbn; [intros []|]. intros [->|Hx] T T'.
  - rewrite T, T'. cbn. specialize (Le l). lia.
  - specialize (IH Hx T T'). specialize (H a). destruct (t' a); [rewrite H by reflexivity; cbn; lia|]. destruct (t a); cbn; lia.
Qed.
Lemma cluster_ok fs : forall fuel groups, clusters fs groups ->
  length (filter (fun f => negb (existsb (fun g => touches g f) groups)) fs) <= fuel ->
  exists groups', cluster fuel fs groups = Some groups' /\ clusters fs groups'
    /\ forall f, In f fs -> exists g, In g groups' /\ touches g f = true.
Proof.
  induction fuel as [|n IH]; intros groups C L; cbn [cluster].
  - destruct (filter _ fs) as [|f rest] eqn:E; [|cbn in L; lia]. exists groups. split; [reflexivity|]. split; [exact C|].
    intros f Hf. destruct (existsb (fun g => touches g f) groups) eqn:T; [apply existsb_exists in T; exact T|].
    assert (H : In f []); [|destruct H]. rewrite <- E. apply filter_In. rewrite T. auto.
  - destruct (filter _ fs) as [|f rest] eqn:E.
    + exists groups. split; [reflexivity|]. split; [exact C|].
      intros f Hf. destruct (existsb (fun g => touches g f) groups) eqn:T; [apply existsb_exists in T; exact T|].
      assert (H : In f []); [|destruct H]. rewrite <- E. apply filter_In. rewrite T. auto.
    + destruct (grow_first (f :: rest) f (or_introl eq_refl)) as (g & Eg & Cg). rewrite Eg.
      assert (Rem : forall h, In h (f :: rest) <-> In h fs /\ forall g', In g' groups -> touches g' h = false).
      { intros h. rewrite <- E, filter_In, negb_true_iff. split; intros [A B]; (split; [exact A|]).
        - intros g' Hg. destruct (touches g' h) eqn:T; [|reflexivity]. assert (existsb (fun g => touches g h) groups = true); [|congruence].
          apply existsb_exists. eauto.
        - destruct (existsb _ _) eqn:T; [|reflexivity]. apply existsb_exists in T. destruct T as (g' & T1 & T2).
          rewrite (B g' T1) in T2. discriminate. }
      destruct Cg as [G1 G2 G3 G4 G5]. destruct C as [C1 C2 C3 C4 C5].
      assert (Hff : In f fs) by (apply Rem; now left).
      (* a face touching the new group is one of the remaining faces *)
      assert (New : forall h, In h fs -> touches g h = true -> In h (f :: rest)).
      { intros h Hh T. apply Rem. split; [exact Hh|]. intros g' Hg. destruct (touches g' h) eqn:T'; [exfalso|reflexivity].
        apply touches_spec in T. destruct T as (v & A & B). destruct (G3 v B) as (r & Hr & Hv).
        apply Rem in Hr. destruct Hr as [Hr1 Hr2]. specialize (Hr2 g' Hg).
        assert (touches g' r = true); [|congruence]. apply touches_spec. exists v. split; [exact Hv|].
        now apply (C1 g' h v). }
      assert (Cn : clusters fs (groups ++ [g])).
      { constructor.
        - intros g' h v Hg Hh T Hv. apply in_app_or in Hg. destruct Hg as [Hg|[<-|[]]]; [now apply (C1 g' h)|].
          apply (G2 h v); auto.
        - intros g' v Hg Hv. apply in_app_or in Hg. destruct Hg as [Hg|[<-|[]]]; [now apply (C2 g')|].
          destruct (G3 v Hv) as (r & Hr & Hv'). exists r. split; [now apply Rem|exact Hv'].
        - intros g' f1 f2 Hg H1 H2 T1 T2. apply in_app_or in Hg. destruct Hg as [Hg|[<-|[]]]; [now apply (C3 g')|].
          assert (I : incl (f :: rest) fs) by (intros x Hx; now apply Rem).
          apply (chain_incl _ _ _ _ I). apply chain_trans with f; [apply chain_sym|]; apply G4; auto.
        - apply NoDup_concat_app; [exact C4|exact G5|]. intros v Hv H. apply in_concat in H. destruct H as (g' & Hg & Hv').
          destruct (G3 v Hv) as (r & Hr & Hvr). apply Rem in Hr. destruct Hr as [_ Hr]. specialize (Hr g' Hg).
          assert (touches g' r = true); [|congruence]. apply touches_spec. eauto.
        - intros g' Hg. apply in_app_or in Hg. destruct Hg as [Hg|[<-|[]]]; [now apply C5|].
          exists f. split; [exact Hff|now apply touches_own]. }
      apply IH; [exact Cn|]. assert (Tf : touches g f = true) by now apply touches_own.
      assert (length (filter (fun f0 => negb (existsb (fun g0 => touches g0 f0) (groups ++ [g]))) fs)
              < length (filter (fun f0 => negb (existsb (fun g0 => touches g0 f0) groups)) fs)); [|rewrite E in H; cbn in *; lia].
      apply filter_length_lt with f; [| exact Hff | |].
      * intros y. rewrite existsb_app, negb_orb, andb_true_iff. tauto.
      * assert (In f (f :: rest)) by now left. rewrite <- E in H. apply filter_In in H. tauto.
      * rewrite existsb_app. cbn [existsb]. rewrite Tf, orb_true_l, orb_true_r. reflexivity.
Qed.
Lemma clustering_ok fs : exists groups, clustering fs = Some groups /\ clusters fs groups
  /\ forall f, In f fs -> exists g, In g groups /\ touches g f = true.
Proof.
  apply cluster_ok.
  - constructor; try (intros; contradiction). constructor.
  - generalize (fun f => negb (existsb (fun g => touches g f) [])). intros t. induction fs as [|f l IH]; cbn; [lia|]. destruct (t f); cbn; lia.
Qed.

(** Chains of faces and chains of positions. *)
Lemma connected_chain fs i j f h : nth_error fs i = Some f -> nth_error fs j = Some h -> connected fs i j <-> chain fs f h.
Proof.
  intros Hi Hj. split.
  - intros C. revert f h Hi Hj.
    induction C as [i j (f' & h' & v & A & B & C & D)|i|i k j C1 IH1 C2 IH2]; intros f h Hi Hj.
    + rewrite Hi in A. rewrite Hj in B. injection A as ->. injection B as ->.
      apply chain_step with f'; [constructor; now apply nth_error_In in Hi|now apply nth_error_In in Hj|now exists v].
    + rewrite Hi in Hj. injection Hj as ->. constructor. now apply nth_error_In in Hi.
    + destruct (nth_error fs k) as [x|] eqn:Ek.
      * apply chain_trans with x; auto.
      * exfalso. clear IH1 IH2. apply nth_error_None in Ek.
        assert (G : forall a b, clos_refl_trans nat (share_vertex fs) a b -> a < length fs <-> b < length fs).
        { induction 1 as [a b (f' & h' & v & A & B & _)|a|a b c _ IH1 _ IH2]; [|tauto|tauto].
          split; intros _; apply nth_error_Some; congruence. }
        apply G in C1. assert (i < length fs) by (apply nth_error_Some; congruence). lia.
  - intros C. revert i j Hi Hj. induction C as [f Hf|f h k C IH Hk Hs]; intros i j Hi Hj.
    + apply rt_step. exists f, f, (fa f). cbn. auto 8.
    + destruct (chain_In _ _ _ C) as [_ Hh]. apply In_nth_error in Hh. destruct Hh as [l Hl].
      apply rt_trans with l; [now apply IH|]. apply rt_step. destruct Hs as (v & A & B). exists h, k, v. auto.
Qed.
Lemma shares_touch g f h : (forall v, In v (face_ids f) -> In v g) -> shares f h -> touches g h = true.
Proof. intros H (v & A & B). apply touches_spec. exists v. auto. Qed.
Lemma cluster_chain fs groups g f h : clusters fs groups -> In g groups -> chain fs f h -> touches g f = true -> touches g h = true.
Proof.
  intros C Hg. induction 1 as [f Hf|f h k Hc IH Hk Hs]; intros T; [exact T|].
  apply (shares_touch g h k); [|exact Hs]. intros v Hv. apply (cl_closed _ _ C g h v Hg); auto. now apply (chain_In fs f h).
Qed.
Lemma components_extract m : valid m -> exists parts ids, connected_components m = Some (Ok parts)
  /\ length parts = length ids
  /\ (forall k l, nth_error ids k = Some l -> l <> [] /\ exists p, nth_error parts k = Some p /\ extract m l = Ok p)
  /\ Permutation (concat ids) (seq 0 (nb_faces m))
  /\ (forall i j, i < nb_faces m -> j < nb_faces m -> (exists l, In l ids /\ In i l /\ In j l) <-> connected (m_faces m) i j).
Proof.
  intros Vm. unfold connected_components. destruct (clustering_ok (m_faces m)) as (groups & -> & C & Cov).
  assert (Nd := cl_nodup _ _ C).
  rewrite (nodup_fixed_point Nat.eq_dec Nd).
  assert (Ls : list_sum (map (@length nat) groups) = length (concat groups)).
  { clear. induction groups as [|g groups IH]; [reflexivity|]. cbn [map concat]. rewrite app_length, <- IH. reflexivity. }
  rewrite Ls, Nat.eqb_refl. cbn [negb].
  set (ids := map (fun g => positions (touches g) (m_faces m)) groups).
  destruct (mapM_total (fun g => extract m (positions (touches g) (m_faces m))) groups) as [parts Ep].
  { intros g _. destruct (extract_selects m (positions (touches g) (m_faces m)) Vm) as (m' & E & _); [|eauto].
    intros i Hi. now apply positions_lt in Hi. }
  rewrite Ep. exists parts, ids. split; [reflexivity|]. apply mapM_ok in Ep. destruct Ep as [L H].
  assert (Hin : forall g i, In i (positions (touches g) (m_faces m)) <-> exists f, nth_error (m_faces m) i = Some f /\ touches g f = true)
    by (intros; apply positions_In).
  split; [unfold ids; now rewrite map_length|]. split; [|split].
  - intros k l Hk. unfold ids in Hk. rewrite nth_error_map in Hk. destruct (nth_error groups k) as [g|] eqn:Eg; [|discriminate].
    cbn in Hk. injection Hk as <-. split.
    + destruct (cl_some _ _ C g) as (f & Hf & T); [now apply nth_error_In in Eg|]. apply In_nth_error in Hf. destruct Hf as [i Hi].
      intros E. assert (X : In i []); [|destruct X]. rewrite <- E. apply Hin. eauto.
    + destruct (H k g Eg) as (p & E & N). exists p. split; [exact N|exact E].
  - apply NoDup_Permutation; [|apply seq_NoDup|].
    + unfold ids.
      assert (G : forall gs, incl gs groups -> NoDup (concat gs) ->
         NoDup (concat (map (fun g => positions (touches g) (m_faces m)) gs))).
      { induction gs as [|g gs IH]; intros I N; cbn; [constructor|]. cbn in N.
        specialize (IH (fun x Hx => I x (or_intror Hx)) (NoDup_app_right _ _ N)).
        apply (Permutation_NoDup (l := concat (map (fun g => positions (touches g) (m_faces m)) gs) ++ positions (touches g) (m_faces m))).
        { apply Permutation_app_comm. }
        pose proof (NoDup_concat_app (map (fun g => positions (touches g) (m_faces m)) gs) (positions (touches g) (m_faces m)) IH (positions_NoDup _ _)) as X.
        rewrite concat_app in X. cbn in X. rewrite app_nil_r in X. apply X.
        intros i Hi Hc. apply Hin in Hi. destruct Hi as (f & Ef & Tf). apply in_concat in Hc. destruct Hc as (l & Hl & Hil).
        apply in_map_iff in Hl. destruct Hl as (g' & <- & Hg'). apply Hin in Hil. destruct Hil as (f' & Ef' & Tf').
        rewrite Ef in Ef'. injection Ef' as <-. pose proof (nth_error_In _ _ Ef) as Hf.
        assert (A : In (fa f) g) by (apply (cl_closed _ _ C g f); auto; [apply I; now left|cbn; auto]).
        assert (B : In (fa f) g') by (apply (cl_closed _ _ C g' f); auto; [apply I; now right|cbn; auto]).
        apply (NoDup_app_disjoint _ _ (fa f) N A). apply in_concat. eauto. }
      apply G; [apply incl_refl|exact Nd].
    + intros i. rewrite in_seq. split.
      * intros Hi. apply in_concat in Hi. destruct Hi as (l & Hl & Hi). apply in_map_iff in Hl. destruct Hl as (g & <- & _).
        apply positions_lt in Hi. unfold nb_faces. lia.
      * intros [_ Hi]. destruct (nth_error (m_faces m) i) as [f|] eqn:Ef; [|apply nth_error_None in Ef; unfold nb_faces in Hi; lia].
        destruct (Cov f) as (g & Hg & T); [now apply nth_error_In in Ef|]. apply in_concat. exists (positions (touches g) (m_faces m)).
        split; [now apply (in_map (fun g => positions (touches g) (m_faces m)))|]. apply Hin. eauto.
  - intros i j Hi Hj. destruct (nth_error (m_faces m) i) as [f|] eqn:Ef; [|apply nth_error_None in Ef; unfold nb_faces in Hi; lia].
    destruct (nth_error (m_faces m) j) as [h|] eqn:Eh; [|apply nth_error_None in Eh; unfold nb_faces in Hj; lia].
    rewrite (connected_chain _ i j f h Ef Eh). split.
    + intros (l & Hl & Il & Jl). apply in_map_iff in Hl. destruct Hl as (g & <- & Hg). apply Hin in Il. apply Hin in Jl.
      destruct Il as (f' & E1 & T1), Jl as (h' & E2 & T2). rewrite Ef in E1. rewrite Eh in E2. injection E1 as <-. injection E2 as <-.
      apply (cl_chain _ _ C g); auto; [now apply nth_error_In in Ef|now apply nth_error_In in Eh].
    + intros Hc. destruct (Cov f) as (g & Hg & T); [now apply nth_error_In in Ef|]. exists (positions (touches g) (m_faces m)).
      split; [now apply (in_map (fun g => positions (touches g) (m_faces m)))|]. split; apply Hin; [eauto|].
      exists h. split; [exact Eh|]. now apply (cluster_chain _ groups g f h C Hg).
Qed.
Lemma components_ok m : valid m -> exists parts ids, connected_components m = Some (Ok parts)
  /\ length parts = length ids
  /\ (forall k l, nth_error ids k = Some l -> l <> [] /\ exists p, nth_error parts k = Some p /\ selects m l p)
  /\ Permutation (concat ids) (seq 0 (nb_faces m))
  /\ (forall i j, i < nb_faces m -> j < nb_faces m -> (exists l, In l ids /\ In i l /\ In j l) <-> connected (m_faces m) i j).
Proof.
  intros Vm. destruct (components_extract m Vm) as (parts & ids & E & L & H & P & C). exists parts, ids.
  split; [exact E|]. split; [exact L|]. split; [|split; [exact P|exact C]].
  intros k l Hk. destruct (H k l Hk) as (N & p & Hp & Ep). split; [exact N|]. exists p. split; [exact Hp|].
  destruct (extract_selects m l Vm) as (m' & E' & S'); [|rewrite Ep in E'; apply Ok_inj' in E'; now subst].
  intros i Hi. assert (X : In i (concat ids)) by (apply in_concat; exists l; split; [now apply nth_error_In in Hk|exact Hi]).
  apply (Permutation_in _ P), in_seq in X. lia.
Qed.
