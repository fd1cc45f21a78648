From Coq Require Import Reals List Bool Arith ZArith Lia Lra Permutation.
From Verif Require Import Model_Base Model_Geometry Model_Mesh Model_Clip Spec_Mesh Spec_Tree Spec_Clip Model_Tree Model_Body Spec_Body
  Proofs_Geometry Proofs_Mesh Proofs_Mesh2 Proofs_Mesh3 Proofs_Clip4 Proofs_Clip5 Proofs_Problem Model_Integrals Spec_Integrals Proofs_Integrals Proofs_Tree Proofs_Tree2 Proofs_Body Proofs_Body2 Proofs_Body5
  Model_Quality Spec_Quality Proofs_Quality Model_Normals Spec_Normals Proofs_Normals2 Proofs_Normals4 Model_Grid Spec_Grid Proofs_Grid Proofs_Grid2 Proofs_Grid3 Proofs_Grid4 Proofs_Grid5 Proofs_Grid6 Proofs_Grid7
  Model_Box Spec_Box Proofs_Box Proofs_Box2 Proofs_Box3 Proofs_Box4 Proofs_Box5 Proofs_Box6 Proofs_Box7.
Import ListNotations.
Open Scope R_scope.

Lemma filter_shorter {A B} (g : A * B -> bool) (l : list A) (r : list B) y : length l = length r -> In y r -> (forall x, g (x, y) = false) ->
  (length (map fst (filter g (combine l r))) < length l)%nat.
Proof.
  revert r. induction l as [|a l IH]; intros [|b r] L H G; cbn in *; try discriminate; [contradiction|].
  assert (X : (length (map fst (filter g (combine l r))) <= length l)%nat).
  { clear. revert r. induction l as [|a l IH]; intros [|b r]; cbn; try lia. destruct (g (a, b)); cbn; specialize (IH r); lia. }
  destruct H as [->|H].
  - rewrite G. lia.
  - specialize (IH r ltac:(lia) H G). destruct (g (a, b)); cbn; lia.
Qed.
Lemma f2_long {A B} (R0 : A -> B -> Prop) l l' : Forall2 R0 l l' -> length l = length l'.
Proof. induction 1; cbn; congruence. Qed.

Section Box.
  Variable argsort : list R -> list nat.
  Hypothesis Hs : sorts argsort.
  Variable set_order : list nat -> list nat.
  Hypothesis Ho : forall l, Permutation l (set_order l).

  (** A face much smaller than the mean is lost. *)
  Lemma heal_loses m qs q m' : valid m -> all_used m -> polygons_of m qs -> In q qs ->
    p_area (face_of q) < Rsum (map p_area (map face_of qs)) / INR (length qs) * (/ 100000) ->
    heal_leaf argsort (heal_normals set_order) true m = Ok m' -> (nb_faces m' < nb_faces m)%nat.
  Proof.
    intros Vm Um Pq Iq Sm E. unfold heal_leaf, remove_unused in E. rewrite (all_used_seq m Um), seq_length, (Nat.ltb_irrefl (nb_vertices m)) in E. cbn [bind] in E.
    unfold remove_degenerated in E. rewrite (proj2 (Rltb_true 0 (/ 100000))) in E by lra. rewrite (leaf_props m qs Pq) in E. cbn [negb bind] in E.
    pose proof (polygons_length m qs Pq) as Lq. unfold nb_faces in Lq.
    match type of E with context [Mesh (m_vertices m) ?fs] => set (fs' := fs) in E; assert (L : (length fs' < length (m_faces m))%nat) end.
    { apply (filter_shorter _ _ _ (face_of q)); [rewrite map_length; congruence|now apply in_map|]. intros x. cbn [snd]. rewrite negb_false_iff. apply Rltb_true. rewrite map_length. exact Sm. }
    assert (V2 : valid (Mesh (m_vertices m) fs')) by (intros f i Hf Hi; cbn in *; apply filter_combine_In in Hf; eapply Vm; eassumption).
    assert (Nv : m_vertices m <> []).
    { destruct (m_faces m) as [|f fs] eqn:Ef; [cbn in L; lia|]. intros E0.
      assert (H : (fa f < length (m_vertices m))%nat) by (apply (Vm f); [rewrite Ef; now left|now left]). rewrite E0 in H. cbn in H. lia. }
    destruct (merge_duplicates_ok argsort Hs (/ 100000000) _ ltac:(lra) V2 Nv) as (m1 & ids & E1 & _ & N1 & _). rewrite E1 in E. cbn [bind fst] in E.
    apply heal_normals_kept in E. destruct E as [_ E]. apply f2_long in E. cbn [heal_triangles m_faces] in E. rewrite map_length in E. unfold nb_faces in *. cbn [m_faces] in N1. lia.
  Qed.

  Lemma box_thin c T : mesh_parallelepiped argsort set_order 1000 1 (/ 1000) c 1 1 1 None (fun _ => false) false false = Ok T ->
    ~ made_of T (box_panels c 1000 1 (/ 1000) 1 1 1 (fun _ => true)).
  Proof.
    unfold mesh_parallelepiped. pose proof (checks_ok 1000 1 (/ 1000) 1 1 1 ltac:(lra) ltac:(lra) ltac:(lra) ltac:(lia) ltac:(lia) ltac:(lia)) as Ck. change (Z.of_nat 1) with 1%Z in Ck. rewrite Ck. cbn [negb refined_box bind andb].
    assert (D1 : / 1000000 <= 1000 / INR 1) by (change (INR 1) with 1; lra). assert (D2 : / 1000000 <= 1 / INR 1) by (change (INR 1) with 1; lra). assert (D3 : / 1000000 <= / 1000 / INR 1) by (change (INR 1) with 1; lra).
    assert (O1 : (0 < 1)%nat) by lia.
    destruct (merged_ok argsort Hs set_order Ho 1000 1 (/ 1000) 1 1 1 O1 O1 O1 D1 D2 D3 (fun _ => false)) as (m & ks & Em0 & C & Nk & Ne & Ik); [lra|lra|lra|reflexivity|].
    change (Z.of_nat 1) with 1%Z in Em0. rewrite Em0. clear Em0.
    cbn [bind]. unfold healed_at, t_heal. destruct (heal_leaf argsort (heal_normals set_order) true m) as [m'|] eqn:E; [|discriminate]. cbn [bind t_translate]. intros ET. apply Ok_inj' in ET. subst T.
    set (ks6 := map (fun s => (s, 0%nat, 0%nat)) box_sides).
    assert (Pk : Permutation ks ks6).
    { apply NoDup_Permutation; [exact Nk|unfold ks6; repeat (apply NoDup_cons; [cbn; intuition discriminate|]); constructor|]. intros [[s i] j]. rewrite Ik. unfold in_range, ks6. split.
      - intros [H _]. assert (i = 0 /\ j = 0)%nat as [-> ->] by (destruct s; cbn in H; lia). destruct s; cbn; tauto.
      - intros H. apply in_map_iff in H. destruct H as (s' & E' & _). injection E' as <- <- <-. split; [destruct s'; cbn; lia|reflexivity]. }
    intros (qs1 & qs2 & (qss & P2 & E2) & Pm & S). cbn [leaves t_translate] in P2.
    assert (L6 : length qs2 = 6%nat) by (rewrite <- (f2_long _ _ _ S), <- (Permutation_length Pm); reflexivity).
    inversion P2 as [|m0 qq ms0 qss' P3 P4 Em Eqs]. subst. inversion P4. subst. cbn [concat] in L6. rewrite app_nil_r in L6. rewrite (polygons_length _ _ P3) in L6.
    destruct C as (Vm & Um & _ & qs & Pq & Sq).
    assert (Lm : nb_faces m = 6%nat) by (rewrite <- (polygons_length m qs Pq), <- (f2_long _ _ _ Sq), map_length, (Permutation_length Pk); reflexivity).
    pose proof (Permutation_map (fun k => p_area (face_of (keyed v0 1000 1 (/ 1000) 1 1 1 k))) Pk) as Pa.
    set (area := fun s => panel_area 1000 1 (/ 1000) 1 1 1 s).
    assert (Ar : forall k q, same_polygon (keyed v0 1000 1 (/ 1000) 1 1 1 k) q -> p_area (face_of q) = area (skey k)).
    { intros k q Hq. pose proof (keyed_props v0 1000 1 (/ 1000) 1 1 1 O1 O1 O1 D1 D2 D3 k q Hq) as K. unfold side_panel_is in K. unfold area, panel_area. destruct (side_edges _ _ _ _ _ _ _). apply K. }
    assert (Sum : Rsum (map p_area (map face_of qs)) = Rsum (map (fun k => area (skey k)) ks)).
    { clear - Sq Ar. remember (map (keyed v0 1000 1 (/ 1000) 1 1 1) ks) as l eqn:El. revert ks El. induction Sq as [|q q' l l' H S IH]; intros [|k ks] El; try discriminate; [reflexivity|].
      cbn in El. injection El as -> ->. cbn [map]. rewrite !Rsum_cons, (IH ks eq_refl). f_equal. now apply Ar. }
    rewrite (Rsum_perm _ _ (Permutation_map (fun k => area (skey k)) Pk)) in Sum.
    assert (Iq : exists q, In q qs /\ p_area (face_of q) = area LeftSide).
    { assert (Hk : In (LeftSide, 0%nat, 0%nat) ks) by (apply Ik; split; [cbn; lia|reflexivity]). apply (in_map (keyed v0 1000 1 (/ 1000) 1 1 1)) in Hk. apply In_nth_error in Hk. destruct Hk as [i Hi].
      destruct (Forall2_nth_l _ _ _ _ _ Sq Hi) as (q & Hq & S0). exists q. split; [now apply nth_error_In in Hq|]. now apply (Ar _ _ S0). }
    destruct Iq as (q & Iq & Aq).
    pose proof (heal_loses m qs q m' Vm Um Pq Iq) as Hl.
    assert (Nm' : nb_faces (translate m' c) = nb_faces m') by (destruct m'; reflexivity). rewrite Nm' in L6.
    assert (nb_faces m' < nb_faces m)%nat; [|lia]. apply Hl; [|exact E]. rewrite Aq, Sum, (polygons_length m qs Pq), Lm. unfold ks6, box_sides, area, panel_area, skey. cbn [map side_edges fst]. rewrite !Rsum_cons, Rsum_nil.
    replace (INR 6) with 6 by (cbn; lra). change (INR 1) with 1. lra.
  Qed.
End Box.
Lemma t_props_empty T qs : t_props T = Ok [] -> tree_polygons T qs -> filled T -> qs = [].
Proof. intros E P F. rewrite (tree_props T qs F P) in E. apply Ok_inj' in E. now apply map_eq_nil in E. Qed.
