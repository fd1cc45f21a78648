(** The dofs of sliced bodies. *)
From Coq Require Import Reals String Ascii List Bool ZArith Arith Lra Lia Permutation.
From Verif Require Import Model_Base Model_Geometry Model_Mesh Model_Quality Spec_Mesh Model_Tree Spec_Tree Spec_Clip Spec_Quality Proofs_Geometry Proofs_Mesh Proofs_Mesh2 Proofs_Mesh3
  Proofs_Tree Proofs_Clip4 Proofs_Clip5 Proofs_Clip6 Proofs_Clip7 Spec_Integrals Proofs_Integrals Model_Body Spec_Body Proofs_Body Proofs_Body2 Proofs_Body3 Proofs_Body4 Proofs_Body7 Proofs_Symmetry Proofs_Points Proofs_Dataset Proofs_Grid8
  Model_Slice Spec_Slice Proofs_Slice Proofs_Slice2 Proofs_Slice3 Proofs_Slice4.
Import ListNotations.
Open Scope R_scope.

Lemma same_panels_sym t t' : same_panels t t' -> same_panels t' t.
Proof.
  intros (qs & q0 & qs' & Q & P & F & Q'). pose proof (Forall2_flip' same_polygon same_polygon same_polygon_sym _ _ F) as F'.
  assert (F0 := Permutation_Forall2 (Permutation_sym P) F). destruct F0 as (q1 & P1 & F1). exists qs', q1, qs. split; [exact Q'|]. split; [exact P1|]. split; [|exact Q].
  exact (Forall2_flip' same_polygon same_polygon same_polygon_sym _ _ F1).
Qed.
(** A dof with the same motion on all the faces. *)
Lemma uniform_moves b b' name q v : same_panels (fb_mesh b) (fb_mesh b') -> fb_dofs b' = fb_dofs b -> well_shaped b' ->
  (forall rows r r', In (name, rows) (fb_dofs b) -> In r rows -> In r' rows -> r = r') -> panel_moves b name q v -> panel_moves b' name q v.
Proof.
  intros (qs & q0 & qs' & Q & P & F & Q') D W U (rows & qs1 & k & q1 & Hr & Q1 & Hk & Sq & Hv). pose proof (polygons_unique _ _ _ Q1 Q) as ->.
  assert (H : exists k' q', nth_error qs' k' = Some q' /\ same_polygon q q').
  { assert (H : In q1 q0) by (apply (Permutation_in _ P); eapply nth_error_In; eauto). apply In_nth_error in H. destruct H as [k' Hk'].
    destruct (Forall2_nth_l _ _ _ _ _ F Hk') as (q' & Hq' & S'). exists k', q'. split; [exact Hq'|]. exact (same_polygon_trans _ _ _ Sq S'). }
  destruct H as (k' & q' & Hk' & Sq'). assert (Hr' : In (name, rows) (fb_dofs b')) by now rewrite D.
  assert (L : (k' < length rows)%nat) by (rewrite (W name rows Hr'); unfold fb_nb_faces; rewrite <- (polygons_total _ _ Q'); apply nth_error_Some; congruence).
  apply nth_error_Some in L. destruct (nth_error rows k') as [v'|] eqn:Ev; [|contradiction].
  assert (v' = v) as -> by (apply (U rows); [exact Hr| |]; eapply nth_error_In; eauto).
  exists rows, qs', k', q'. auto.
Qed.

(** ** The order of the faces of a sliced mesh *)
Section Order.
  Variable argsort : list R -> list nat.
  Hypothesis Hs : sorts argsort.
  Variable heal_normals : mesh -> result mesh.
  Variable set_order : list nat -> list nat.
  Hypothesis order_perm : forall l, Permutation l (set_order l).
  Lemma order_cut b m qs p b' : fb_mesh b = Node Plain [Leaf m] -> tidy m -> polygons_of m qs -> (exists q, In q qs /\ height p (p_center (face_of q)) < 0) ->
    (exists q, In q qs /\ 0 <= height p (p_center (face_of q))) -> fb_sliced argsort heal_normals set_order b p = Ok b' ->
    exists qs2 qs', Permutation qs2 (filter (fun q => negb (Rltb (height p (p_center (face_of q))) 0)) qs) /\ tree_polygons (fb_mesh b') qs' /\ filled (fb_mesh b')
    /\ Forall2 same_polygon (filter (fun q => Rltb (height p (p_center (face_of q))) 0) qs ++ qs2) qs'.
  Proof.
    intros Em T P (q1 & H1 & L1) (q2 & H2 & L2) E. unfold fb_sliced in E. rewrite Em in E. cbn [t_sliced map sequence] in E.
    destruct (leaf_sliced set_order order_perm p m qs T P) as (l & El & [[-> [S|S]]|(m1 & m2 & qs1 & qs2 & -> & T1 & T2 & P1 & P2 & F1 & F2)]).
    - specialize (S q2 H2). lra.
    - specialize (S q1 H1). lra.
    - rewrite El in E. unfold sequence in E. cbn [bind mapM] in E. exists qs2.
      assert (Tt : tidy_tree (Node Plain [Node Plain (map Leaf [m1; m2])])).
      { split; [constructor; [discriminate|]; intros x [<-|[]]; constructor; [discriminate|]; intros x [<-|[<-|[]]]; constructor|]. intros x [<-|[<-|[]]]; assumption. }
      destruct (heal_parts_tidy argsort Hs heal_normals _ Tt) as (t' & Et & Tt' & Hh & _).
      assert (Q : tree_polygons (Node Plain [Node Plain (map Leaf [m1; m2])]) (qs1 ++ qs2)).
      { exists [qs1; qs2]. cbn. split; [repeat constructor; assumption|now rewrite app_nil_r]. }
      destruct (healed_trees _ _ _ Hh Q) as (qs' & Q' & Sm). exists qs'. split; [exact F2|].
      assert (Mb : fb_mesh b' = t').
      { destruct (option_bind (fb_lid b) (t_sliced set_order p)) as [lid|]; [|discriminate E]. cbn [bind] in E. unfold new_body in E.
        match type of E with bind ?X _ = _ => destruct X as [lid'|]; [cbn [bind] in E|discriminate E] end.
        rewrite (tidy_positive _ Tt) in E. cbn [t_heal] in E. change (heal_parts argsort heal_normals (Node Plain [Node Plain (map Leaf [m1; m2])])) with (heal_parts argsort heal_normals (Node Plain [Node Plain (map Leaf [m1; m2])])) in E. rewrite Et in E. cbn [bind] in E.
        destruct (fb_check _); [|discriminate E]. cbn [bind] in E. injection E as <-. reflexivity. }
      rewrite Mb. split; [exact Q'|]. split; [exact (proj1 Tt')|]. rewrite <- F1. exact Sm.
  Qed.
End Order.

(** ** Two panels: the first one is on the positive side *)
Definition couple : mesh := Mesh [V 2 0 (-1); V (2 + 1) 0 (-1); V (2 + 1) 1 (-1); V 2 1 (-1); V (-3) 0 (-1); V (-3 + 1) 0 (-1); V (-3 + 1) 1 (-1); V (-3) 1 (-1)] [F 0 1 2 3; F 4 5 6 7].
Definition couple_polygons : list polygon := [panel_polygon 2 (-1); panel_polygon (-3) (-1)].
Lemma couple_polygons_of : polygons_of couple couple_polygons.
Proof. repeat constructor. Qed.
Lemma couple_tidy : tidy couple.
Proof.
  split; [|split; [|split; [discriminate|split; [|split]]]].
  - intros f i [<-|[<-|[]]] Hi; cbn in *; lia.
  - intros i Hi. cbn in Hi. destruct (Nat.lt_ge_cases i 4) as [L|L]; [exists (F 0 1 2 3)|exists (F 4 5 6 7)]; (split; [cbn; auto|]); cbn; lia.
  - intros i j u v Hu Hv N. unfold near in N.
    destruct i as [|[|[|[|[|[|[|[|i]]]]]]]]; cbn in Hu; [..|destruct i; discriminate]; injection Hu as <-;
    (destruct j as [|[|[|[|[|[|[|[|j]]]]]]]]; cbn in Hv; [..|destruct j; discriminate]; injection Hv as <-); cbn in N; try reflexivity; exfalso;
    destruct N as (N1 & N2 & _); unfold Rabs in *; repeat destruct (Rcase_abs _); lra.
  - intros f [<-|[<-|[]]]; right; repeat constructor; cbn; intros H; repeat destruct H as [H|H]; try discriminate; assumption.
  - exists 1. intros k a b c d H. pose proof (face_polygons couple couple_polygons k a b c d couple_polygons_of H) as Hk.
    destruct k as [|[|k]]; cbn in Hk; [..|destruct k; discriminate]; injection Hk as <- <- <- <-; unfold well_sized, tri_area; norm1 1; norm1 1; norm1 1; norm1 1; norm1 1; lra.
Qed.
Definition couple_body (dofs : list (string * list vec)) : fbody := FB "c" (Node Plain [Leaf couple]) None dofs (Some 5) (Some (V 0 0 0)) None None None None.
Lemma couple_surface dofs : proper_surface (fb_mesh (couple_body dofs)) couple_polygons.
Proof.
  split; [constructor; [discriminate|]; intros x [<-|[]]; constructor|]. split; [exists [couple_polygons]; split; [constructor; [exact couple_polygons_of|constructor]|reflexivity]|].
  constructor; [|constructor; [|constructor]]; [destruct (panel_surface 2 (-1)) as (_ & _ & G)|destruct (panel_surface (-3) (-1)) as (_ & _ & G)]; inversion G; subst; assumption.
Qed.
Lemma couple_sliceable argsort heal_normals dofs : (forall n r, In (n, r) dofs -> length r = 2%nat) -> sliceable argsort heal_normals (couple_body dofs).
Proof.
  intros W. split; [split; [exact (proj1 (couple_surface dofs))|intros m [<-|[]]; exact couple_tidy]|]. split; [exists couple_polygons; apply couple_surface|]. split; [exact W|discriminate].
Qed.
Definition middle : plane := Plane (V 1 0 0) (V 0 0 0).
Lemma couple_heights : height middle (p_center (face_of (panel_polygon 2 (-1)))) = 5 / 2 /\ height middle (p_center (face_of (panel_polygon (-3) (-1)))) = - 5 / 2.
Proof. rewrite !panel_center. unfold height, middle, dot, vsub. cbn. split; field. Qed.
Definition pitching : list vec := map (rotation_velocity (V 0 0 0) (V 0 1 0)) [V (2 + 1 / 2) (1 / 2) (-1); V (-3 + 1 / 2) (1 / 2) (-1)].
Lemma couple_pitch : rotation_dof (couple_body [("Pitch"%string, pitching)]) "Pitch" (V 0 0 0) (V 0 1 0).
Proof.
  exists pitching. eexists. split; [reflexivity|]. split; [exact (surface_centers _ _ (couple_surface _))|]. unfold couple_polygons. cbn [map]. now rewrite !panel_center.
Qed.
Lemma couple_sliced argsort heal_normals set_order b' : sorts argsort -> (forall l, Permutation l (set_order l)) ->
  fb_sliced argsort heal_normals set_order (couple_body [("Pitch"%string, pitching)]) middle = Ok b' -> fb_dofs b' = [("Pitch"%string, pitching)] ->
  ~ rotation_dof b' "Pitch" (V 0 0 0) (V 0 1 0).
Proof.
  intros Hs Ho E D. destruct couple_heights as [H1 H2].
  destruct (order_cut argsort Hs heal_normals set_order Ho (couple_body [("Pitch"%string, pitching)]) couple couple_polygons middle b') as (qs2 & qs' & P2 & Q' & F' & Sm).
  - reflexivity.
  - exact couple_tidy.
  - exact couple_polygons_of.
  - exists (panel_polygon (-3) (-1)). split; [right; now left|lra].
  - exists (panel_polygon 2 (-1)). split; [now left|lra].
  - exact E.
  - unfold couple_polygons in P2, Sm. cbn [filter] in P2, Sm. rewrite (proj2 (Rltb_false _ _)) in P2, Sm by lra. assert (L : Rltb (height middle (p_center (face_of (panel_polygon (-3) (-1))))) 0 = true) by (apply Rltb_true; lra).
    rewrite L in P2, Sm. cbn [negb app] in P2, Sm. apply Permutation_sym, Permutation_length_1_inv in P2. subst qs2.
    inversion Sm as [|? x ? xs Sx Sr]; subst. inversion Sr as [|? y ? ys Sy Sn]; subst. inversion Sn; subst. clear Sm Sr Sn.
    assert (G : forall x0, proper_face (panel_polygon x0 (-1))) by (intros x0; destruct (panel_surface x0 (-1)) as (_ & _ & G); inversion G; subst; assumption).
    intros (rows & cs & Er & Ec & Eq). rewrite D in Er. cbn in Er. injection Er as <-. unfold fb_centers in Ec. rewrite (tree_props _ _ F' Q') in Ec. cbn [bind map] in Ec. apply Ok_inj' in Ec. subst cs.
    rewrite (proj2 (same_center _ _ (G _) Sx)), (proj2 (same_center _ _ (G _) Sy)), !panel_center in Eq. unfold pitching, rotation_velocity in Eq. cbn in Eq. injection Eq as Eq _ _. lra.
Qed.
