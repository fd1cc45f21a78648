(** Proofs about the Green function on pairs of faces: symmetries. *)
From Coq Require Import Reals.
From Coquelicot Require Import Complex.
From Coq Require Import List Bool Arith Lra Lia Permutation.
From Verif Require Import Model_Base Model_Ring Spec_Ring Model_Block Model_Geometry Model_Mesh Spec_Mesh Proofs_Geometry Proofs_Mesh Proofs_Mesh2 Proofs_Mesh3 Proofs_Integrals
  Model_Quadrature Model_Tree Spec_Tree Model_Engine Spec_Engine Model_Assembly Spec_Assembly Model_Rankine Model_Wave Proofs_Rankine Proofs_Wave Spec_Green.
Import ListNotations.
Open Scope R_scope.

Lemma along_parts n g : along n g = (dot n (re3 g), dot n (im3 g)).
Proof. unfold along, re3, im3, dot. apply injective_projections; cbn; ring. Qed.

Section Entries.
  Variable elementary : R -> R -> integrals.
  Variable decomposition : R -> list (R * R).
  Notation w := (wave_part elementary decomposition).
  Notation S_entry := (S_entry rankine_of reflected_of one_point_of w).
  Notation gradient_entry := (gradient_entry rankine_of reflected_of one_point_of w).
  Notation images := (images reflected_of one_point_of).
  Notation first_image := (first_image reflected_of one_point_of).

  Section Motion.
    Variables (pt dir : vec -> vec) (keeps : bool).
    Hypothesis H : isometry pt dir keeps.
    Variables a a' : inputs.
    Hypothesis E1 : points_1 a' 0%nat = pt (points_1 a 0%nat).
    Hypothesis E2 : moved_source pt dir keeps (panels_2 a 0%nat) (panels_2 a' 0%nat).
    Hypothesis E3 : dot_normals a' 0%nat = dir (dot_normals a 0%nat).
    Hypothesis E4 : wavenumber a' = wavenumber a /\ depth a' = depth a /\ coeffs3 a' = coeffs3 a /\ finite_depth a' = finite_depth a
      /\ singular a' = singular a /\ same_body a' = same_body a /\ adjoint a' = adjoint a.
    Notation p := (points_1 a 0%nat). Notation q := (panels_2 a 0%nat).
    Notation p' := (points_1 a' 0%nat). Notation q' := (panels_2 a' 0%nat).
    Notation mv := (Proofs_Rankine.moved_value dir).
    Lemma rankine_of_moved b : rankine_of b p' q' = mv (rankine_of b p q).
    Proof.
      unfold rankine_of. destruct E2 as (-> & Hf & _). rewrite E1. apply (rankine_moved pt dir keeps H _ _ Hf).
    Qed.
    Section Upright.
      Hypothesis Up : forall x, vz (pt x) = vz x.
      Lemma reflected_of_moved b c : reflected_of b c p' q' = mv (reflected_of b c p q).
      Proof. unfold reflected_of. rewrite E1. apply (reflected_rankine_moved pt dir keeps H Up _ _ E2). Qed.
      Lemma one_point_of_moved b c : one_point_of b c p' q' = mv (one_point_of b c p q).
      Proof. unfold one_point_of. rewrite E1. apply (one_point_reflected_moved pt dir keeps H Up _ _ E2). Qed.
      Lemma first_image_moved : first_image a' p' q' = mv (first_image a p q).
      Proof.
        unfold Spec_Assembly.first_image. destruct E4 as (_ & Ed & _ & Em & _ & _ & Ea). rewrite Ed, Em, Ea, reflected_of_moved, one_point_of_moved.
        destruct (depth a); [destruct (finite_depth a)|..]; reflexivity.
      Qed.
      Lemma images_moved : images a' p' q' = map mv (images a p q).
      Proof.
        unfold Spec_Assembly.images. rewrite first_image_moved. destruct E4 as (_ & Ed & _ & Em & _ & _ & Ea). rewrite Ed, Ea.
        destruct (depth a); cbn [map]; rewrite ?reflected_of_moved, ?one_point_of_moved; reflexivity.
      Qed.
      Lemma waves_moved : waves w a' p' q' = moved3 dir (waves w a p q).
      Proof.
        unfold waves. destruct E4 as (Ek & Ed & _ & Em & Es & _ & Ea). rewrite Ek, Ed, Em, Es, Ea, E1.
        apply (wave_part_moved pt dir keeps H Up elementary _ _ E2).
      Qed.
      Lemma S_entry_moved : S_entry a' 0 0 = S_entry a 0 0.
      Proof.
        unfold Spec_Assembly.S_entry. rewrite rankine_of_moved, images_moved, waves_moved. unfold c_source, c_images, c_wave.
        destruct E4 as (_ & _ & -> & _ & _ & _ & ->). rewrite map_map. reflexivity.
      Qed.
      Lemma gradient_entry_moved : gradient_entry a' 0 0 = dir3 dir (gradient_entry a 0 0).
      Proof.
        unfold Spec_Assembly.gradient_entry. change plus3 with g_add. change times3 with g_scale. change real3 with g_of.
        rewrite (dir3_add pt dir keeps H), (dir3_scale pt dir keeps H), (dir3_add pt dir keeps H), (dir3_scale pt dir keeps H), (dir3_add pt dir keeps H), (dir3_of pt dir keeps H).
        rewrite (iso_add _ _ _ H), !(iso_scale _ _ _ H). apply f_equal2; [|apply f_equal; apply f_equal2; [|apply f_equal2; [|apply f_equal2]]].
        - unfold jump_entry. destruct E4 as (_ & _ & _ & _ & _ & -> & Ea). rewrite Nat.eqb_refl. cbn [andb].
          destruct (same_body a); [|symmetry; apply (dir3_zero pt dir keeps H)].
          destruct E2 as (_ & (_ & _ & Ec & _) & _). rewrite Ec, Up. change times3 with g_scale. change real3 with g_of.
          rewrite (dir3_scale pt dir keeps H), (dir3_of pt dir keeps H). f_equal. f_equal. destruct (adjoint a), (adjoint a'); exact E3.
        - rewrite rankine_of_moved, images_moved. unfold c_source, c_images. destruct E4 as (_ & _ & -> & _ & _ & _ & ->).
          apply f_equal, f_equal, f_equal. rewrite <- (dir_vsum pt dir keeps H), !map_map. reflexivity.
        - unfold c_wave. now destruct E4 as (_ & _ & -> & _).
        - unfold extra_entry. rewrite first_image_moved. destruct E4 as (-> & _ & _ & _ & -> & _ & _).
          destruct (singular a); [symmetry; apply (dir3_zero pt dir keeps H)..|]. destruct (wavenumber a);
            [symmetry; apply (dir3_vertical pt dir keeps H Up)|symmetry; apply (dir3_zero pt dir keeps H)..].
        - rewrite waves_moved. reflexivity.
      Qed.
    End Upright.
    Lemma along_moved g : along (dot_normals a' 0%nat) (dir3 dir g) = along (dot_normals a 0%nat) g.
    Proof. rewrite !along_parts. unfold dir3. rewrite re3_of, im3_of, E3, !(iso_dot _ _ _ H). reflexivity. Qed.

    (** Only the source. *)
    Section Source.
      Variable x : R.
      Hypothesis Cs : coeffs3 a = (x, 0, 0).
      Hypothesis J : same_body a = true -> (Rltb (Rabs (vz (p_center (sp_props q')))) (/ 100000000) = Rltb (Rabs (vz (p_center (sp_props q)))) (/ 100000000)).
      Lemma Cmult_0 (z : C) : Cmult (RtoC 0) z = RtoC 0.
      Proof. apply injective_projections; cbn; ring. Qed.
      Lemma source_S : S_entry a' 0 0 = S_entry a 0 0.
      Proof.
        unfold Spec_Assembly.S_entry. rewrite rankine_of_moved. unfold c_source, c_images, c_wave.
        destruct E4 as (_ & _ & -> & _ & _ & _ & ->). rewrite Cs. cbn [fst snd]. rewrite !Cmult_0, !Rmult_0_l. reflexivity.
      Qed.
      Lemma g_scale_0 g : g_scale 0 g = g_zero.
      Proof. unfold g_scale. now rewrite !Cmult_0. Qed.
      Lemma source_gradient : gradient_entry a' 0 0 = dir3 dir (gradient_entry a 0 0).
      Proof.
        unfold Spec_Assembly.gradient_entry. change plus3 with g_add. change times3 with g_scale. change real3 with g_of.
        rewrite rankine_of_moved. unfold c_source, c_images, c_wave. destruct E4 as (_ & _ & -> & _ & _ & Eb & Ea). rewrite Ea, Cs. cbn [fst snd]. rewrite !g_scale_0.
        rewrite (dir3_add pt dir keeps H), (dir3_scale pt dir keeps H), (dir3_add pt dir keeps H), (dir3_zero pt dir keeps H), (dir3_of pt dir keeps H).
        rewrite (iso_add _ _ _ H), !(iso_scale _ _ _ H). f_equal; [|f_equal; f_equal; f_equal].
        - unfold jump_entry. rewrite Eb. rewrite Nat.eqb_refl. cbn [andb].
          destruct (same_body a) eqn:B; [|symmetry; apply (dir3_zero pt dir keeps H)].
          rewrite (J eq_refl). change times3 with g_scale. change real3 with g_of.
          rewrite (dir3_scale pt dir keeps H), (dir3_of pt dir keeps H). f_equal. f_equal. destruct (adjoint a), (adjoint a'); exact E3.
        - replace (vscale 0 (vsum (map snd (images a' p' q')))) with v0 by (generalize (vsum (map snd (images a' p' q'))); intros u; vring').
          replace (vscale 0 (dir (vsum (map snd (images a p q))))) with v0 by (generalize (dir (vsum (map snd (images a p q)))); intros u; vring').
          reflexivity.
      Qed.
    End Source.
  End Motion.
End Entries.

(** ** The motions of the symmetric meshes *)
Lemma translation_isometry t : isometry (fun x => vadd x t) (fun n => n) true.
Proof. constructor; intros; try reflexivity. vring. Qed.
Lemma rotation_isometry a th : proper_axis a -> isometry (rotate_point a th) (rotate_vector a th) true.
Proof.
  intros U. constructor; intros.
  - apply rotate_point_sub.
  - apply rotate_vector_add.
  - apply rotate_vector_scale.
  - now apply rotate_vector_dot.
  - now apply rotate_vector_cross.
Qed.
Lemma mirror_is_isometry p : proper_plane p -> isometry (mirror_point p) (mirror_vector p) false.
Proof.
  intros U. constructor; intros.
  - apply mirror_point_sub.
  - unfold mirror_vector. generalize (pl_normal p). vring.
  - unfold mirror_vector. generalize (pl_normal p). vring.
  - now apply mirror_vector_dot.
  - rewrite mirror_vector_cross by exact U. generalize (mirror_vector p (cross u v)). vring.
Qed.
Lemma rotation_upright a th x : proper_axis a -> vx (ax_vector a) = 0 -> vy (ax_vector a) = 0 -> vz (rotate_point a th x) = vz x.
Proof.
  intros U X Y. unfold rotate_point. rewrite rotate_vector_formula_unit by exact U. apply unit_dot in U. unfold dot in U. rewrite X, Y in U.
  assert (Z : vz (ax_vector a) * vz (ax_vector a) = 1) by lra. unfold vadd, vscale, vsub, dot, cross. cbn [vz vx vy]. rewrite X, Y.
  transitivity (vz x + (1 - cos th) * (vz x - vz (ax_point a)) * (vz (ax_vector a) * vz (ax_vector a) - 1)); [ring|]. rewrite Z. ring.
Qed.
Lemma mirror_upright p x : vz (pl_normal p) = 0 -> vz (mirror_point p x) = vz x.
Proof. intros Z. unfold mirror_point, vsub, vscale. cbn [vz]. rewrite Z. ring. Qed.

(** The quadrature points of an image. *)
Section Quadrature.
  Variables (pt dir : vec -> vec) (keeps : bool).
  Hypothesis H : isometry pt dir keeps.
  Lemma pt_affine q x y : local_point (Q (pt (qa q)) (pt (qb q)) (pt (qc q)) (pt (qd q))) x y = pt (local_point q x y).
  Proof.
    assert (E : forall z, pt z = vadd (dir z) (pt v0)).
    { intros z. pose proof (iso_sub _ _ _ H z v0) as S. replace (vsub z v0) with z in S by (destruct z; vring'). rewrite <- S. vring'. }
    rewrite (E (local_point q x y)). unfold local_point. cbn [qa qb qc qd].
    rewrite (E (qa q)), (E (qb q)), (E (qc q)), (E (qd q)). repeat (rewrite (iso_scale _ _ _ H) || rewrite (iso_add _ _ _ H)). 
    generalize (dir (qa q)) (dir (qb q)) (dir (qc q)) (dir (qd q)) (pt v0). clear. intros a b c d e.
    apply vec_ext; unfold vadd, vscale; cbn [vx vy vz]; field.
  Qed.
  Lemma det_moved q x y : det_j (Q (pt (qa q)) (pt (qb q)) (pt (qc q)) (pt (qd q))) x y = det_j q x y.
  Proof.
    assert (E : forall z, pt z = vadd (dir z) (pt v0)).
    { intros z. pose proof (iso_sub _ _ _ H z v0) as S. replace (vsub z v0) with z in S by (destruct z; vring'). rewrite <- S. vring'. }
    assert (E1 : dxidx (Q (pt (qa q)) (pt (qb q)) (pt (qc q)) (pt (qd q))) y = dir (dxidx q y)).
    { unfold dxidx. cbn [qa qb qc qd]. rewrite (E (qa q)), (E (qb q)), (E (qc q)), (E (qd q)).
      repeat (rewrite (iso_scale _ _ _ H) || rewrite (dir_sub _ _ _ H) || rewrite (iso_add _ _ _ H)).
      generalize (dir (qa q)) (dir (qb q)) (dir (qc q)) (dir (qd q)) (pt v0). clear. intros a b c d e. vring'. }
    assert (E2 : dxidy (Q (pt (qa q)) (pt (qb q)) (pt (qc q)) (pt (qd q))) x = dir (dxidy q x)).
    { unfold dxidy. cbn [qa qb qc qd]. rewrite (E (qa q)), (E (qb q)), (E (qc q)), (E (qd q)).
      repeat (rewrite (iso_scale _ _ _ H) || rewrite (dir_sub _ _ _ H) || rewrite (iso_add _ _ _ H)).
      generalize (dir (qa q)) (dir (qb q)) (dir (qc q)) (dir (qd q)) (pt v0). clear. intros a b c d e. vring'. }
    unfold det_j. rewrite E1, E2, (iso_cross _ _ _ H). case keeps; [apply (dir_norm _ _ _ H)|].
    rewrite <- (dir_norm _ _ _ H (cross (dxidx q y) (dxidy q x))). apply norm_eq. generalize (dir (cross (dxidx q y) (dxidy q x))). intros u. vring'.
  Qed.
  Lemma reversed_point q x y : local_point (Q (qd q) (qc q) (qb q) (qa q)) x y = local_point q (- x) y.
  Proof. unfold local_point. cbn [qa qb qc qd]. vring'. Qed.
  Lemma reversed_det q x y : det_j (Q (qd q) (qc q) (qb q) (qa q)) x y = det_j q (- x) y.
  Proof. unfold det_j. apply norm_eq. unfold dxidx, dxidy. cbn [qa qb qc qd]. vring'. Qed.
  Lemma kept_quadrature s q : face_quadrature s (Q (pt (qa q)) (pt (qb q)) (pt (qc q)) (pt (qd q))) = moved_points pt (face_quadrature s q).
  Proof.
    unfold face_quadrature, moved_points. rewrite map_map. apply map_ext. intros [[x y] u]. cbn [fst snd]. now rewrite pt_affine, det_moved.
  Qed.
  Lemma image_quadrature s q : symmetric_scheme (Some s) -> Permutation (face_quadrature s (image_quad pt keeps q)) (moved_points pt (face_quadrature s q)).
  Proof.
    intros P. pose proof (kept_quadrature s q) as K. unfold image_quad. case keeps; [rewrite K; apply Permutation_refl|].
    pose proof (kept_quadrature s (Q (qd q) (qc q) (qb q) (qa q))) as K'. cbn [qa qb qc qd] in K'. rewrite K'. unfold moved_points. apply Permutation_map.
    cbn in P. apply (Permutation_map (fun '((x, y), w) => (local_point q x y, w * 4 * det_j q x y))) in P. rewrite map_map in P.
    refine (perm_trans _ P). unfold face_quadrature. erewrite map_ext; [apply Permutation_refl|]. intros [[x y] u]. cbn beta iota. now rewrite reversed_point, reversed_det.
  Qed.
  Lemma source_image m tri tri' q : symmetric_scheme m -> moved pt dir (props_of tri q) (props_of tri' (image_quad pt keeps q)) ->
    moved_source pt dir keeps (source_of m (panel_of tri q)) (source_of m (panel_of tri' (image_quad pt keeps q))).
  Proof.
    intros Sy M. unfold moved_source. cbn [source_of panel_of sp_corners sp_props sp_quad pn_corners pn_props]. split; [reflexivity|]. split; [exact M|].
    destruct m as [s|]; [now apply image_quadrature|]. destruct M as (Ea & _ & Ec & _). rewrite Ea, Ec. apply Permutation_refl.
  Qed.
  Lemma planar_image a b c d : planar_convex a b c d ->
    if keeps then planar_convex (pt a) (pt b) (pt c) (pt d) else planar_convex (pt d) (pt c) (pt b) (pt a).
  Proof.
    intros P. assert (F : planar_convex (pt a) (pt b) (pt c) (pt d)).
    { destruct P as (u & k1 & k2 & k3 & k4 & U & P1 & P2 & P3 & P4 & Q1 & Q2 & Q3 & Q4).
      exists (if keeps then dir u else vscale (-1) (dir u)), k1, k2, k3, k4.
      assert (N : unit_vector (if keeps then dir u else vscale (-1) (dir u))).
      { unfold unit_vector in *. rewrite <- U, <- (dir_norm _ _ _ H u). case keeps; [reflexivity|]. apply norm_eq. generalize (dir u). intros v. vring'. }
      assert (X : forall k p q, cross p q = vscale k u -> cross (dir p) (dir q) = vscale k (if keeps then dir u else vscale (-1) (dir u))).
      { intros k p q E. rewrite (iso_cross _ _ _ H), E, (iso_scale _ _ _ H). case keeps; [reflexivity|]. generalize (dir u). intros v. vring'. }
      rewrite !(iso_sub _ _ _ H). repeat (split; [assumption|]). auto. }
    case keeps; [exact F|now apply planar_reverse].
  Qed.
  Lemma flat_image tri q : moved pt dir (props_of tri q) (props_of tri (image_quad pt keeps q)) -> flat_face tri q -> flat_face tri (image_quad pt keeps q).
  Proof.
    intros M (N & T & P). split; [destruct M as (-> & _); exact N|]. split.
    - intros Et. pose proof (T Et) as E. unfold image_quad. case keeps; cbn [qa qd]; now rewrite E.
    - destruct P as [P|P]; [now left|right]. apply planar_image in P. revert P. unfold image_quad. case keeps; intros P; exact P.
  Qed.
End Quadrature.

Section Invariance.
  Variable elementary : R -> R -> integrals.
  Variable decomposition : R -> list (R * R).
  Variable c : conditions.
  Hypothesis Sc : symmetric_scheme (c_quadrature c).
  Notation G := (delhommeau elementary decomposition c).
  Section Motion.
    Variables (pt dir : vec -> vec) (keeps : bool).
    Hypothesis H : isometry pt dir keeps.
    Hypothesis Mv : forall tri q, flat_face tri q -> moved pt dir (props_of tri q) (props_of tri (image_quad pt keeps q)).
    Section Pair.
      Variables (b tri1 tri2 : bool) (q1 q2 : quad).
      Hypothesis F1 : flat_face tri1 q1. Hypothesis F2 : flat_face tri2 q2.
      Notation p1 := (panel_of tri1 q1). Notation p2 := (panel_of tri2 q2).
      Notation p1' := (panel_of tri1 (image_quad pt keeps q1)). Notation p2' := (panel_of tri2 (image_quad pt keeps q2)).
      Lemma pair_1 : points_1 (pair_arguments c b p1' p2') 0%nat = pt (points_1 (pair_arguments c b p1 p2) 0%nat).
      Proof. destruct (Mv _ _ F1) as (_ & _ & E & _). exact E. Qed.
      Lemma pair_2 : moved_source pt dir keeps (panels_2 (pair_arguments c b p1 p2) 0%nat) (panels_2 (pair_arguments c b p1' p2') 0%nat).
      Proof. apply (source_image pt dir keeps H); [exact Sc|now apply Mv]. Qed.
      Lemma pair_3 : dot_normals (pair_arguments c b p1' p2') 0%nat = dir (dot_normals (pair_arguments c b p1 p2) 0%nat).
      Proof. cbn. destruct (c_adjoint c); [apply (Mv _ _ F1)|apply (Mv _ _ F2)]. Qed.
      Lemma delhommeau_moved : (forall x, vz (pt x) = vz x) -> G b p1' p2' = G b p1 p2.
      Proof.
        intros Up. unfold delhommeau. f_equal.
        - eapply S_entry_moved; [exact H|exact pair_1|exact pair_2|repeat split|exact Up].
        - erewrite gradient_entry_moved; [|exact H|exact pair_1|exact pair_2|exact pair_3|repeat split|exact Up].
          eapply along_moved; [exact H|exact pair_3].
      Qed.
      Lemma delhommeau_source : without_images c ->
        (b = true -> Rltb (Rabs (vz (p_center (pn_props p2')))) (/ 100000000) = Rltb (Rabs (vz (p_center (pn_props p2)))) (/ 100000000)) ->
        G b p1' p2' = G b p1 p2.
      Proof.
        intros [x Cx] J. unfold delhommeau. f_equal.
        - eapply source_S; [exact H|exact pair_1|exact pair_2|repeat split|exact Cx].
        - erewrite source_gradient; [|exact H|exact pair_1|exact pair_2|exact pair_3|repeat split|exact Cx|exact J].
          eapply along_moved; [exact H|exact pair_3].
      Qed.
    End Pair.
    Lemma delhommeau_invariant f : (forall x, vz (pt x) = vz x) -> (forall q, f q = image_quad pt keeps q) -> invariant_under flat_face G f.
    Proof.
      intros Up E. split.
      - intros tri q F. rewrite E. apply (flat_image pt dir keeps H); [now apply Mv|exact F].
      - intros b t1 t2 q1 q2 F1 F2. rewrite !E. now apply delhommeau_moved.
    Qed.
  End Motion.
  Lemma moved_translation v tri q : flat_face tri q -> moved (fun x => vadd x v) (fun n => n) (props_of tri q) (props_of tri (image_quad (fun x => vadd x v) true q)).
  Proof. intros (N & _). now apply translation_props. Qed.
  Lemma moved_rotation a th tri q : proper_axis a -> flat_face tri q -> moved (rotate_point a th) (rotate_vector a th) (props_of tri q) (props_of tri (image_quad (rotate_point a th) true q)).
  Proof. intros U (N & _). now apply rotation_props. Qed.
  Lemma moved_mirror p tri q : proper_plane p -> flat_face tri q -> moved (mirror_point p) (mirror_vector p) (props_of tri q) (props_of tri (image_quad (mirror_point p) false q)).
  Proof. intros U (N & T & P). now apply mirror_props. Qed.
  Lemma delhommeau_respects k : upright_kind k -> respects flat_face G k.
  Proof.
    destruct k as [|p|v i|a]; cbn [upright_kind respects]; [trivial|..].
    - intros (U & Z). split; [exact U|]. apply (delhommeau_invariant _ _ _ (mirror_is_isometry p U) (fun tri q => moved_mirror p tri q U)); [|reflexivity].
      intros x. now apply mirror_upright.
    - intros Z. apply (delhommeau_invariant _ _ _ (translation_isometry v) (moved_translation v)); [|reflexivity]. intros x. cbn. rewrite Z. ring.
    - intros (U & X & Y). split; [exact U|]. intros th.
      apply (delhommeau_invariant _ _ _ (rotation_isometry a th U) (fun tri q => moved_rotation a th tri q U)); [|reflexivity]. intros x. now apply rotation_upright.
  Qed.
End Invariance.
