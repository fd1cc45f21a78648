(** Properties of the quadrature points of the faces (C49). *)
From Coq Require Import Reals String List Bool Lra Lia Arith.
From Verif Require Import Model_Base Model_Geometry Model_Mesh Spec_Mesh Proofs_Geometry Proofs_Mesh Proofs_Mesh2
  Model_Quadrature Spec_Quadrature Proofs_Quadrature.
Import ListNotations.
Open Scope R_scope.

(** C49: for each built-in scheme and each valid mesh, every face gets quadrature
    points that are convex combinations of its corners, with non-negative
    weights; the weights of a planar convex face (such as triangles and
    parallelograms, see below) sum to its area. *)
Theorem quadrature_area m name s : valid m -> builtin_method name = Some s ->
  exists l, quadrature_of m (Named name) = Ok l /\ length l = length (m_faces m)
  /\ forall k a b c d, face_is m k a b c d ->
     exists pts, nth_error l k = Some pts /\ length pts = length s
       /\ (forall p w, In (p, w) pts -> convex_combination a b c d p /\ 0 <= w)
       /\ (planar_convex a b c d -> sum_weights pts = norm (area_vector a b c d)).
Proof.
  intros Va B. destruct (builtin_scheme _ _ B) as [I L].
  destruct (mapM_total (face_points (m_vertices m)) (m_faces m)) as [qs HQ].
  { intros f Hf. apply valid_points; auto. }
  exists (map (face_quadrature s) qs). unfold quadrature_of, all_points. rewrite HQ. cbn [bind].
  unfold compute_quadrature_on_faces, find_scheme. rewrite B. cbn [bind]. split; [reflexivity|].
  rewrite map_length. split; [exact (mapM_length _ _ _ HQ)|].
  intros k a b c d F. apply face_is_points in F. destruct F as (f & Nf & Pf).
  destruct (proj2 (proj1 (mapM_ok _ _ _) HQ) k f Nf) as (q & Eq & Nq). rewrite Pf in Eq. apply Ok_inj' in Eq. subst q.
  exists (face_quadrature s (Q a b c d)). split; [rewrite nth_error_map, Nq; reflexivity|].
  split; [apply map_length|]. split.
  - intros p w H. split; [apply (points_inside s (Q a b c d) p w I H)|].
    apply (weight_nonneg s (Q a b c d) p w); auto. intros x y v Hv. apply Rlt_le. eapply builtin_weight; eauto.
  - intros P. apply weights_area; auto.
Qed.
Print Assumptions quadrature_area.

(** The mesh of the examples: a parallelogram and a triangle. *)
Definition panels : mesh :=
  Mesh [V 0 0 0; V 2 0 0; V 3 1 0; V 1 1 0; V 0 0 (-1)] [F 0 1 2 3; F 0 4 1 0].
Example panels_valid : valid panels.
Proof. intros f i Hf Hi. cbn in Hf. repeat destruct Hf as [Hf|Hf]; try contradiction; subst f; cbn in *; lia. Qed.
Example panels_first : face_is panels 0 (V 0 0 0) (V 2 0 0) (V 3 1 0) (V 1 1 0).
Proof. exists (F 0 1 2 3). repeat split. Qed.
Example panels_area : planar_convex (V 0 0 0) (V 2 0 0) (V 3 1 0) (V 1 1 0)
  /\ norm (area_vector (V 0 0 0) (V 2 0 0) (V 3 1 0) (V 1 1 0)) = 2.
Proof.
  split; [apply parallelogram_convex; apply vec_ext; cbn; ring|].
  replace (area_vector _ _ _ _) with (vscale 2 e_z) by (unfold area_vector, e_z; apply vec_ext; cbn; field).
  rewrite norm_scale, Rabs_right by lra. replace (norm e_z) with 1; [ring|].
  symmetry. apply unit_dot. unfold dot; cbn; ring.
Qed.

(** Triangles and parallelograms are planar and convex. *)
Theorem triangles_convex a b c : planar_convex a b c a.
Proof. exact (triangle_convex a b c). Qed.
Print Assumptions triangles_convex.
Theorem parallelograms_convex a b c d : vsub d a = vsub c b -> planar_convex a b c d.
Proof. exact (parallelogram_convex a b c d). Qed.
Print Assumptions parallelograms_convex.

(** C49: the sum is the area that the mesh reports for the face, unless the face
    is so small that it is considered as degenerate. *)
Theorem quadrature_face_area m name s l ps k p pts : valid m -> builtin_method name = Some s ->
  quadrature_of m (Named name) = Ok l -> faces_props m = Ok ps ->
  nth_error ps k = Some p -> nth_error l k = Some pts -> p_area p <> 0 ->
  (forall a b c d, face_is m k a b c d -> planar_convex a b c d) ->
  sum_weights pts = p_area p.
Proof.
  intros Va B HL HP Np Nl NZ PC. destruct (quadrature_area m name s Va B) as (l' & HL' & _ & HF).
  rewrite HL in HL'. apply Ok_inj' in HL'. subst l'.
  assert (Hk : exists f, nth_error (m_faces m) k = Some f).
  { destruct (nth_error (m_faces m) k) eqn:E; [eauto|]. apply nth_error_None in E.
    assert (LP := mapM_length _ _ _ HP). assert (k < length ps)%nat by (apply nth_error_Some; congruence). lia. }
  destruct Hk as (f & Nf).
  destruct (proj2 (proj1 (mapM_ok _ _ _) HP) k f Nf) as (p' & Ep & Np'). rewrite Np in Np'. injection Np' as <-.
  unfold face_props in Ep. destruct (face_points (m_vertices m) f) as [q|e] eqn:Pf; [|discriminate].
  cbn [bind] in Ep. apply Ok_inj' in Ep. subst p. destruct q as [a b c d].
  assert (Hf : face_is m k a b c d) by (apply face_is_points; eauto).
  destruct (HF k a b c d Hf) as (pts' & Nl' & _ & _ & S). rewrite Nl in Nl'. injection Nl' as <-.
  rewrite (S (PC _ _ _ _ Hf)). symmetry. apply (panel_area (is_tri f) (Q a b c d)); auto.
  - intros T. unfold is_tri in T. apply Nat.eqb_eq in T. cbn [qa qd].
    destruct Hf as (f' & Nf' & Ha & _ & _ & Hd). rewrite Nf in Nf'. injection Nf' as <-. rewrite T in Ha. congruence.
Qed.
Print Assumptions quadrature_face_area.

(** C49, more generally: any scheme of the square that integrates exactly the
    polynomials of degree one (as an external scheme may). *)
Theorem scheme_area s a b c d : planar_convex a b c d -> inside_square s -> exact_linear s ->
  sum_weights (face_quadrature s (Q a b c d)) = norm (area_vector a b c d).
Proof. exact (weights_area s a b c d). Qed.
Print Assumptions scheme_area.
Example scheme_area_example : inside_square gauss_legendre_2 /\ exact_linear gauss_legendre_2.
Proof. split; [exact gauss_legendre_inside|exact (proj1 (proj1 gauss_legendre_mixed))]. Qed.

(** The four-point scheme also integrates exactly the position over a planar
    convex face: the result is the sum over the two halves of the face of the
    area times the barycentre. *)
Theorem quadrature_moment a b c d : planar_convex a b c d ->
  first_moment (face_quadrature gauss_legendre_2 (Q a b c d))
  = vadd (vscale (norm (area_vector a b c a)) (vscale (1 / 3) (vadd (vadd a b) c)))
         (vscale (norm (area_vector a c d a)) (vscale (1 / 3) (vadd (vadd c d) a))).
Proof. intros P. exact (moment_area gauss_legendre_2 a b c d P gauss_legendre_inside gauss_legendre_mixed). Qed.
Print Assumptions quadrature_moment.

(** Without a method, the only point of a face is its centre, with the area of
    the face as weight; a method that is not known is rejected. *)
Theorem quadrature_default m ps : faces_props m = Ok ps ->
  quadrature_of m NoMethod = Ok (map (fun p => [(p_center p, p_area p)]) ps).
Proof.
  intros H. unfold quadrature_of, all_points.
  destruct (mapM_total (face_points (m_vertices m)) (m_faces m)) as [qs HQ].
  { intros f Hf. apply In_nth_error in Hf. destruct Hf as (k & Nf).
    destruct (proj2 (proj1 (mapM_ok _ _ _) H) k f Nf) as (p & E & _). unfold face_props in E.
    destruct (face_points (m_vertices m) f); [eauto|discriminate]. }
  rewrite HQ. cbn [bind]. rewrite H. reflexivity.
Qed.
Print Assumptions quadrature_default.
Theorem quadrature_unknown m name : valid m -> name <> "First order"%string -> name <> "Gauss-Legendre 2"%string ->
  quadrature_of m (Named name) = Err ValueError.
Proof.
  intros Va N1 N2. unfold quadrature_of, all_points.
  destruct (mapM_total (face_points (m_vertices m)) (m_faces m)) as [qs HQ]; [intros f Hf; apply valid_points; auto|].
  rewrite HQ. cbn [bind]. unfold compute_quadrature_on_faces, find_scheme, builtin_method.
  rewrite (proj2 (String.eqb_neq _ _) N1), (proj2 (String.eqb_neq _ _) N2). reflexivity.
Qed.
Print Assumptions quadrature_unknown.

(** The area reported for a warped face is larger than the weight of the
    one-point scheme: the restriction to planar faces is needed. *)
Theorem quadrature_warped_refuted :
  exists m l ps p w, valid m /\ quadrature_of m (Named "First order") = Ok l /\ faces_props m = Ok ps
    /\ nth_error ps 0 = Some p /\ nth_error l 0 = Some [w] /\ snd w < p_area p.
Proof.
  set (q := Q (V 0 0 0) (V 1 0 0) (V 1 1 1) (V 0 1 0)).
  exists (Mesh [V 0 0 0; V 1 0 0; V 1 1 1; V 0 1 0] [F 0 1 2 3]), [face_quadrature first_order q], [props_of false q].
  exists (props_of false q), (local_point q 0 0, 1 * 4 * det_j q 0 0).
  split; [|repeat split].
  - intros f i [Hf|[]] Hi. subst f. cbn in *. lia.
  - cbn [snd]. unfold det_j, props_of, quad_props. cbn [qa qb qc qd q].
    assert (W : dot (cross (dxidx q 0) (dxidy q 0)) (cross (dxidx q 0) (dxidy q 0)) = 3 / 32)
      by (unfold dxidx, dxidy, dot, q; cbn; field).
    assert (N : norm (cross (vsub (V 1 1 1) (V 0 0 0)) (vsub (V 0 1 0) (V 1 0 0))) = sqrt 6)
      by (unfold norm; f_equal; unfold dot; cbn; ring).
    assert (N1 : norm (cross (vsub (V 1 0 0) (V 0 0 0)) (vsub (V 1 1 1) (V 0 0 0))) = sqrt 2)
      by (unfold norm; f_equal; unfold dot; cbn; ring).
    assert (N2 : norm (cross (vsub (V 0 1 0) (V 0 0 0)) (vsub (V 1 1 1) (V 0 0 0))) = sqrt 2)
      by (unfold norm; f_equal; unfold dot; cbn; ring).
    assert (S6 : 1 < sqrt 6) by (rewrite <- sqrt_1; apply sqrt_lt_1; lra).
    cbv zeta. rewrite N, N1, N2.
    rewrite (proj2 (Rltb_false (Rabs (sqrt 6)) degenerate_tol)) by (rewrite Rabs_right by lra; unfold degenerate_tol; lra).
    cbn [p_area]. unfold norm. rewrite W.
    assert (S2 := sqrt_sqrt 2). assert (0 <= sqrt 2) by apply sqrt_pos.
    assert (SW := sqrt_sqrt (3 / 32)). assert (0 <= sqrt (3 / 32)) by apply sqrt_pos. nra.
Qed.
Print Assumptions quadrature_warped_refuted.
