(** C25: rigid transformations of meshes. *)
From Coq Require Import Reals List Bool ZArith Lra Lia.
From Verif Require Import Model_Base Model_Geometry Model_Mesh Spec_Mesh Proofs_Geometry Proofs_Mesh Proofs_Mesh2 Proofs_Mesh3.
Import ListNotations.
Open Scope R_scope.

(** A mesh with one unit square and one triangle, used by the examples. *)
Definition ex_mesh : mesh :=
  Mesh [V 0 0 0; V 1 0 0; V 1 1 0; V 0 1 0; V 0 0 1] [F 0 1 2 3; F 0 3 4 0].
Lemma ex_mesh_valid : valid ex_mesh.
Proof.
  intros f i Hf Hi. cbn in *.
  repeat match goal with H : _ \/ _ |- _ => destruct H as [H|H] end; subst; cbn in *;
    repeat match goal with H : _ \/ _ |- _ => destruct H as [H|H] end; lia.
Qed.
Lemma ex_planar : planar_convex (V 0 0 0) (V 1 0 0) (V 1 1 0) (V 0 1 0).
Proof.
  exists e_z, 1, 1, 1, 1. split; [apply unit_dot; vring|].
  split; [lra|]. split; [lra|]. split; [lra|]. split; [lra|].
  split; [|split; [|split]]; vring.
Qed.
Lemma ex_mesh_flat : flat ex_mesh.
Proof.
  intros [|[|k]] f a b c d E (g & G & A & B & C & D); rewrite E in G; cbn in E.
  - injection E as <-. injection G as <-. cbn in *. right.
    injection A as <-. injection B as <-. injection C as <-. injection D as <-. exact ex_planar.
  - injection E as <-. now left.
  - destruct k; discriminate.
Qed.

(** C25, translations: they keep the faces, their areas, normals and radiuses, the distances between
    points, and move the centers by the same vector. The properties are those of the faces with a
    non-zero area (the center of a face without area is the origin, see below). *)
Theorem translate_is_rigid :
  forall m t, valid m ->
  valid (translate m t) /\ m_faces (translate m t) = m_faces m /\
  (forall k a b c d, face_is m k a b c d -> face_is (translate m t) k (vadd a t) (vadd b t) (vadd c t) (vadd d t)) /\
  (forall p q, dist (vadd p t) (vadd q t) = dist p q) /\
  (forall ps, faces_props m = Ok ps -> exists ps', faces_props (translate m t) = Ok ps' /\ length ps' = length ps /\
     forall k x, nth_error ps k = Some x -> exists y, nth_error ps' k = Some y /\
       (p_area x <> 0 -> p_area y = p_area x /\ p_normal y = p_normal x
                         /\ p_center y = vadd (p_center x) t /\ p_radius y = p_radius x)).
Proof.
  intros m t Vm. split; [now apply transformed_valid|]. split; [reflexivity|].
  split; [intros; now apply (transformed_face_is (fun p => vadd p t))|]. split; [intros; apply translate_isometry|].
  intros ps H. exact (translate_mesh m t ps Vm H).
Qed.
Print Assumptions translate_is_rigid.
Example translate_ex : valid ex_mesh /\ face_is (translate ex_mesh (V 1 2 3)) 0 (V 1 2 3) (V 2 2 3) (V 2 3 3) (V 1 3 3).
Proof.
  split; [exact ex_mesh_valid|].
  replace (V 1 2 3) with (vadd (V 0 0 0) (V 1 2 3)) at 2 by vring. replace (V 2 2 3) with (vadd (V 1 0 0) (V 1 2 3)) by vring.
  replace (V 2 3 3) with (vadd (V 1 1 0) (V 1 2 3)) by vring. replace (V 1 3 3) with (vadd (V 0 1 0) (V 1 2 3)) by vring.
  eexists. repeat split; reflexivity.
Qed.

(** C25, rotations: the same, and the normals are rotated. *)
Theorem rotate_is_rigid :
  forall m a th, valid m -> proper_axis a ->
  valid (rotate m a th) /\ m_faces (rotate m a th) = m_faces m /\
  (forall k p q r s, face_is m k p q r s ->
     face_is (rotate m a th) k (rotate_point a th p) (rotate_point a th q) (rotate_point a th r) (rotate_point a th s)) /\
  (forall p q, dist (rotate_point a th p) (rotate_point a th q) = dist p q) /\
  (forall u v w, triple (rotate_vector a th u) (rotate_vector a th v) (rotate_vector a th w) = triple u v w) /\
  (forall ps, faces_props m = Ok ps -> exists ps', faces_props (rotate m a th) = Ok ps' /\ length ps' = length ps /\
     forall k x, nth_error ps k = Some x -> exists y, nth_error ps' k = Some y /\
       (p_area x <> 0 -> p_area y = p_area x /\ p_normal y = rotate_vector a th (p_normal x)
                         /\ p_center y = rotate_point a th (p_center x) /\ p_radius y = p_radius x)).
Proof.
  intros m a th Vm U. split; [now apply transformed_valid|]. split; [reflexivity|].
  split; [intros; now apply (transformed_face_is (rotate_point a th))|]. split; [intros; now apply rotate_isometry|].
  split; [intros; now apply rotate_vector_triple|].
  intros ps H. exact (rotate_mesh m a th ps Vm U H).
Qed.
Print Assumptions rotate_is_rigid.

(** C25, the rotations about an axis: their fixed points, composition, and full turn. *)
Theorem rotation_group :
  forall a s t x, proper_axis a ->
  (on_axis a x -> rotate_point a t x = x) /\
  (cos t <> 1 -> rotate_point a t x = x -> on_axis a x) /\
  rotate_point a s (rotate_point a t x) = rotate_point a (s + t) x /\
  rotate_point a 0 x = x /\ rotate_point a (2 * PI) x = x.
Proof.
  intros a s t x U. split; [apply rotate_fixes|]. split; [now apply rotate_fixed_on_axis|].
  split; [now apply rotate_compose|]. split; [apply rotate_zero|now apply rotate_full_turn].
Qed.
Print Assumptions rotation_group.
(** A rotation in the usual direction: a quarter of turn around the vertical axis sends the first axis
    on the second one. *)
Theorem rotation_direction :
  forall th x y z, rotate_point Oz_axis th (V x y z) = V (x * cos th - y * sin th) (x * sin th + y * cos th) z.
Proof.
  intros. unfold rotate_point, Oz_axis, e_z. cbn [ax_point].
  rewrite rotate_vector_formula. cbn [ax_vector]. unfold vsub, vadd, cross, vscale, v0. cbn. apply vec_ext; cbn; ring.
Qed.
Print Assumptions rotation_direction.
Example rotation_ex : proper_axis Oz_axis /\ rotate_point Oz_axis (PI / 2) (V 1 0 0) = V 0 1 0 /\ cos (PI / 2) <> 1.
Proof.
  split; [unfold proper_axis, Oz_axis; cbn [ax_vector]; apply unit_dot; vring|]. rewrite rotation_direction, cos_PI2, sin_PI2.
  split; [apply vec_ext; cbn; ring|lra].
Qed.

(** C25, mirror: the map is an isometry and an involution that reverses the orientation, for every
    plane; it is the reflection through the plane when the normal points away from the origin.
    Missing: planes on the other side (refuted below), face areas and centers of quadrangles that are
    not planar (refuted below). *)
Theorem mirror_is_reflection_partial :
  forall m p, valid m -> proper_plane p ->
  valid (mirror m p) /\
  (forall k a b c d, face_is m k a b c d ->
     face_is (mirror m p) k (mirror_point p d) (mirror_point p c) (mirror_point p b) (mirror_point p a)) /\
  (forall x y, dist (mirror_point p x) (mirror_point p y) = dist x y) /\
  (forall x, mirror_point p (mirror_point p x) = x) /\
  mirror (mirror m p) p = m /\
  (forall u v w, triple (mirror_vector p u) (mirror_vector p v) (mirror_vector p w) = - triple u v w) /\
  (0 <= dot (pl_normal p) (pl_point p) -> forall x, reflected p x (mirror_point p x)) /\
  (0 <= dot (pl_normal p) (pl_point p) -> forall x, on_plane p x -> mirror_point p x = x) /\
  (flat m -> forall ps, faces_props m = Ok ps ->
     exists ps', faces_props (mirror m p) = Ok ps' /\ length ps' = length ps /\
     forall k x, nth_error ps k = Some x -> exists y, nth_error ps' k = Some y /\
       (p_area x <> 0 -> p_area y = p_area x /\ p_normal y = mirror_vector p (p_normal x)
                         /\ p_center y = mirror_point p (p_center x) /\ p_radius y = p_radius x)).
Proof.
  intros m p Vm U. split; [apply flip_valid; now apply transformed_valid|].
  split; [intros k a b c d H; apply flip_face_is; now apply (transformed_face_is (mirror_point p))|].
  split; [intros; now apply mirror_isometry|]. split; [intros; now apply mirror_involution|].
  split.
  { destruct m as [vs fs]. unfold mirror, flip_normals. cbn. f_equal.
    - rewrite map_map. transitivity (map (fun x : vec => x) vs); [|apply map_id].
      apply map_ext. intros x. now apply mirror_involution.
    - rewrite map_map. transitivity (map (fun x : face => x) fs); [|apply map_id]. apply map_ext. now intros []. }
  split; [intros; now apply mirror_vector_triple|]. split; [intros; now apply mirror_reflected|].
  split.
  { intros N x H. apply (reflected_unique p x); [exact U|now apply mirror_reflected|].
    split.
    - unfold on_plane in *. replace (vscale (1 / 2) (vadd x x)) with x; [exact H|].
      clear. destruct x. unfold vscale, vadd; cbn. apply vec_ext; cbn; field.
    - exists 0. generalize (pl_normal p). clear. intros n. vring. }
  intros Fm ps H. exact (mirror_mesh m p ps Vm Fm U H).
Qed.
Print Assumptions mirror_is_reflection_partial.
Example mirror_ex : proper_plane (Plane e_x (V 2 5 7)) /\ 0 <= dot e_x (V 2 5 7) /\ valid ex_mesh /\ flat ex_mesh
  /\ mirror_point (Plane e_x (V 2 5 7)) (V 3 1 1) = V 1 1 1
  /\ exists ps x, faces_props ex_mesh = Ok ps /\ nth_error ps 0 = Some x /\ p_area x <> 0.
Proof.
  split; [unfold proper_plane; cbn [pl_normal]; apply unit_dot; vring|]. split; [unfold dot; cbn; lra|]. split; [exact ex_mesh_valid|]. split; [exact ex_mesh_flat|].
  split.
  - unfold mirror_point, pl_c. cbn [pl_normal pl_point]. vunfold. rewrite Rabs_pos_eq by lra. apply vec_ext; cbn; ring.
  - do 2 eexists. split; [reflexivity|]. split; [reflexivity|]. unfold props_of, quad_props. cbn [is_tri fa fd Nat.eqb qa qb qc qd].
    replace (norm (cross (vsub (V 1 1 0) (V 0 0 0)) (vsub (V 0 1 0) (V 1 0 0)))) with (sqrt 4) by (symmetry; norm_value 4).
    replace (sqrt 4) with 2 by (symmetry; apply sqrt_lem_1; lra).
    destruct (Rltb (Rabs 2) degenerate_tol) eqn:E.
    + apply Rltb_true in E. rewrite Rabs_pos_eq in E by lra. unfold degenerate_tol in E. lra.
    + cbn [p_area].
      replace (norm (cross (vsub (V 1 0 0) (V 0 0 0)) (vsub (V 1 1 0) (V 0 0 0)))) with (sqrt 1) by (symmetry; norm_value 1).
      replace (norm (cross (vsub (V 0 1 0) (V 0 0 0)) (vsub (V 1 1 0) (V 0 0 0)))) with (sqrt 1) by (symmetry; norm_value 1).
      rewrite sqrt_1. lra.
Qed.

(** When the normal points towards the origin, the points are reflected through another plane:
    the symmetric of the given one. *)
Theorem mirror_wrong_plane_refuted :
  forall p x, proper_plane p -> dot (pl_normal p) (pl_point p) < 0 ->
  reflected (Plane (pl_normal p) (vopp (pl_point p))) x (mirror_point p x) /\ ~ reflected p x (mirror_point p x).
Proof. exact mirror_wrong_plane. Qed.
Print Assumptions mirror_wrong_plane_refuted.
(** Mirroring through the plane x = -1: the point (-1, 0, 0) of this plane is sent to (3, 0, 0). *)
Example mirror_wrong_plane_ex :
  proper_plane (Plane e_x (V (-1) 0 0)) /\ dot e_x (V (-1) 0 0) < 0 /\
  on_plane (Plane e_x (V (-1) 0 0)) (V (-1) 0 0) /\ mirror_point (Plane e_x (V (-1) 0 0)) (V (-1) 0 0) = V 3 0 0.
Proof.
  split; [unfold proper_plane; cbn [pl_normal]; apply unit_dot; vring|]. split; [unfold dot; cbn; lra|]. split; [unfold on_plane; cbn [pl_normal pl_point]; vring|].
  unfold mirror_point, pl_c. cbn [pl_normal pl_point]. vunfold. rewrite Rabs_left by lra. apply vec_ext; cbn; ring.
Qed.

(** The centers of the faces without area are not moved: they are at the origin before and after. *)
Theorem degenerate_center_refuted :
  exists m ps ps' x y, valid m /\ faces_props m = Ok ps /\ faces_props (translate m (V 1 0 0)) = Ok ps' /\
    nth_error ps 0 = Some x /\ nth_error ps' 0 = Some y /\ p_center x = v0 /\ p_center y = v0
    /\ forall v, In v (m_vertices m) -> v = V 5 0 0.
Proof.
  exists (Mesh [V 5 0 0] [F 0 0 0 0]). do 4 eexists. split.
  { intros f i [<-|[]] Hi. cbn in *. lia. }
  split; [reflexivity|]. split; [reflexivity|]. split; [reflexivity|]. split; [reflexivity|].
  assert (D : forall p, tri_props (Q p p p p) = (0, v0, v0)).
  { intros p. unfold tri_props. cbn [qa qb qc qd]. replace (norm (cross (vsub p p) (vsub p p))) with 0.
    - destruct (Rltb (Rabs 0) degenerate_tol) eqn:E; [reflexivity|]. apply Rltb_false in E. rewrite Rabs_R0 in E.
      pose proof degenerate_tol_pos. lra.
    - symmetry. apply norm_zero. vring. }
  unfold props_of. cbn [is_tri fa fd Nat.eqb]. rewrite !D. cbn. split; [reflexivity|]. split; [reflexivity|].
  now intros v [<-|[]].
Qed.
Print Assumptions degenerate_center_refuted.

(** C25, aligning vectors: for two unit vectors that are not parallel, or opposite, the object is
    rotated around the center and the first vector is sent on the second one. Missing: vectors that
    are not unit (refuted below), vectors that are almost parallel. *)
Theorem align_vectors_partial :
  forall center u v, unit_vector u -> unit_vector v -> parallel_vectors u v = false \/ v = vopp u ->
  exists a t, align_vectors center u v = Rotation a t /\ proper_axis a /\ ax_point a = center /\ rotate_vector a t u = v.
Proof.
  intros center u v Uu Uv [H|H]; [now apply align_apart|subst v; now apply align_opposite].
Qed.
Print Assumptions align_vectors_partial.
Example align_vectors_ex : unit_vector e_x /\ unit_vector e_y /\ parallel_vectors e_x e_y = false.
Proof.
  split; [unfold proper_plane; cbn [pl_normal]; apply unit_dot; vring|]. split; [apply unit_dot; vring|]. unfold parallel_vectors. apply Rltb_false.
  replace (cross e_x e_y) with e_z by vring. assert (unit_vector e_z) as -> by (apply unit_dot; vring). unfold geom_tol. lra.
Qed.
(** For vectors that are not unit the result is wrong: (1,0,0) is not rotated to be parallel to (1,1,0). *)
Theorem align_not_unit_refuted :
  forall center p, apply_alignment (align_vectors center (V 1 0 0) (V 1 1 0)) p = Some p.
Proof. exact align_not_unit. Qed.
Print Assumptions align_not_unit_refuted.
