(** C21 and C23: extraction of faces, healing, triangulation and flipping. *)
From Coq Require Import Reals List Bool ZArith Lra Lia Permutation.
From Verif Require Import Model_Base Model_Geometry Model_Mesh Spec_Mesh Proofs_Geometry Proofs_Mesh Proofs_Mesh2 Proofs_Mesh3 Props_Geometry.
Import ListNotations.
Open Scope R_scope.

(** Building a mesh from arrays succeeds exactly when the shapes are right and every face refers to
    existing vertices, and then the mesh is made of the given arrays. *)
Theorem new_mesh_accepts_valid :
  forall vs fs m, new_mesh vs fs = Ok m <->
  (forall r, In r vs -> length r = 3%nat)
  /\ (forall r, In r fs -> length r = 4%nat /\ forall z, In z r -> (0 <= z < Z.of_nat (length vs))%Z)
  /\ m = Mesh (map row_vec vs) (map row_face fs).
Proof. exact new_mesh_iff. Qed.
Print Assumptions new_mesh_accepts_valid.
Example new_mesh_ex : new_mesh [[0; 0; 0]; [1; 0; 0]; [0; 1; 0]] [[0; 1; 2; 0]%Z] = Ok (Mesh [V 0 0 0; V 1 0 0; V 0 1 0] [F 0 1 2 0])
  /\ new_mesh [[0; 0; 0]; [1; 0; 0]; [0; 1; 0]] [[0; 1; 3; 0]%Z] = Err AssertionError.
Proof. split; reflexivity. Qed.

(** C21 *)
Theorem extract_faces_keeps_geometry :
  forall m ids, valid m -> (forall z, In z ids -> exists i, index_of (nb_faces m) z i) ->
  exists m' used, extract_faces m ids = Ok (m', used)
    /\ valid m' /\ all_used m' /\ nb_faces m' = length ids
    /\ (forall k z i a b c d, nth_error ids k = Some z -> index_of (nb_faces m) z i ->
          face_is m i a b c d -> face_is m' k a b c d)
    /\ (forall k z i ps ps' x, nth_error ids k = Some z -> index_of (nb_faces m) z i ->
          faces_props m = Ok ps -> faces_props m' = Ok ps' -> nth_error ps i = Some x -> nth_error ps' k = Some x)
    /\ length used = nb_vertices m'
    /\ (forall k i, nth_error used k = Some i -> nth_error (m_vertices m') k = nth_error (m_vertices m) i).
Proof. exact extract_faces_spec. Qed.
Print Assumptions extract_faces_keeps_geometry.
Theorem extract_faces_bad_index :
  forall m ids z, In z ids -> (forall i, ~ index_of (nb_faces m) z i) -> extract_faces m ids = Err IndexError.
Proof. exact extract_faces_out_of_range. Qed.
Print Assumptions extract_faces_bad_index.
Example extract_faces_ex :
  valid ex_mesh /\ index_of (nb_faces ex_mesh) (-1) 1 /\ (forall i, ~ index_of (nb_faces ex_mesh) 2 i)
  /\ extract_faces ex_mesh [(-1)%Z] = Ok (Mesh [V 0 0 0; V 0 1 0; V 0 0 1] [F 0 1 2 0], [0; 3; 4]%nat).
Proof.
  split; [exact ex_mesh_valid|]. split; [split; [cbn; lia|right; reflexivity]|].
  split; [intros i [H1 H2]; cbn in *; lia|reflexivity].
Qed.

(** The mesh made of one face. *)
Theorem extract_one_face_keeps_geometry :
  forall m z i a b c d ps x, index_of (nb_faces m) z i -> face_is m i a b c d ->
  faces_props m = Ok ps -> nth_error ps i = Some x ->
  exists m', extract_one_face m z = Ok m' /\ valid m' /\ nb_faces m' = 1%nat /\ face_is m' 0 a b c d
    /\ faces_props m' = Ok [x].
Proof. exact extract_one_face_spec. Qed.
Print Assumptions extract_one_face_keeps_geometry.
Example extract_one_face_ex : index_of (nb_faces ex_mesh) 1 1 /\ face_is ex_mesh 1 (V 0 0 0) (V 0 1 0) (V 0 0 1) (V 0 0 0)
  /\ exists ps x, faces_props ex_mesh = Ok ps /\ nth_error ps 1 = Some x.
Proof.
  split; [split; [cbn; lia|now left]|]. split; [eexists; repeat split; reflexivity|].
  do 2 eexists. split; reflexivity.
Qed.

(** Slicing by a plane and extracting the lid share out the faces, whatever the order in which sets
    are listed. *)
Theorem sliced_by_plane_shares_faces :
  forall (set_order : list nat -> list nat), (forall l, Permutation l (set_order l)) ->
  forall m p ps, valid m -> faces_props m = Ok ps ->
  exists parts, sliced_by_plane set_order m p = Ok parts
    /\ (parts = [m] \/ exists m1 m2 ids1 ids2, parts = [m1; m2] /\ splits (nb_faces m) ids1 ids2
          /\ selects m ids1 m1 /\ selects m ids2 m2
          /\ (forall i x, nth_error ps i = Some x ->
                (In i ids1 <-> dot (vsub (p_center x) (pl_point p)) (pl_normal p) < 0))
          /\ ids1 <> [] /\ ids2 <> []).
Proof.
  intros so Hso m p ps Vm Hps. destruct (sliced_by_plane_spec so Hso m p ps Vm Hps) as (parts & E & H).
  exists parts. split; [exact E|]. destruct H as [H|(m1 & m2 & i1 & i2 & H1 & H2 & H3 & H4 & H5 & H6)]; [now left|right].
  exists m1, m2, i1, i2. split; [exact H1|]. split; [exact H2|]. split; [exact H3|]. split; [exact H4|].
  split; [|exact H6]. intros i x Hx. rewrite (H5 i x Hx). unfold distance_to_point.
  replace (dot (vsub (p_center x) (pl_point p)) (pl_normal p)) with (dot (p_center x) (pl_normal p) - dot (pl_point p) (pl_normal p)); [tauto|].
  generalize (p_center x) (pl_point p) (pl_normal p). clear. intros u v w. vring.
Qed.
Print Assumptions sliced_by_plane_shares_faces.
Theorem extract_lid_shares_faces :
  forall (set_order : list nat -> list nat), (forall l, Permutation l (set_order l)) ->
  forall m p ps, valid m -> faces_props m = Ok ps ->
  exists hull lid ids_hull ids_lid, extract_lid set_order m p = Ok (hull, lid)
    /\ splits (nb_faces m) ids_lid ids_hull /\ selects m ids_lid lid /\ selects m ids_hull hull
    /\ (forall i x, nth_error ps i = Some x ->
          (In i ids_lid <-> in_plane p (p_center x) = true /\ parallel_vectors (pl_normal p) (p_normal x) = true)).
Proof.
  intros so Hso m p ps Vm Hps. destruct (extract_lid_spec so Hso m p ps Vm Hps) as (h & l & i1 & i2 & E & A & B & C & D).
  exists h, l, i1, i2. split; [exact E|]. split; [exact A|]. split; [exact B|]. split; [exact C|].
  intros i x Hx. rewrite (D i x Hx). unfold face_on_plane. now rewrite andb_true_iff.
Qed.
Print Assumptions extract_lid_shares_faces.
Example slices_ex : (forall l : list nat, Permutation l ((fun l => l) l)) /\ valid ex_mesh
  /\ exists ps, faces_props ex_mesh = Ok ps.
Proof. split; [auto|]. split; [exact ex_mesh_valid|]. apply valid_faces_props, ex_mesh_valid. Qed.

(** Removing the unused vertices and the degenerated faces. *)
Theorem remove_unused_vertices_keeps_faces :
  forall m, valid m -> exists m', remove_unused m = Ok m' /\ valid m' /\ all_used m' /\ nb_faces m' = nb_faces m
  /\ (forall k a b c d, face_is m k a b c d -> face_is m' k a b c d)
  /\ faces_props m' = faces_props m.
Proof. exact remove_unused_spec. Qed.
Print Assumptions remove_unused_vertices_keeps_faces.
Example remove_unused_ex : remove_unused (Mesh [V 9 9 9; V 0 0 0; V 1 0 0; V 0 1 0] [F 1 2 3 1])
  = Ok (Mesh [V 0 0 0; V 1 0 0; V 0 1 0] [F 0 1 2 0]).
Proof. reflexivity. Qed.
Theorem remove_degenerated_faces_by_area :
  forall m rtol ps, valid m -> 0 < rtol -> faces_props m = Ok ps ->
  exists m', remove_degenerated rtol m = Ok m' /\ valid m' /\ m_vertices m' = m_vertices m
    /\ (forall f, In f (m_faces m') <-> exists k x, nth_error (m_faces m) k = Some f /\ nth_error ps k = Some x
          /\ rtol * (Rsum (map p_area ps) / INR (length ps)) <= p_area x).
Proof. exact remove_degenerated_spec. Qed.
Print Assumptions remove_degenerated_faces_by_area.
Example remove_degenerated_ex : valid ex_mesh /\ 0 < / 100000 /\ exists ps, faces_props ex_mesh = Ok ps.
Proof. split; [exact ex_mesh_valid|]. split; [lra|]. apply valid_faces_props, ex_mesh_valid. Qed.

(** C23, healing: each face is rotated, so that it has the same boundary and the same area vector, and
    exactly the faces with two consecutive equal corners become triangles. On the triangles and planar convex
    quadrangles all the properties are unchanged. Missing: the properties of other quadrangles (refuted below). *)
Theorem heal_triangles_partial :
  forall m, valid m ->
  valid (heal_triangles m) /\ m_vertices (heal_triangles m) = m_vertices m /\ nb_faces (heal_triangles m) = nb_faces m
  /\ (forall k f, nth_error (m_faces m) k = Some f -> exists g, nth_error (m_faces (heal_triangles m)) k = Some g
        /\ rotation_of f g /\ (fa g = fd g <-> has_repeated_corner f))
  /\ (forall k v, face_area_vector m k v -> face_area_vector (heal_triangles m) k v)
  /\ (flat m -> faces_props (heal_triangles m) = faces_props m).
Proof.
  intros m Vm. split; [now apply heal_valid|]. split; [reflexivity|]. split; [unfold nb_faces; cbn; now rewrite map_length|].
  split; [|split].
  - intros k f E. exists (heal_face f). split; [cbn; now apply map_nth_error|]. split; [apply heal_rotation|].
    rewrite <- heal_tri. unfold is_tri. symmetry. apply Nat.eqb_eq.
  - intros k v (a & b & c & d & H & ->). pose proof H as (f & E & _).
    destruct (rotation_area m (heal_triangles m) k f (heal_face f) a b c d (heal_rotation f) eq_refl E) as (a' & b' & c' & d' & H1 & H2 & _).
    + cbn. now apply map_nth_error.
    + exact H.
    + exists a', b', c', d'. now rewrite H2.
  - intros Fm. now apply heal_mesh.
Qed.
Print Assumptions heal_triangles_partial.
Example heal_triangles_ex : valid ex_mesh /\ flat ex_mesh /\ heal_face (F 7 7 8 9) = F 7 8 9 7 /\ heal_face (F 0 1 2 3) = F 1 2 3 0.
Proof. split; [exact ex_mesh_valid|]. split; [exact ex_mesh_flat|]. split; reflexivity. Qed.
(** Healing changes the area of a quadrangle that is not planar, although it has no triangle to heal;
    flipping its normal does so too. *)
Theorem heal_changes_area_refuted :
  exists m x y z, valid m /\ (forall f, In f (m_faces m) -> ~ has_repeated_corner f)
  /\ faces_props m = Ok [x] /\ faces_props (heal_triangles m) = Ok [y] /\ faces_props (flip_normals m) = Ok [z]
  /\ p_area y <> p_area x /\ p_area z <> p_area x.
Proof.
  destruct warped_props as (x & y & z & H1 & H2 & H3 & A & B & C). exists warped, x, y, z. split.
  { intros f i [<-|[]] Hi. cbn in *. repeat match goal with H : _ \/ _ |- _ => destruct H as [H|H] end; lia. }
  split; [intros f [<-|[]] H; unfold has_repeated_corner in H; cbn in H; lia|].
  split; [exact H1|]. split; [exact H2|]. split; [exact H3|]. rewrite A, B, C. split; exact warped_areas_neq.
Qed.
Print Assumptions heal_changes_area_refuted.

(** C23, triangulation: the faces are triangles, the triangles are unchanged, each quadrangle gives two
    triangles whose area vectors (and areas) add up to its own, and the total area vector is unchanged. *)
Theorem triangulate_keeps_surface :
  forall m, valid m ->
  valid (triangulate m) /\ m_vertices (triangulate m) = m_vertices m
  /\ (forall f, In f (m_faces (triangulate m)) -> fa f = fd f)
  /\ nb_faces (triangulate m) = (nb_faces m + length (quadrangles_ids m))%nat
  /\ (forall k f a b c d, nth_error (m_faces m) k = Some f -> face_is m k a b c d ->
        (fa f = fd f -> face_is (triangulate m) k a b c d)
        /\ (fa f <> fd f -> exists j, (nb_faces m <= j)%nat /\ face_is (triangulate m) k a c d a /\ face_is (triangulate m) j a b c a))
  /\ (forall a b c d, vadd (area_vector a b c a) (area_vector a c d a) = area_vector a b c d)
  /\ (forall a b c d, p_area (props_of false (Q a b c d)) <> 0 ->
        p_area (props_of true (Q a b c a)) <> 0 -> p_area (props_of true (Q a c d a)) <> 0 ->
        p_area (props_of false (Q a b c d)) = p_area (props_of true (Q a b c a)) + p_area (props_of true (Q a c d a)))
  /\ (forall qs, all_points m = Ok qs -> exists qs', all_points (triangulate m) = Ok qs' /\
        vsum (map (fun q => area_vector (qa q) (qb q) (qc q) (qd q)) qs') = vsum (map (fun q => area_vector (qa q) (qb q) (qc q) (qd q)) qs)).
Proof.
  intros m Vm. split; [now apply triangulate_valid|]. split; [reflexivity|]. split; [apply triangulate_all_tri|].
  split; [apply triangulate_count|]. split; [|split; [|split]].
  - intros k f a b c d E H. split; intros T.
    + apply (triangulate_tri m k f); [exact E| |exact H]. now apply Nat.eqb_eq.
    + destruct (triangulate_quad m k f a b c d E) as (A & j & B & C); [now apply Nat.eqb_neq|exact H|].
      now exists j.
  - exact area_split.
  - exact area_of_halves.
  - exact (triangulate_total m).
Qed.
Print Assumptions triangulate_keeps_surface.
Example triangulate_ex : triangulate ex_mesh = Mesh (m_vertices ex_mesh) [F 0 2 3 0; F 0 3 4 0; F 0 1 2 0].
Proof. reflexivity. Qed.

(** C23, flipping *)
Theorem flip_normals_partial :
  forall m, flip_normals (flip_normals m) = m
  /\ (valid m -> valid (flip_normals m))
  /\ (forall k a b c d, face_is m k a b c d -> face_is (flip_normals m) k d c b a)
  /\ (forall k v, face_area_vector m k v -> face_area_vector (flip_normals m) k (vopp v))
  /\ (valid m -> flat m -> forall ps, faces_props m = Ok ps ->
        exists ps', faces_props (flip_normals m) = Ok ps' /\ length ps' = length ps
        /\ forall k x, nth_error ps k = Some x -> exists y, nth_error ps' k = Some y
           /\ p_area y = p_area x /\ p_normal y = vopp (p_normal x) /\ p_center y = p_center x /\ p_radius y = p_radius x).
Proof.
  intros m. split; [apply flip_involutive|]. split; [apply flip_valid|]. split; [apply flip_face_is|]. split.
  - intros k v (a & b & c & d & H & ->). exists d, c, b, a. split; [now apply flip_face_is|]. symmetry. apply area_vector_flip.
  - intros Vm Fm ps H. exact (flip_mesh m ps Vm Fm H).
Qed.
Print Assumptions flip_normals_partial.
Example flip_normals_ex : valid ex_mesh /\ flat ex_mesh /\ face_is ex_mesh 0 (V 0 0 0) (V 1 0 0) (V 1 1 0) (V 0 1 0)
  /\ area_vector (V 0 0 0) (V 1 0 0) (V 1 1 0) (V 0 1 0) = V 0 0 1.
Proof.
  split; [exact ex_mesh_valid|]. split; [exact ex_mesh_flat|]. split; [eexists; repeat split; reflexivity|].
  unfold area_vector. vunfold. apply vec_ext; cbn; field.
Qed.

(** The normal of a face with an area is a unit vector along its area vector. *)
Theorem normal_follows_orientation :
  forall m ps k f a b c d x, faces_props m = Ok ps -> nth_error (m_faces m) k = Some f -> face_is m k a b c d ->
  nth_error ps k = Some x -> p_area x <> 0 ->
  unit_vector (p_normal x) /\ exists l, 0 < l /\ area_vector a b c d = vscale l (p_normal x).
Proof.
  intros m ps k f a b c d x Hps E H Hx N. apply faces_props_ok in Hps. destruct Hps as [_ Hps].
  destruct (Hps k f E) as (q & Pq & Nq). rewrite Hx in Nq. injection Nq as ->.
  apply face_is_points in H. destruct H as (f' & E' & P). rewrite E in E'. injection E' as <-. rewrite Pq in P.
  apply Ok_inj' in P. subst q. apply (normal_direction (is_tri f) (Q a b c d)); [|exact N].
  apply (face_points_tri _ _ _ Pq).
Qed.
Print Assumptions normal_follows_orientation.
