(** C24 and C26: collections of meshes and symmetric meshes. *)
From Coq Require Import Reals List Bool ZArith Arith Lra Lia.
From Verif Require Import Model_Base Model_Geometry Model_Mesh Spec_Mesh Model_Quality Spec_Quality Model_Tree Spec_Tree
  Proofs_Geometry Proofs_Mesh Proofs_Mesh2 Proofs_Mesh3 Proofs_Quality Proofs_Tree Proofs_Symmetry Proofs_Tree2 Proofs_Profile Props_Geometry Props_Quality.
Import ListNotations.
Open Scope R_scope.

(** A collection: two meshes, one of them inside another collection. *)
Definition ex_tri : mesh := Mesh [V 1 0 0; V 2 0 0; V 1 1 0] [F 0 1 2 0].
Definition ex_tree : tree := Node Plain [Leaf ex_mesh; Node Plain [Leaf ex_tri; Leaf ex_mesh]].
Lemma ex_tri_valid : valid ex_tri.
Proof. intros f i [<-|[]] Hi. cbn in *. lia. Qed.
Lemma ex_tree_filled : filled ex_tree.
Proof. repeat (constructor; [discriminate|]; intros ? H; cbn in H; intuition subst; try constructor); try discriminate; intros ? [<-|[<-|[]]]; constructor. Qed.
Lemma ex_tree_valid : all_valid ex_tree.
Proof. intros m [<-|[<-|[<-|[]]]]; [apply ex_mesh_valid|apply ex_tri_valid|apply ex_mesh_valid]. Qed.

(** C24: the vertices, faces and properties of the faces of a collection are those of its meshes, one after the
    other, and the faces have the same corners. *)
Theorem collection_is_concatenation :
  forall t, filled t -> all_valid t ->
  exists vs fs, t_vertices t = Ok vs /\ t_faces t = Ok fs /\ gathers (leaves t) (Mesh vs fs)
    /\ t_nb_vertices t = length vs /\ t_nb_faces t = length fs
    /\ exists ps, t_props t = Ok ps /\ faces_props (Mesh vs fs) = Ok ps.
Proof.
  intros t Hf Hv. exists (m_vertices (whole (leaves t))), (m_faces (whole (leaves t))).
  split; [now apply t_vertices_whole|]. split; [now apply t_faces_whole|]. split; [apply (whole_gathers _ Hv)|].
  split; [rewrite nb_vertices_leaves; symmetry; apply concat_vertices_length|].
  split; [rewrite nb_faces_leaves; symmetry; apply faces_from_length|].
  destruct (mapM_total faces_props (leaves t)) as [pss E]; [intros m Hm; apply valid_faces_props; now apply Hv|].
  exists (concat pss). split; [now apply t_props_leaves|]. exact (whole_props_from (leaves t) [] pss E).
Qed.
Print Assumptions collection_is_concatenation.
Example collection_ex : filled ex_tree /\ all_valid ex_tree /\ t_nb_faces ex_tree = 5%nat
  /\ t_faces ex_tree = Ok [F 0 1 2 3; F 0 3 4 0; F 5 6 7 5; F 8 9 10 11; F 8 11 12 8].
Proof. split; [apply ex_tree_filled|]. split; [apply ex_tree_valid|]. split; reflexivity. Qed.
(** Every face of the collection is a face of one of its meshes. *)
Theorem every_face_in_a_part :
  forall t i, (i < t_nb_faces t)%nat ->
  exists k m r, nth_error (leaves t) k = Some m /\ (r < nb_faces m)%nat /\ i = (faces_before (leaves t) k + r)%nat.
Proof. intros t i H. rewrite nb_faces_leaves in H. now apply face_of_part. Qed.
Print Assumptions every_face_in_a_part.
Example every_face_ex : (2 < t_nb_faces ex_tree)%nat /\ nth_error (leaves ex_tree) 1 = Some ex_tri /\ faces_before (leaves ex_tree) 1 = 2%nat.
Proof. cbn. repeat split. lia. Qed.

(** Locating a face inverts the concatenation, and agrees with the slice of indices of the part. *)
Theorem submesh_containing_face_locates :
  forall l i, (i < t_nb_faces (Node Plain l))%nat ->
  exists k r x start, submesh_containing_face l (Z.of_nat i) = Some (k, Z.of_nat r)
    /\ nth_error l k = Some x /\ (r < t_nb_faces x)%nat
    /\ indices_of_mesh l k = Ok (start, (start + t_nb_faces x)%nat) /\ i = (start + r)%nat
    /\ start = list_sum (map t_nb_faces (firstn k l)).
Proof.
  intros l i Hi. destruct (containing_spec (map t_nb_faces l) 0 0 (Z.of_nat i)) as (j & r & n & A & B & C & D); [lia|cbn in Hi; lia|].
  rewrite nth_error_map in B. destruct (nth_error l j) as [x|] eqn:Ej; [|discriminate]. cbn in B. injection B as <-.
  exists j, r, x, (list_sum (map t_nb_faces (firstn j l))). rewrite firstn_map in D.
  split; [exact A|]. split; [exact Ej|]. split; [exact C|]. split; [unfold indices_of_mesh; now rewrite Ej|]. split; [lia|reflexivity].
Qed.
Print Assumptions submesh_containing_face_locates.
Example locate_ex : (3 < t_nb_faces (Node Plain [Leaf ex_mesh; Node Plain [Leaf ex_tri; Leaf ex_mesh]]))%nat
  /\ submesh_containing_face [Leaf ex_mesh; Node Plain [Leaf ex_tri; Leaf ex_mesh]] 3 = Some (1%nat, 1%Z).
Proof. split; [cbn; lia|reflexivity]. Qed.

(** Extracting one face of a collection gives the face with the same corners. *)
Theorem collection_extract_one_face :
  forall t k m r a b c d, filled t -> all_valid t -> nth_error (leaves t) k = Some m -> face_is m r a b c d ->
  exists m', t_extract_one_face t (Z.of_nat (faces_before (leaves t) k + r)) = Ok m'
    /\ valid m' /\ nb_faces m' = 1%nat /\ face_is m' 0 a b c d.
Proof.
  intros t k m r a b c d Hf Hv Hk Hm. pose proof (whole_gathers (leaves t) Hv) as (_ & _ & W3 & W4).
  specialize (W4 k m r a b c d Hk Hm). eexists. split.
  - apply t_extract_one_spec; [exact Hf|exact Hv| |exact W4].
    destruct W4 as (f & W & _). rewrite nb_faces_leaves. unfold total_faces. rewrite <- W3. unfold nb_faces. apply nth_error_Some. congruence.
  - split; [|split; [reflexivity|eexists; repeat split; reflexivity]]. intros f i [<-|[]] Hi. cbn in *. lia.
Qed.
Print Assumptions collection_extract_one_face.
Example collection_extract_one_ex : face_is ex_tri 0 (V 1 0 0) (V 2 0 0) (V 1 1 0) (V 1 0 0) /\ nth_error (leaves ex_tree) 1 = Some ex_tri.
Proof. split; [eexists; repeat split; reflexivity|reflexivity]. Qed.
Theorem collection_extract_one_face_beyond :
  forall k l i, (t_nb_faces (Node k l) <= i)%nat -> t_extract_one_face (Node k l) (Z.of_nat i) = Err TypeError.
Proof.
  intros k l i H. cbn [t_extract_one_face]. unfold submesh_containing_face. rewrite containing_none; [reflexivity|cbn [t_nb_faces] in H; lia].
Qed.
Print Assumptions collection_extract_one_face_beyond.
Example collection_extract_one_beyond_ex : (t_nb_faces ex_tree <= 5)%nat. Proof. cbn. lia. Qed.
(** A negative index is not counted from the end of the collection, as in a mesh: it is counted from the end of
    the first part. *)
Theorem collection_negative_index_refuted :
  exists t m w, filled t /\ all_valid t /\ gathers (leaves t) w
    /\ extract_one_face w (-1) = Ok m /\ t_extract_one_face t (-1) <> Ok m
    /\ t_extract_one_face t (-1) = extract_one_face ex_tri (-1).
Proof.
  exists (Node Plain [Leaf ex_tri; Leaf ex_mesh]), (Mesh [V 0 0 0; V 0 1 0; V 0 0 1; V 0 0 0] [F 0 1 2 3]), (whole [ex_tri; ex_mesh]).
  assert (V' : all_valid (Node Plain [Leaf ex_tri; Leaf ex_mesh])) by (intros m [<-|[<-|[]]]; [apply ex_tri_valid|apply ex_mesh_valid]).
  split; [constructor; [discriminate|intros x [<-|[<-|[]]]; constructor]|]. split; [exact V'|].
  split; [apply (whole_gathers _ V')|]. split; [reflexivity|]. split; [|reflexivity].
  cbn. intros H. injection H. lra.
Qed.
Print Assumptions collection_negative_index_refuted.
(** A collection without any part has no faces but its arrays cannot be read. *)
Theorem empty_collection_fails :
  forall k, t_nb_faces (Node k []) = 0%nat /\ t_vertices (Node k []) = Err ValueError /\ t_faces (Node k []) = Err ValueError
    /\ t_props (Node k []) = Err ValueError.
Proof. intros k. repeat split. Qed.
Print Assumptions empty_collection_fails.
Example empty_collection_ex : Plain = Plain. Proof. reflexivity. Qed.

(** The merged mesh has the same faces in the same order: the corners are moved by at most 1e-8 and triangles
    may start from another corner. *)
Theorem merged_keeps_faces :
  forall argsort, sorts argsort -> forall k l, filled (Node k l) -> all_valid (Node k l) -> (0 < t_nb_vertices (Node k l))%nat ->
  exists m', t_merged argsort (Node k l) = Ok m' /\ valid m' /\ nb_faces m' = t_nb_faces (Node k l)
    /\ forall j m r a b c d, nth_error (leaves (Node k l)) j = Some m -> face_is m r a b c d ->
       exists a' b' c' d', face_is m' (faces_before (leaves (Node k l)) j + r) a' b' c' d'
         /\ near_polygon (/ 100000000) (a, b, c, d) (a', b', c', d').
Proof.
  intros argsort Hs k l Hf Hv Hn. destruct (merged_spec argsort _ k l Hs eq_refl Hf Hv Hn) as (m' & E & V & N & Fm).
  exists m'. split; [exact E|]. split; [exact V|]. split; [exact N|]. intros j m r a b c d Hj Hm. apply Fm.
  now apply (proj2 (proj2 (proj2 (whole_gathers _ Hv))) j m).
Qed.
Print Assumptions merged_keeps_faces.
Example merged_ex : sorts insertion_argsort /\ filled ex_tree /\ all_valid ex_tree /\ (0 < t_nb_vertices ex_tree)%nat.
Proof. split; [apply insertion_sorts|]. split; [apply ex_tree_filled|]. split; [apply ex_tree_valid|cbn; lia]. Qed.
(** Extracting faces of a collection selects the faces with the same numbers. *)
Theorem collection_extract_faces :
  forall argsort, sorts argsort -> forall k l ids, filled (Node k l) -> all_valid (Node k l) -> (0 < t_nb_vertices (Node k l))%nat ->
  (forall z, In z ids -> exists i, index_of (t_nb_faces (Node k l)) z i) ->
  exists m' used, t_extract_faces argsort (Node k l) ids = Ok (m', used) /\ valid m' /\ all_used m' /\ nb_faces m' = length ids
    /\ forall q z j m r a b c d, nth_error ids q = Some z -> nth_error (leaves (Node k l)) j = Some m -> face_is m r a b c d ->
       index_of (t_nb_faces (Node k l)) z (faces_before (leaves (Node k l)) j + r) ->
       exists a' b' c' d', face_is m' q a' b' c' d' /\ near_polygon (/ 100000000) (a, b, c, d) (a', b', c', d').
Proof.
  intros argsort Hs k l ids Hf Hv Hn Hi. destruct (t_extract_faces_spec argsort _ k l ids Hs eq_refl Hf Hv Hn Hi) as (m' & used & E & V & U & N & Fm).
  exists m', used. split; [exact E|]. split; [exact V|]. split; [exact U|]. split; [exact N|]. intros q z j m r a b c d Hq Hj Hm Hz.
  apply (Fm q z _ a b c d Hq Hz). now apply (proj2 (proj2 (proj2 (whole_gathers _ Hv))) j m).
Qed.
Print Assumptions collection_extract_faces.
Example collection_extract_faces_ex : forall z, In z [(-1)%Z; 0%Z] -> exists i, index_of (t_nb_faces ex_tree) z i.
Proof. intros z [<-|[<-|[]]]; [exists 4%nat|exists 0%nat]; split; cbn; lia. Qed.

(** The paths to the leaves lead to the meshes of the collection, in order. *)
Theorem paths_lead_to_leaves : forall t, map (follow t) (path_to_leaf t) = map (fun m => Some (Leaf m)) (leaves t).
Proof. exact path_follow. Qed.
Print Assumptions paths_lead_to_leaves.
Example paths_ex : path_to_leaf ex_tree = [[0]; [1; 0]; [1; 1]]%nat. Proof. reflexivity. Qed.

(** Removing the empty parts does not change the sequence of faces, and leaves at least one part. *)
Theorem prune_keeps_faces :
  forall k l, all_valid (Node k l) -> prune l <> [] /\ forall qs, corners (leaves (Node k l)) = Ok qs -> corners (leaves (Node k (prune l))) = Ok qs.
Proof.
  intros k l H. split; [apply prune_nonempty|]. intros qs E. cbn [leaves] in *. rewrite prune_corners; [exact E|].
  intros x Hx m Hm. apply H. cbn [leaves]. apply in_concat. exists (leaves x). split; [now apply in_map|exact Hm].
Qed.
Print Assumptions prune_keeps_faces.
Example prune_ex : prune [Leaf (Mesh [] []); Leaf ex_tri] = [Leaf ex_tri] /\ prune [Leaf (Mesh [V 0 0 0] [])] = [Leaf (Mesh [] [])]
  /\ exists qs, corners (leaves ex_tree) = Ok qs.
Proof. split; [reflexivity|]. split; [reflexivity|]. eexists. reflexivity. Qed.

(** The center of the nodes is the mean of all the vertices, when each mesh has vertices. *)
Theorem collection_center_of_nodes_partial :
  forall t vs, filled t -> (forall m, In m (leaves t) -> m_vertices m <> []) -> t_vertices t = Ok vs ->
  t_center t = Some (vscale (/ INR (length vs)) (vsum vs)) /\ vs <> [].
Proof.
  intros t vs Hf Hm E. rewrite (t_vertices_whole t Hf) in E. apply Ok_inj' in E. subst vs. cbn [whole m_vertices].
  rewrite concat_vertices_length. destruct (t_center_spec t Hf Hm) as [A B]. split; [exact A|].
  intros H. rewrite <- concat_vertices_length, H in B. cbn in B. lia.
Qed.
Print Assumptions collection_center_of_nodes_partial.
Example collection_center_ex : forall m, In m (leaves ex_tree) -> m_vertices m <> [].
Proof. intros m [<-|[<-|[<-|[]]]]; discriminate. Qed.
(** With an empty part, the center is nan although the collection has vertices. *)
Theorem collection_center_empty_part_refuted :
  exists t vs, filled t /\ t_vertices t = Ok vs /\ vs <> [] /\ t_center t = None.
Proof.
  exists (Node Plain [Leaf ex_tri; Leaf (Mesh [] [])]), [V 1 0 0; V 2 0 0; V 1 1 0].
  split; [constructor; [discriminate|intros x [<-|[<-|[]]]; constructor]|]. split; [reflexivity|]. split; [discriminate|reflexivity].
Qed.
Print Assumptions collection_center_empty_part_refuted.

(** * C26 *)

Definition yOz : plane := Plane (V 1 0 0) (V 0 0 0).
Definition xOz : plane := Plane (V 0 1 0) (V 0 0 0).
(** A reflection symmetric mesh repeated by translation. *)
Definition ex_half : tree := Leaf ex_tri.
Definition ex_reflection : tree := Node (Reflection yOz) [ex_half; Leaf (mirror ex_tri yOz)].
Lemma ex_reflection_symmetric : symmetric ex_reflection.
Proof. constructor; [constructor|reflexivity|reflexivity]. Qed.

(** The copy of a mesh whose parts are the images of the first one is the same mesh. *)
Theorem copy_of_symmetric_mesh : forall t, symmetric t -> copy t = Ok t.
Proof. exact copy_ok. Qed.
Print Assumptions copy_of_symmetric_mesh.
Example copy_ex : symmetric ex_reflection /\ copy ex_reflection = Ok ex_reflection.
Proof. split; [apply ex_reflection_symmetric|apply copy_ok, ex_reflection_symmetric]. Qed.
(** The bound of the model on the depth of the recursion does not matter. *)
Theorem copy_depth_irrelevant : forall n t, (depth t <= n)%nat -> copy_within n t = copy t.
Proof. intros n t H. apply copy_enough_depth; [exact H|apply Nat.le_refl]. Qed.
Print Assumptions copy_depth_irrelevant.
Example copy_depth_ex : (depth ex_reflection <= 7)%nat. Proof. cbn. lia. Qed.
(** The constructors build such meshes, and reject the other planes, translations and numbers of repetitions. *)
Theorem constructors_build_symmetric_meshes :
  forall x, symmetric x ->
  (forall p t, ReflectionSymmetricMesh x p = Ok t -> symmetric t /\ exists o, t = Node (Reflection p) [x; o])
  /\ (forall v i n t, TranslationalSymmetricMesh x v i n = Ok t -> symmetric t /\ exists l, t = Node (Translation v i) (x :: l) /\ length l = n)
  /\ (forall a n t, AxialSymmetricMesh x a n = Ok t -> symmetric t /\ exists l, t = Node (Axial a) (x :: l) /\ length l = n)
  /\ (forall p, vz (pl_normal p) <> 0 -> ReflectionSymmetricMesh x p = Err AssertionError)
  /\ (forall v i n, vz v <> 0 \/ n = 0%nat -> TranslationalSymmetricMesh x v i n = Err AssertionError)
  /\ (forall a, AxialSymmetricMesh x a 0 = Err AssertionError).
Proof.
  intros x Hx. split; [intros p t; now apply make_reflection_symmetric|]. split; [|split; [|split; [|split]]].
  - intros v i n t E. destruct (make_translation_symmetric x v i n t Hx E) as [S1 ->]. split; [exact S1|]. eexists. split; [reflexivity|]. now rewrite map_length, seq_length.
  - intros a n t E. destruct (make_axial_symmetric x a n t Hx E) as [S1 ->]. split; [exact S1|]. eexists. split; [reflexivity|]. now rewrite map_length, seq_length.
  - intros p H. unfold ReflectionSymmetricMesh, make_reflection. destruct (Reqb _ 0) eqn:E; [apply Reqb_true in E; contradiction|reflexivity].
  - intros v i n H. unfold TranslationalSymmetricMesh, make_translation. destruct (Nat.ltb_spec n 1); [reflexivity|].
    destruct (Reqb _ 0) eqn:E; [apply Reqb_true in E|reflexivity]. destruct H; [contradiction|lia].
  - reflexivity.
Qed.
Print Assumptions constructors_build_symmetric_meshes.
Example constructors_ex : ReflectionSymmetricMesh ex_half yOz = Ok ex_reflection
  /\ exists t, TranslationalSymmetricMesh ex_reflection (V 5 0 0) false 2 = Ok t.
Proof.
  split; [|destruct (regular_line_spec ex_reflection (V 5 0 0) 3 ex_reflection_symmetric eq_refl) as (t & E & _); [lia|exists t; exact E]].
  unfold ReflectionSymmetricMesh, make_reflection. rewrite (proj2 (Reqb_true _ _)) by reflexivity. reflexivity.
Qed.

(** Translations keep the symmetry. Missing: planes on the negative side of the origin, and reflection symmetric
    meshes inside axisymmetric ones. *)
Theorem translate_keeps_symmetry_partial :
  forall t v, symmetric t -> unmixed t ->
  (forall p, In (Reflection p) (kinds t) -> positive_plane p /\ positive_plane (plane_translate p v)) ->
  symmetric (t_translate t v) /\ copy (t_translate t v) = Ok (t_translate t v).
Proof. intros t v H Hu Hp. assert (S1 : symmetric (t_translate t v)) by now apply symmetric_translate. split; [exact S1|now apply copy_ok]. Qed.
Print Assumptions translate_keeps_symmetry_partial.
Lemma ex_reflection_unmixed : unmixed ex_reflection.
Proof. constructor; [intros x [<-|[<-|[]]]; constructor|discriminate]. Qed.
Example translate_symmetry_ex : symmetric ex_reflection /\ unmixed ex_reflection
  /\ forall p, In (Reflection p) (kinds ex_reflection) -> positive_plane p /\ positive_plane (plane_translate p (V 1 2 3)).
Proof.
  split; [apply ex_reflection_symmetric|]. split; [apply ex_reflection_unmixed|]. intros p [H|[]]. injection H as <-.
  unfold positive_plane, dot. cbn. lra.
Qed.
(** Translating a reflection symmetric mesh to the negative side: the copy is another mesh. *)
Theorem translate_then_copy_refuted :
  exists t v t', symmetric t /\ copy (t_translate t v) = Ok t' /\ leaves t' <> leaves (t_translate t v).
Proof.
  exists ex_reflection, (V (-1) 0 0). eexists. split; [apply ex_reflection_symmetric|]. split.
  - unfold copy. cbn [depth ex_reflection t_translate map ex_half list_max fold_right Nat.max copy_within bind].
    unfold make_reflection. rewrite (proj2 (Reqb_true _ _)) by reflexivity. cbn [negb copy_within bind t_mirror]. reflexivity.
  - cbn [leaves map concat app t_translate ex_half ex_reflection]. intros H. injection H as H _ _ _ _ _ _ _ _.
    revert H. unfold pl_c, yOz. cbn. unfold dot. cbn.
    rewrite Rabs_left by lra. rewrite Rabs_right by lra. lra.
Qed.
Print Assumptions translate_then_copy_refuted.

(** Rotations about vertical axes keep the symmetry, if the axis is Oz or if there is no reflection. *)
Theorem rotate_keeps_symmetry_partial :
  forall t b theta, symmetric t -> vertical_axis b ->
  (vx (ax_point b) = 0 /\ vy (ax_point b) = 0) \/ (forall p, ~ In (Reflection p) (kinds t)) ->
  symmetric (t_rotate t b theta) /\ copy (t_rotate t b theta) = Ok (t_rotate t b theta).
Proof.
  intros t b theta H Hb Hor. assert (S1 : symmetric (t_rotate t b theta)).
  { apply symmetric_rotate; [exact H|exact Hb|]. destruct Hor as [[A B]|Hor]; [left; now apply vertical_linear|now right]. }
  split; [exact S1|now apply copy_ok].
Qed.
Print Assumptions rotate_keeps_symmetry_partial.
Lemma Oz_vertical p : vertical_axis (Axis (V 0 0 1) p).
Proof. split; [|split; reflexivity]. apply unit_dot. unfold dot. cbn. ring. Qed.
Example rotate_symmetry_ex : symmetric ex_reflection /\ vertical_axis Oz_axis /\ vx (ax_point Oz_axis) = 0 /\ vy (ax_point Oz_axis) = 0.
Proof. split; [apply ex_reflection_symmetric|]. split; [apply Oz_vertical|]. split; reflexivity. Qed.
(** Rotating a reflection symmetric mesh around another vertical axis: the copy is another mesh. *)
Theorem rotate_then_copy_refuted :
  exists t b theta t', symmetric t /\ vertical_axis b /\ copy (t_rotate t b theta) = Ok t' /\ leaves t' <> leaves (t_rotate t b theta).
Proof.
  exists ex_reflection, (Axis (V 0 0 1) (V 1 0 0)), PI. eexists. split; [apply ex_reflection_symmetric|]. split; [apply Oz_vertical|]. split.
  - unfold copy. cbn [depth ex_reflection t_rotate map ex_half list_max fold_right Nat.max copy_within bind].
    unfold make_reflection. rewrite (proj2 (Reqb_true _ _)); [cbn [negb copy_within bind t_mirror]; reflexivity|].
    cbn [plane_rotate pl_normal yOz]. rewrite rotate_vector_formula. cbn. ring.
  - cbn [leaves map concat app t_rotate ex_half ex_reflection]. intros H.
    apply (f_equal (fun l => match l with [_; m] => match m_vertices m with v :: _ => vx v | _ => 0 end | _ => 0 end)) in H.
    revert H. unfold mirror, rotate, flip_normals, ex_tri, yOz. cbn [m_vertices m_faces map]. unfold rotate_point, mirror_point, plane_rotate, pl_c. rewrite !rotate_vector_formula. cbn.
    rewrite cos_PI, sin_PI. unfold dot. cbn.
    match goal with |- context [Rabs ?x] => match x with context [Rabs _] => fail 1 | _ => replace (Rabs x) with 0; [|replace x with 0 by ring; now rewrite Rabs_R0] end end.
    match goal with |- context [Rabs ?x] => replace (Rabs x) with 0; [|replace x with 0 by ring; now rewrite Rabs_R0] end.
    lra.
Qed.
Print Assumptions rotate_then_copy_refuted.
(** After a rotation around a horizontal axis, a symmetric mesh cannot be copied. *)
Theorem tilt_then_copy_refuted :
  exists t b theta, symmetric t /\ proper_axis b /\ copy (t_rotate t b theta) = Err AssertionError.
Proof.
  exists ex_reflection, (Axis (V 0 1 0) (V 0 0 0)), (PI / 2). split; [apply ex_reflection_symmetric|].
  split; [apply unit_dot; unfold dot; cbn; ring|].
  unfold copy. cbn [depth ex_reflection t_rotate map ex_half list_max fold_right Nat.max copy_within bind].
  unfold make_reflection. destruct (Reqb _ 0) eqn:E; [|reflexivity]. apply Reqb_true in E. exfalso.
  cbn [plane_rotate pl_normal yOz] in E. rewrite rotate_vector_formula in E. cbn in E. rewrite sin_PI2, cos_PI2 in E. lra.
Qed.
Print Assumptions tilt_then_copy_refuted.

(** Mirrors through vertical planes keep the symmetry. Missing: axisymmetric meshes and planes on the negative
    side of the origin. *)
Theorem mirror_keeps_symmetry_partial :
  forall t q, symmetric t -> proper_plane q -> vz (pl_normal q) = 0 ->
  (forall a, ~ In (Axial a) (kinds t)) ->
  (forall v, ~ In (Translation v true) (kinds t)) ->
  (forall p, In (Reflection p) (kinds t) -> positive_plane p /\ positive_plane (plane_mirror p q)) ->
  exists t', t_mirror t q = Ok t' /\ symmetric t' /\ copy t' = Ok t'.
Proof.
  intros t q H Hq Hz Ha Hi Hp. destruct (mirror_total t q Hi) as [t' E]. exists t'. split; [exact E|].
  assert (S1 : symmetric t') by now apply (symmetric_mirror t q). split; [exact S1|now apply copy_ok].
Qed.
Print Assumptions mirror_keeps_symmetry_partial.
Example mirror_symmetry_ex : symmetric ex_reflection /\ proper_plane xOz /\ vz (pl_normal xOz) = 0
  /\ (forall a, ~ In (Axial a) (kinds ex_reflection)) /\ (forall v, ~ In (Translation v true) (kinds ex_reflection))
  /\ forall p, In (Reflection p) (kinds ex_reflection) -> positive_plane p /\ positive_plane (plane_mirror p xOz).
Proof.
  split; [apply ex_reflection_symmetric|]. split; [apply unit_dot; unfold dot; cbn; ring|]. split; [reflexivity|].
  split; [intros a [H|[]]; discriminate|]. split; [intros a [H|[]]; discriminate|].
  intros p [H|[]]. injection H as <-. unfold positive_plane, dot, plane_mirror, xOz, yOz, mirror_vector, mirror_point, pl_c. cbn [pl_normal pl_point]. unfold dot. cbn.
  repeat match goal with |- context [Rabs ?x] => replace (Rabs x) with 0 by (replace x with 0 by ring; now rewrite Rabs_R0) end. lra.
Qed.
(** The copy of a mirrored axisymmetric mesh has its parts in the other order: the stored axis is mirrored, but
    not the direction of the rotation. *)
Theorem mirror_axial_then_copy_refuted :
  exists t q t1 t2, symmetric t /\ proper_plane q /\ positive_plane q /\ vz (pl_normal q) = 0
    /\ t_mirror t q = Ok t1 /\ copy t1 = Ok t2 /\ leaves t2 <> leaves t1.
Proof.
  set (slice := Leaf (Mesh [V 1 0 0] [])).
  set (t := Node (Axial (Axis (V 0 0 1) (V 0 0 0))) (slice :: map (fun i => t_rotate slice (Axis (V 0 0 1) (V 0 0 0)) (2 * INR i * PI / (INR 2 + 1))) (seq 1 2))).
  assert (St : symmetric t) by (constructor; [constructor|lia]).
  exists t, xOz. eexists. eexists. split; [exact St|]. split; [apply unit_dot; unfold dot; cbn; ring|].
  split; [unfold positive_plane, dot; cbn; lra|]. split; [reflexivity|]. split; [reflexivity|]. split; [reflexivity|].
  cbn [leaves map concat app t_rotate slice seq length Nat.sub]. intros H.
  apply (f_equal (fun l => match l with [_; m; _] => match m_vertices m with v :: _ => vy v | _ => 0 end | _ => 0 end)) in H. revert H.
  unfold mirror, rotate, flip_normals. cbn [m_vertices m_faces map]. unfold axis_mirror, mirror_point, mirror_vector, rotate_point, xOz, pl_c. cbn [ax_vector ax_point pl_normal pl_point]. rewrite !rotate_vector_formula.
  set (th := 2 * INR 1 * PI / (INR 2 + 1)).
  assert (Hs : 0 < sin th).
  { unfold th. cbn. pose proof PI_RGT_0. apply sin_gt_0; lra. }
  unfold dot. cbn. repeat match goal with |- context [Rabs ?x] => replace (Rabs x) with 0 by (replace x with 0 by ring; now rewrite Rabs_R0) end. lra.
Qed.
Print Assumptions mirror_axial_then_copy_refuted.
(** A translation given as integers cannot be mirrored. *)
Theorem mirror_integer_translation_refuted :
  exists t q, symmetric t /\ proper_plane q /\ t_mirror t q = Err TypeError.
Proof.
  exists (Node (Translation (V 5 0 0) true) (ex_half :: map (fun i => t_translate ex_half (vscale (INR i) (V 5 0 0))) (seq 1 1))), xOz.
  split; [constructor; [constructor|reflexivity|lia]|]. split; [apply unit_dot; unfold dot; cbn; ring|reflexivity].
Qed.
Print Assumptions mirror_integer_translation_refuted.

(** Joining meshes with the same symmetry: each part of the result is the collection of the same parts of the meshes. *)
Theorem join_keeps_parts :
  forall k ls n, proper_kind k -> ls <> [] -> (forall l, In l ls -> symmetric (Node k l) /\ length l = n) ->
  exists rows, join_symmetric (map (Node k) ls) = Ok (Node k (map (Node Plain) rows)) /\ length rows = n
    /\ forall i j l x, nth_error ls i = Some l -> nth_error l j = Some x ->
       exists row, nth_error rows j = Some row /\ length row = length ls /\ nth_error row i = Some x.
Proof. exact join_same_symmetry. Qed.
Print Assumptions join_keeps_parts.
(** Whatever is joined successfully is symmetric. *)
Theorem join_is_symmetric :
  forall ts t, (forall x, In x ts -> symmetric x) -> join_symmetric ts = Ok t -> symmetric t.
Proof. intros ts t H E. exact (proj1 (join_symmetric_spec ts t H E)). Qed.
Print Assumptions join_is_symmetric.
Example join_ex : proper_kind (Reflection yOz) /\ (forall l, In l [[ex_half; Leaf (mirror ex_tri yOz)]; [ex_half; Leaf (mirror ex_tri yOz)]] ->
  symmetric (Node (Reflection yOz) l) /\ length l = 2%nat).
Proof.
  split; [apply unit_dot; unfold dot; cbn; ring|]. intros l H. assert (l = [ex_half; Leaf (mirror ex_tri yOz)]) by (destruct H as [<-|[<-|[]]]; reflexivity).
  subst l. split; [apply ex_reflection_symmetric|reflexivity].
Qed.

(** Regular arrays: the meshes of the array are the images of the base mesh by the translations of the grid. *)
Theorem regular_array_of_meshes :
  forall base d nx ny, symmetric base -> (1 <= nx)%nat -> (1 <= ny)%nat ->
  exists t, build_regular_array base d (Z.of_nat nx) (Z.of_nat ny) = Ok t /\ symmetric t
    /\ leaves t = concat (map (fun j => concat (map (fun i => map (fun m => translate m (V (INR i * d) (INR j * d) 0)) (leaves base)) (seq 0 nx))) (seq 0 ny)).
Proof.
  intros base d nx ny Hb Hx Hy. destruct (regular_array_spec base d nx ny Hb Hx Hy) as (t & E & S1 & L). exists t. split; [exact E|]. split; [exact S1|].
  rewrite L. f_equal. apply map_ext. intros j. f_equal. apply map_ext. intros i. apply leaves_translate.
Qed.
Print Assumptions regular_array_of_meshes.
Example regular_array_ex : symmetric ex_reflection /\ (1 <= 3)%nat /\ (1 <= 2)%nat.
Proof. split; [apply ex_reflection_symmetric|lia]. Qed.

(** Meshes of revolution: the mesh built from a profile of n points is made of [nphi] slices of n-1 faces; the first slice
    goes from the profile to its image by one step (up to the 1e-8 of the merge of duplicated vertices), each slice is
    the first one turned by its number of steps, and [nphi] steps are a full turn. *)
Theorem mesh_of_revolution :
  forall argsort, sorts argsort -> forall profile a nphi, proper_axis a -> profile <> [] -> (2 <= nphi)%nat ->
  let step := 2 * PI / INR nphi in
  exists t m, from_profile argsort profile a nphi = Ok t /\ valid m /\ nb_faces m = (length profile - 1)%nat
    /\ leaves t = map (fun k => rotate m a (INR k * step)) (seq 0 nphi)
    /\ (forall i p q, nth_error profile i = Some p -> nth_error profile (S i) = Some q ->
        exists a' b' c' d', face_is m i a' b' c' d'
          /\ near_polygon (/ 100000000) (p, rotate_point a step p, rotate_point a step q, q) (a', b', c', d'))
    /\ (forall k p, rotate_point a (INR k * step) (rotate_point a step p) = rotate_point a (INR (S k) * step) p)
    /\ (forall p, rotate_point a (INR nphi * step) p = p).
Proof.
  intros argsort Hs profile a nphi Ha Hp Hn step. destruct (profile_spec argsort profile a nphi Hs Hp Hn) as (m & E & Vm & N & Fs).
  assert (H0 : INR nphi <> 0) by (apply not_0_INR; lia).
  eexists. exists m. split; [exact E|]. split; [exact Vm|]. split; [exact N|]. split; [|split; [exact Fs|split]].
  - rewrite leaves_profile. replace nphi with (S (nphi - 1)) at 2 by lia. cbn [seq map]. f_equal.
    + unfold step. cbn [INR]. rewrite Rmult_0_l. symmetry. apply rotate_mesh_zero.
    + apply map_ext. intros k. unfold step. f_equal. field. exact H0.
  - intros k p. rewrite rotate_compose by exact Ha. f_equal. rewrite S_INR. ring.
  - intros p. unfold step. replace (INR nphi * (2 * PI / INR nphi)) with (2 * PI) by (field; exact H0). now apply rotate_full_turn.
Qed.
Print Assumptions mesh_of_revolution.
Example revolution_ex : sorts insertion_argsort /\ proper_axis Oz_axis /\ [V 1 0 0; V 1 0 (-1)] <> [] /\ (2 <= 4)%nat.
Proof. split; [apply insertion_sorts|]. split; [apply unit_dot; unfold dot; cbn; ring|]. split; [discriminate|lia]. Qed.
