(** C30: surface integrals, volume, waterplane area. *)
From Coq Require Import Reals List Bool ZArith Arith Lra Lia Permutation.
From Verif Require Import Model_Base Model_Geometry Model_Mesh Spec_Mesh Model_Tree Spec_Tree Spec_Clip Spec_Integrals
  Proofs_Geometry Proofs_Mesh Proofs_Mesh3 Proofs_Tree Proofs_Clip7 Model_Integrals Proofs_Integrals Proofs_Integrals2 Proofs_Integrals3 Props_Geometry.
Import ListNotations.
Open Scope R_scope.

(** The integral of the normals on a closed surface is zero, and its waterplane area too.
    Missing: triangles with an area less than 5e-13 and quadrangles that are not planar (refuted below). *)
Theorem closed_surface_normals_partial :
  forall t qs, proper_surface t qs -> watertight qs -> surface_integral3 t p_normal = Ok (V 0 0 0) /\ waterplane_area t = Ok 0.
Proof.
  intros t qs S W. rewrite (normals_value t qs S), (waterplane_proper t qs S), (closed_area qs W). cbn. split; [reflexivity|]. f_equal. ring.
Qed.
Print Assumptions closed_surface_normals_partial.
Example closed_surface_normals_ex : proper_surface (Leaf tetra) tetra_faces /\ watertight tetra_faces.
Proof. split; [apply tetra_surface|apply tetra_watertight]. Qed.

(** The three volumes are the sum of the signed volumes of the tetrahedra between the origin and the faces. *)
Theorem closed_surface_volumes_partial :
  forall t qs, proper_surface t qs -> watertight qs ->
  let v := Rsum (map signed_volume qs) in volumes t = Ok (V v v v) /\ volume t = Ok v.
Proof.
  intros t qs S W. cbn zeta. split; [|now apply volume_value]. rewrite (volumes_value t qs S).
  destruct (closed_flux qs W) as [C1 C2]. pose proof (flux_total qs) as T. f_equal. apply vec_ext; cbn [vx vy vz]; lra.
Qed.
Print Assumptions closed_surface_volumes_partial.
Example closed_surface_volumes_ex : proper_surface (Leaf tetra) tetra_faces /\ watertight tetra_faces /\ volume (Leaf tetra) = Ok (1 / 6).
Proof. split; [apply tetra_surface|]. split; [apply tetra_watertight|apply tetra_volume]. Qed.

(** The volume does not change with translations, rotations and reflections. *)
Theorem closed_surface_volume_invariant_partial :
  forall t qs, proper_surface t qs -> watertight qs ->
  (forall v, volume (t_translate t v) = volume t)
  /\ (forall a theta, proper_axis a -> volume (t_rotate t a theta) = volume t)
  /\ (forall p t', proper_plane p -> t_mirror t p = Ok t' -> volume t' = volume t).
Proof.
  intros t qs S W. rewrite (volume_value t qs S). split; [|split].
  - intros v. rewrite (volume_value _ _ (translate_surface t v qs S)). f_equal.
    rewrite (iso_total (fun x => x) v 1); intros; try reflexivity; [ring| |exact W]. generalize (cross u v0). clear. vring.
  - intros a th U. rewrite (volume_value _ _ (rotate_surface a th U t qs S)). f_equal. now apply rotate_total.
  - intros p t' U E. rewrite (volume_value _ _ (mirror_surface p U t t' qs E S)). f_equal. apply mirror_total; [exact U|apply S|exact W].
Qed.
Print Assumptions closed_surface_volume_invariant_partial.
Example closed_surface_volume_invariant_ex : proper_surface (Leaf tetra) tetra_faces /\ watertight tetra_faces
  /\ proper_axis (Axis (V 0 0 1) (V 2 0 0)) /\ proper_plane (Plane (V 1 0 0) (V 3 0 0)).
Proof.
  split; [apply tetra_surface|]. split; [apply tetra_watertight|]. split; [apply unit_dot; cbn [ax_vector]; vring|apply unit_dot; cbn [pl_normal]; vring].
Qed.

(** The center of buoyancy follows the translations of a closed surface. *)
Theorem center_of_buoyancy_translates_partial :
  forall t qs v b, proper_surface t qs -> watertight qs -> center_of_buoyancy t = Ok (Some b) ->
  center_of_buoyancy (t_translate t v) = Ok (Some (vadd b v)).
Proof.
  intros t qs v b S W E. apply (buoyancy_translated t v qs (Rsum (map signed_volume qs))); [exact S|exact W|now apply volume_value| |exact E].
  intros N. unfold center_of_buoyancy in E. destruct S as (F & P & G). rewrite (buoyancy_value t qs F P), (volume_value t qs) in E by (now split).
  cbn [bind] in E. rewrite N in E. unfold Reqb in E. destruct (Req_EM_T 0 0); [discriminate|contradiction].
Qed.
Print Assumptions center_of_buoyancy_translates_partial.
Example center_of_buoyancy_translates_ex : proper_surface (Leaf tetra) tetra_faces /\ watertight tetra_faces
  /\ center_of_buoyancy (Leaf tetra) = Ok (Some (V (1 / 6) (1 / 6) (1 / 6))).
Proof. split; [apply tetra_surface|]. split; [apply tetra_watertight|apply tetra_buoyancy]. Qed.
(** But it is not the center of the volume: that of the tetrahedron is (1/4, 1/4, 1/4). *)
Theorem center_of_buoyancy_refuted :
  exists t a b c d, proper_surface t [(a, c, b, a); (a, b, d, a); (a, d, c, a); (b, c, d, b)] /\
    exists x, center_of_buoyancy t = Ok (Some x) /\ x <> vscale (1 / 4) (vadd (vadd a b) (vadd c d)).
Proof.
  exists (Leaf tetra), (V 0 0 0), (V 1 0 0), (V 0 1 0), (V 0 0 1). split; [exact tetra_surface|].
  eexists. split; [exact tetra_buoyancy|]. intros H. apply (f_equal vx) in H. cbn in H. lra.
Qed.
Print Assumptions center_of_buoyancy_refuted.

(** An immersed hull, open at the free surface: closed by horizontal faces at z = 0, it is watertight. The three volumes
    agree, the waterplane area is the area of the opening and the waterplane center is its center. *)
Theorem immersed_hull_partial :
  forall t qs opening, proper_surface t qs -> Forall horizontal_lid opening -> watertight (qs ++ opening) ->
  let v := Rsum (map signed_volume (qs ++ opening)) in
  let area := Rsum (map (fun q => vz (area_of q)) opening) in
  volumes t = Ok (V v v v) /\ volume t = Ok v /\ waterplane_area t = Ok area
  /\ waterplane_center t = Ok (if Rltb area (/ 10000000000) then None
       else Some (Rsum (map (fun q => vx (first_moment q)) opening) / area, Rsum (map (fun q => vy (first_moment q)) opening) / area)).
Proof.
  intros t qs ls S Hl W. cbn zeta. destruct (hull_volumes t qs ls S Hl W) as (v & E1 & E2 & Ev & E3).
  assert (Rsum (map signed_volume (qs ++ ls)) = v) as ->.
  { rewrite map_app, Rsum_app, (Rsum_zero signed_volume ls), Ev; [ring|]. intros q Hq. apply lid_flux. now apply (proj1 (Forall_forall _ _) Hl). }
  split; [exact E1|]. split; [exact E2|]. split; [exact E3|]. exact (hull_waterplane_center t qs ls S Hl W).
Qed.
Print Assumptions immersed_hull_partial.
Example immersed_hull_ex : proper_surface (Leaf pyramid) pyramid_faces /\ Forall horizontal_lid [pyramid_top] /\ watertight (pyramid_faces ++ [pyramid_top])
  /\ Rsum (map (fun q => vz (area_of q)) [pyramid_top]) = 1 / 2.
Proof.
  split; [apply pyramid_surface|]. split; [apply pyramid_lid|]. split; [apply pyramid_watertight|]. cbn. field.
Qed.

(** A closed surface with a quadrangle that is not planar, and one with a very small triangle. *)
Theorem closed_warped_surface_refuted :
  exists t qs x, tree_polygons t qs /\ watertight qs /\ waterplane_area t = Ok x /\ x <> 0.
Proof.
  exists (Leaf pocket), pocket_faces, (1 - 2 * sqrt 2 / sqrt 6).
  split; [apply pocket_polygons|]. split; [apply pocket_watertight|]. split; [apply pocket_area|apply pocket_open].
Qed.
Print Assumptions closed_warped_surface_refuted.
Theorem closed_tiny_triangle_refuted :
  exists t qs x, tree_polygons t qs /\ watertight qs /\ (forall a b c d, In (a, b, c, d) qs -> a = d) /\ waterplane_area t = Ok x /\ x <> 0.
Proof.
  exists (Leaf needle), needle_faces, (- (tiny * tiny / 2)).
  split; [apply needle_polygons|]. split; [apply needle_watertight|]. split; [|split; [apply needle_area|unfold tiny; lra]].
  intros a b c d H. cbn in H. destruct H as [H|[H|[H|[H|[]]]]]; injection H as <- _ _ <-; reflexivity.
Qed.
Print Assumptions closed_tiny_triangle_refuted.

(** The integral of an array that does not have one value for each face (nor a single value) is refused. *)
Theorem surface_integral_wrong_length :
  forall t qs data, filled t -> tree_polygons t qs -> length data <> length qs -> length data <> 1%nat -> length qs <> 1%nat ->
  surface_integral t data = Err ValueError.
Proof.
  intros t qs data F P N1 N2 N3. unfold surface_integral. rewrite (tree_props t qs F P). cbn [bind]. unfold product. rewrite !map_length.
  destruct (Nat.eqb_spec (length data) (length qs)); [contradiction|].
  destruct data as [|x [|x' data]], qs as [|q [|q' qs]]; cbn in *; try reflexivity; try contradiction; lia.
Qed.
Print Assumptions surface_integral_wrong_length.
Example surface_integral_wrong_length_ex : filled (Leaf tetra) /\ tree_polygons (Leaf tetra) tetra_faces /\ length [1; 2] <> length tetra_faces
  /\ length [1; 2] <> 1%nat /\ length tetra_faces <> 1%nat.
Proof. split; [constructor|]. split; [apply tetra_surface|]. cbn. repeat split; discriminate. Qed.
