(** Vocabulary of the properties of sliced bodies. *)
From Coq Require Import Reals String List Bool Arith Permutation.
From Verif Require Import Model_Base Model_Geometry Model_Mesh Spec_Mesh Model_Tree Spec_Tree Spec_Clip Spec_Integrals Model_Body Spec_Body.
Import ListNotations.
Open Scope R_scope.

(** The meshes have the same panels, in any order and starting from any corner. *)
Definition same_panels (t t' : tree) : Prop :=
  exists qs qs0 qs', tree_polygons t qs /\ Permutation qs qs0 /\ Forall2 same_polygon qs0 qs' /\ tree_polygons t' qs'.
(** The centres of the faces of the mesh are all strictly on the negative side of the plane, or none of them. *)
Definition on_one_side (p : plane) (m : mesh) : Prop :=
  exists ps, faces_props m = Ok ps
  /\ ((forall x, In x ps -> height p (p_center x) < 0) \/ (forall x, In x ps -> 0 <= height p (p_center x))).
(** The interval is cut in [n] slices of the same width; the centres of the faces of the mesh are in one of them. *)
Definition in_one_slice (coordinate : vec -> R) (lo hi : R) (n : nat) (m : mesh) : Prop :=
  exists j ps, (j < n)%nat /\ faces_props m = Ok ps
  /\ forall x, In x ps -> (j = 0%nat \/ lo + INR j * (hi - lo) / INR n <= coordinate (p_center x))
                       /\ (S j = n \/ coordinate (p_center x) < lo + INR (S j) * (hi - lo) / INR n).
(** With the dof [name], the panel [q] of the body moves with the velocity [v]. *)
Definition panel_moves (b : fbody) (name : string) (q : polygon) (v : vec) : Prop :=
  exists rows qs k q', In (name, rows) (fb_dofs b) /\ tree_polygons (fb_mesh b) qs
  /\ nth_error qs k = Some q' /\ same_polygon q q' /\ nth_error rows k = Some v.
(** A body whose mesh is made of flat panels and needs no healing, and whose dofs have one row for each face. *)
Definition sliceable (argsort : list R -> list nat) (heal_normals : mesh -> result mesh) (b : fbody) : Prop :=
  tidy_tree (fb_mesh b) /\ (exists qs, proper_surface (fb_mesh b) qs) /\ well_shaped b
  /\ forall m, fb_mesh b = Leaf m -> heal_leaf argsort heal_normals true m = Ok m.
(** The interval between the extreme values of a coordinate at the vertices. *)
Definition range_of (coordinate : vec -> R) (vs : list vec) (lo hi : R) : Prop :=
  (exists v, In v vs /\ coordinate v = lo) /\ (exists v, In v vs /\ coordinate v = hi) /\ forall v, In v vs -> lo <= coordinate v <= hi.
