(** Properties of the orientation of the faces (C53). *)
From Coq Require Import Reals List Bool Arith Permutation Lra.
From Verif Require Import Model_Base Model_Geometry Model_Mesh Model_Tree Model_Integrals Spec_Mesh Spec_Tree Spec_Clip Spec_Integrals
  Proofs_Integrals Proofs_Integrals3 Model_Normals Spec_Normals Proofs_Normals2 Proofs_Normals4 Proofs_Normals5.
Import ListNotations.
Open Scope R_scope.

(** C53: whatever the mesh, the vertices are left in place and the faces keep their numbers and their corners: at most
    the order of the corners of some faces is reversed. *)
Theorem heal_normals_reverses_faces :
  forall set_order m m', heal_normals set_order m = Ok m' ->
  m_vertices m' = m_vertices m /\ Forall2 same_or_reversed (m_faces m) (m_faces m').
Proof. exact heal_normals_kept. Qed.
Print Assumptions heal_normals_reverses_faces.

(** C53: if some faces of a conformal mesh can be reversed so that the orientations are consistent, then it succeeds and
    the orientations of all the neighbouring faces are consistent, whatever the number of pieces of the mesh. *)
Theorem heal_normals_consistent :
  forall set_order, (forall l, Permutation l (set_order l)) ->
  forall m, valid m -> m_faces m <> [] -> conformal (m_faces m) -> orientable (m_faces m) ->
  exists m', heal_normals set_order m = Ok m' /\ consistent (m_faces m').
Proof. exact heal_consistent. Qed.
Print Assumptions heal_normals_consistent.
Example heal_normals_consistent_ex :
  valid wrong_tetra /\ m_faces wrong_tetra <> [] /\ conformal (m_faces wrong_tetra) /\ orientable (m_faces wrong_tetra)
  /\ ~ consistent (m_faces wrong_tetra).
Proof.
  destruct wrong_tetra_ok as (A & B & C & _). split; [|split; [discriminate|auto]].
  destruct wrong_tetra_polygons as (qs & P & _). exact (Proofs_Clip5.polygons_valid _ _ P).
Qed.

(** C53: a mesh whose orientations are consistent is not modified, or completely turned inside out. *)
Theorem heal_normals_all_or_none :
  forall set_order, (forall l, Permutation l (set_order l)) ->
  forall m, valid m -> m_faces m <> [] -> conformal (m_faces m) -> consistent (m_faces m) ->
  heal_normals set_order m = Ok m \/ heal_normals set_order m = Ok (flip_normals m).
Proof.
  intros set_order Hs m Vm Nm Cm Om. destruct (heal_consistent_already set_order Hs m Vm Nm Cm Om) as [E|E]; [now left|].
  destruct (outwards_ok m Vm Nm) as [E'|E']; rewrite E, E'; auto.
Qed.
Print Assumptions heal_normals_all_or_none.

(** C53: the faces of a closed mesh end up as a watertight surface with a non negative volume. *)
Theorem heal_normals_outwards_partial :
  forall set_order, (forall l, Permutation l (set_order l)) ->
  forall m qs, m_faces m <> [] -> conformal (m_faces m) -> orientable (m_faces m) -> without_boundary (m_faces m) ->
  polygons_of m qs -> Forall proper_face qs ->
  exists m' qs' v, heal_normals set_order m = Ok m' /\ proper_surface (Leaf m') qs' /\ watertight qs'
    /\ volume (Leaf m') = Ok v /\ 0 <= v.
Proof.
  intros set_order Hs m qs Nm Cm Om Bm Pm Gm.
  destruct (heal_closed set_order Hs m qs Nm Cm Om Bm Pm Gm) as (m' & qs' & E & P & G & W & Pos).
  assert (S : proper_surface (Leaf m') qs').
  { split; [constructor|]. split; [|exact G]. exists [qs']. split; [now constructor|]. cbn. now rewrite app_nil_r. }
  exists m', qs', (Rsum (map signed_volume qs')). split; [exact E|]. split; [exact S|]. split; [exact W|].
  split; [now apply volume_value|exact Pos].
Qed.
Print Assumptions heal_normals_outwards_partial.
Example heal_normals_outwards_ex :
  m_faces wrong_tetra <> [] /\ conformal (m_faces wrong_tetra) /\ orientable (m_faces wrong_tetra)
  /\ without_boundary (m_faces wrong_tetra) /\ exists qs, polygons_of wrong_tetra qs /\ Forall proper_face qs.
Proof.
  destruct wrong_tetra_ok as (A & B & _ & D). split; [discriminate|]. split; [exact A|]. split; [exact B|]. split; [exact D|].
  exact wrong_tetra_polygons.
Qed.

(** C53, refuted for a mesh made of several closed surfaces: only the total volume is tested, so that a part may stay
    inside out. *)
Theorem heal_normals_parts_refuted :
  exists m outer inner, polygons_of m (outer ++ inner) /\ Forall proper_face (outer ++ inner)
    /\ conformal (m_faces m) /\ consistent (m_faces m) /\ without_boundary (m_faces m)
    /\ (forall set_order, (forall l, Permutation l (set_order l)) -> heal_normals set_order m = Ok m)
    /\ watertight inner /\ Rsum (map signed_volume inner) < 0.
Proof.
  exists two_tetra, outer_faces, inner_faces. destruct two_tetra_conformal as (A & B & C).
  split; [exact two_tetra_polygons|]. split; [exact two_tetra_proper|]. split; [exact A|]. split; [exact B|]. split; [exact C|].
  split; [exact two_tetra_healed|]. split; [exact inner_watertight|].
  unfold inner_faces, Rsum, signed_volume, Spec_Mesh.triple, dot, cross. cbn. lra.
Qed.
Print Assumptions heal_normals_parts_refuted.

(** C53, error branches: a mesh without faces is rejected. *)
Theorem heal_normals_no_face : forall set_order vs, (forall l, Permutation l (set_order l)) -> heal_normals set_order (Mesh vs []) = Err IndexError.
Proof.
  intros set_order vs Hs. unfold heal_normals, compute_connectivity. cbn [m_faces forallb negb map].
  assert (E : forall i, set_order (vertices_around [] i) = []).
  { intros i. apply Permutation_nil. exact (Hs []). }
  assert (F : forall l, flat_map (fun i => map (pair i) (set_order (vertices_around [] i))) l = []) by (induction l as [|i l IH]; cbn [flat_map]; [reflexivity|rewrite E; exact IH]).
  rewrite F. reflexivity.
Qed.
Print Assumptions heal_normals_no_face.
