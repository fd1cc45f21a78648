(** Vocabulary of the properties of surface integrals. *)
From Coq Require Import Reals List Permutation.
From Verif Require Import Model_Base Model_Geometry Model_Mesh Spec_Mesh Model_Tree Spec_Tree Spec_Clip.
Import ListNotations.
Open Scope R_scope.

(** The oriented edges of a polygon; a triangle has one edge without length. *)
Definition edges (q : polygon) : list (vec * vec) := let '(a, b, c, d) := q in [(a, b); (b, c); (c, d); (d, a)].
Definition swap (e : vec * vec) : vec * vec := (snd e, fst e).
(** Each oriented edge appears as many times as the opposite edge. *)
Definition watertight (qs : list polygon) : Prop := Permutation (flat_map edges qs) (map swap (flat_map edges qs)).
(** Triangles and planar convex quadrangles, with an area that is not negligible. *)
Definition proper_face (q : polygon) : Prop :=
  let '(a, b, c, d) := q in (a = d \/ planar_convex a b c d) /\ / 1000000000000 <= 2 * norm (area_vector a b c d).
(** [t] is a mesh or a collection made of the proper faces [qs]. *)
Definition proper_surface (t : tree) (qs : list polygon) : Prop := filled t /\ tree_polygons t qs /\ Forall proper_face qs.
(** The volume between the origin and the polygon, seen as two triangles. *)
Definition signed_volume (q : polygon) : R := let '(a, b, c, d) := q in (triple a b c + triple a c d) / 6.
(** A horizontal polygon of the free surface, oriented upwards. *)
Definition horizontal_lid (q : polygon) : Prop :=
  let '(a, b, c, d) := q in vz a = 0 /\ vz b = 0 /\ vz c = 0 /\ vz d = 0 /\ 0 < vz (area_vector a b c d).
(** The integral of the position on a horizontal polygon, seen as two triangles. *)
Definition first_moment (q : polygon) : vec :=
  let '(a, b, c, d) := q in
  vadd (vscale (vz (area_vector a b c a)) (vscale (1 / 3) (vadd (vadd a b) c)))
       (vscale (vz (area_vector a c d a)) (vscale (1 / 3) (vadd (vadd a c) d))).
