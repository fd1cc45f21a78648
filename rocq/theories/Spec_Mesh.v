(** Vocabulary of the properties of meshes and of geometric transformations. *)
From Coq Require Import Reals List Bool ZArith.
From Verif Require Import Model_Base Model_Geometry Model_Mesh.
Import ListNotations.
Open Scope R_scope.

(** Every face refers to vertices of the mesh. *)
Definition valid (m : mesh) : Prop :=
  forall f i, In f (m_faces m) -> In i [fa f; fb f; fc f; fd f] -> (i < length (m_vertices m))%nat.
(** Every vertex is used by some face. *)
Definition all_used (m : mesh) : Prop :=
  forall i, (i < length (m_vertices m))%nat ->
    exists f, In f (m_faces m) /\ In i [fa f; fb f; fc f; fd f].

(** The k-th face of the mesh has the four given corners, in this order. *)
Definition face_is (m : mesh) (k : nat) (a b c d : vec) : Prop :=
  exists f, nth_error (m_faces m) k = Some f
    /\ nth_error (m_vertices m) (fa f) = Some a /\ nth_error (m_vertices m) (fb f) = Some b
    /\ nth_error (m_vertices m) (fc f) = Some c /\ nth_error (m_vertices m) (fd f) = Some d.

(** Python's meaning of an index in a list of [n] elements. *)
Definition index_of (n : nat) (z : Z) (i : nat) : Prop :=
  (i < n)%nat /\ (z = Z.of_nat i \/ z = (Z.of_nat i - Z.of_nat n)%Z).

(** The area vector of the closed polygon [a b c d]. *)
Definition area_vector (a b c d : vec) : vec :=
  vscale (1 / 2) (vadd (vadd (cross a b) (cross b c)) (vadd (cross c d) (cross d a))).
(** The same, of a face. *)
Definition face_area_vector (m : mesh) (k : nat) (v : vec) : Prop :=
  exists a b c d, face_is m k a b c d /\ v = area_vector a b c d.

(** The same polygon, starting from another corner. *)
Definition rotation_of (f g : face) : Prop :=
  g = f \/ g = F (fb f) (fc f) (fd f) (fa f) \/ g = F (fc f) (fd f) (fa f) (fb f)
  \/ g = F (fd f) (fa f) (fb f) (fc f).

Definition unit_vector (u : vec) : Prop := norm u = 1.
Definition dist (p q : vec) : R := norm (vsub p q).
(** Axes and planes as the constructors build them. *)
Definition proper_axis (a : axis) : Prop := unit_vector (ax_vector a).
Definition proper_plane (p : plane) : Prop := unit_vector (pl_normal p).
Definition on_axis (a : axis) (x : vec) : Prop := exists t, x = vadd (ax_point a) (vscale t (ax_vector a)).
Definition on_plane (p : plane) (x : vec) : Prop := dot (vsub x (pl_point p)) (pl_normal p) = 0.
(** The reflection of [x] through the plane is [y]: the middle is on the plane
    and the displacement is along the normal. *)
Definition reflected (p : plane) (x y : vec) : Prop :=
  on_plane p (vscale (1 / 2) (vadd x y)) /\ exists t, vsub y x = vscale t (pl_normal p).
(** Twice the oriented volume of the parallelepiped. *)
Definition triple (u v w : vec) : R := dot (cross u v) w.
(** [m'] is made of the faces of [m] with the given indices, in this order. *)
Definition selects (m : mesh) (ids : list nat) (m' : mesh) : Prop :=
  valid m' /\ length (m_faces m') = length ids
  /\ forall k i a b c d, nth_error ids k = Some i -> face_is m i a b c d -> face_is m' k a b c d.
(** [l1] and [l2] share out the indices [0..n-1]: each one is in exactly one list, once. *)
Definition splits (n : nat) (l1 l2 : list nat) : Prop :=
  NoDup (l1 ++ l2) /\ forall i, In i (l1 ++ l2) <-> (i < n)%nat.
(** The set of the corners of the triangle or quadrangle: two consecutive corners
    are the same vertex. *)
Definition has_repeated_corner (f : face) : Prop :=
  fa f = fb f \/ fb f = fc f \/ fc f = fd f \/ fd f = fa f.
(** The polygon [a b c d] is planar and convex: it turns on the same side at each corner. *)
Definition planar_convex (a b c d : vec) : Prop :=
  exists u k1 k2 k3 k4, unit_vector u /\ 0 <= k1 /\ 0 <= k2 /\ 0 <= k3 /\ 0 <= k4
    /\ cross (vsub b a) (vsub c b) = vscale k1 u /\ cross (vsub c b) (vsub d c) = vscale k2 u
    /\ cross (vsub d c) (vsub a d) = vscale k3 u /\ cross (vsub a d) (vsub b a) = vscale k4 u.
(** How the properties of a face are transformed by an isometry. *)
Definition moved (f : vec -> vec) (l : vec -> vec) (x y : fprops) : Prop :=
  p_area y = p_area x /\ p_normal y = l (p_normal x) /\ p_center y = f (p_center x) /\ p_radius y = p_radius x.
(** Triangles and planar convex quadrangles. *)
Definition flat (m : mesh) : Prop := forall k f a b c d, nth_error (m_faces m) k = Some f -> face_is m k a b c d ->
  fa f = fd f \/ planar_convex a b c d.
