(** Vocabulary of the properties of clipping. *)
From Coq Require Import Reals List Bool ZArith Arith Sorted.
From Verif Require Import Model_Base Model_Geometry Model_Mesh Spec_Mesh Model_Tree Spec_Tree.
Import ListNotations.
Open Scope R_scope.

(** The signed distance to the plane: positive above, negative below. *)
Definition height (p : plane) (x : vec) : R := dot (vsub x (pl_point p)) (pl_normal p).
(** A polygon given by four corners; a triangle repeats its first corner at the end. *)
Notation polygon := (vec * vec * vec * vec)%type.
Definition polygon_corners (q : polygon) : list vec := let '(a, b, c, d) := q in [a; b; c; d].
(** The points of the polygon with these corners, if it is convex. *)
Definition hull (q : polygon) (x : vec) : Prop :=
  let '(a, b, c, d) := q in
  exists wa wb wc wd, 0 <= wa /\ 0 <= wb /\ 0 <= wc /\ 0 <= wd /\ wa + wb + wc + wd = 1
    /\ x = vadd (vadd (vscale wa a) (vscale wb b)) (vadd (vscale wc c) (vscale wd d)).
Definition segment (u v x : vec) : Prop := exists t, 0 <= t <= 1 /\ x = vadd (vscale (1 - t) u) (vscale t v).
(** The quadrangle is planar and strictly convex: its diagonals meet at an inner point. *)
Definition diagonals_meet (q : polygon) : Prop :=
  let '(a, b, c, d) := q in
  exists s t, 0 < s < 1 /\ 0 < t < 1 /\ vadd (vscale (1 - s) a) (vscale s c) = vadd (vscale (1 - t) b) (vscale t d).
Definition area_of (q : polygon) : vec := let '(a, b, c, d) := q in area_vector a b c d.

(** The pieces are what the plane leaves of the polygon: they are inside the polygon and not above the plane; they
    cover all that is below the plane; they are oriented as the polygon; two of them have at most a segment in
    common; and the polygon is not cut if it does not reach above the plane. *)
Definition clips (p : plane) (q : polygon) (pieces : list polygon) : Prop :=
  (forall g x, In g pieces -> hull g x -> hull q x /\ height p x <= 0)
  /\ (forall x, hull q x -> height p x < 0 -> exists g, In g pieces /\ hull g x)
  /\ (forall g, In g pieces -> exists k, 0 < k /\ area_of g = vscale k (area_of q))
  /\ (area_of q <> v0 -> forall i j g g', i <> j -> nth_error pieces i = Some g -> nth_error pieces j = Some g' ->
        exists u v, forall x, hull g x -> hull g' x -> segment u v x)
  /\ ((forall x, In x (polygon_corners q) -> height p x <= 0) -> (exists x, In x (polygon_corners q) /\ height p x < 0) ->
        exists g, pieces = [g] /\ forall x, hull g x <-> hull q x).

(** Every vertex is either exactly on the plane or farther than the tolerance. *)
Definition general_position (p : plane) (tol : R) (m : mesh) : Prop :=
  forall x, In x (m_vertices m) -> height p x = 0 \/ tol < Rabs (height p x).
(** The faces are triangles or strictly convex planar quadrangles. *)
Definition convex_faces (m : mesh) : Prop := forall k f a b c d, nth_error (m_faces m) k = Some f -> face_is m k a b c d ->
  fa f = fd f \/ diagonals_meet (a, b, c, d).

(** The corners of a face, and of all the faces of a mesh. *)
Definition corners_at (vs : list vec) (f : face) (q : polygon) : Prop :=
  let '(a, b, c, d) := q in
  nth_error vs (fa f) = Some a /\ nth_error vs (fb f) = Some b /\ nth_error vs (fc f) = Some c /\ nth_error vs (fd f) = Some d.
Definition polygons_of (m : mesh) (qs : list polygon) : Prop := Forall2 (corners_at (m_vertices m)) (m_faces m) qs.
(** The pieces labelled with the number [i]. *)
Definition pieces_of (ps : list (polygon * nat)) (i : nat) : list polygon := map fst (filter (fun g => Nat.eqb (snd g) i) ps).
(** The elements of [l] at the given positions, in this order. *)
Definition picks {A} (l : list A) (ids : list nat) (l' : list A) : Prop := Forall2 (fun i x => nth_error l i = Some x) ids l'.
(** The face is not negligible: its area is at least 1e-5 of the mean area. *)
Definition big_enough (fps : list fprops) (j : nat) : Prop := exists x, nth_error fps j = Some x
  /\ Rsum (map p_area fps) / INR (length fps) * / 100000 <= p_area x.
(** [m'] is the part of [m] below the plane and [ids] are the labels of its pieces. The pieces, up to a distance of 1e-8
    on the position of their corners, are the faces of a mesh [w], of which [m'] keeps the faces that are big enough. *)
Definition clipped (p : plane) (m m' : mesh) (ids : list nat) : Prop :=
  exists (ps : list (polygon * nat)) (w : mesh) (qw qs' : list polygon) (fps : list fprops) (kept : list nat),
  ids = map snd ps
  /\ (forall i, In i ids -> (i < nb_faces m)%nat)
  /\ (forall i a b c d, face_is m i a b c d -> clips p (a, b, c, d) (pieces_of ps i))
  /\ valid w /\ polygons_of w qw /\ Forall2 (near_polygon (/ 100000000)) (map fst ps) qw
  /\ faces_props w = Ok fps
  /\ StronglySorted lt kept /\ (forall j, In j kept <-> big_enough fps j)
  /\ valid m' /\ polygons_of m' qs' /\ picks qw kept qs'.

(** ** Collections and bodies *)
Definition tree_polygons (t : tree) (qs : list polygon) : Prop := exists qss, Forall2 polygons_of (leaves t) qss /\ qs = concat qss.
(** The labels of the pieces of the meshes of a list, counted from the first face of the first mesh. *)
Fixpoint shifted (off : nat) (ms : list mesh) (labels : list (list nat)) : list nat :=
  match ms, labels with
  | m :: ms', l :: labels' => map (fun i => (i + off)%nat) l ++ shifted (off + nb_faces m) ms' labels'
  | _, _ => []
  end.
(** Each new polygon is, up to a distance of 1e-8, a piece of the old polygon with the number in its label. *)
Definition traced (p : plane) (qs qs' : list polygon) (ids : list nat) : Prop :=
  length qs' = length ids /\ forall k q' i, nth_error qs' k = Some q' -> nth_error ids k = Some i ->
    exists q pieces g, nth_error qs i = Some q /\ clips p q pieces /\ In g pieces /\ near_polygon (/ 100000000) g q'.
(** What is asked of the meshes of a collection. *)
Definition clippable (p : plane) (tol : R) (m : mesh) : Prop := valid m /\ convex_faces m /\ general_position p tol m.
