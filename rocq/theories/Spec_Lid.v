(** Vocabulary of the properties of the lids. *)
From Coq Require Import Reals List Bool Arith Relation_Operators.
From Verif Require Import Model_Base Model_Geometry Model_Mesh Spec_Mesh Spec_Clip Spec_Quality.
Import ListNotations.
Open Scope R_scope.

(** ** The waterlines *)
(** The face number i has a corner on the free surface z = 0, up to 1e-8. *)
Definition wet (m : mesh) (i : nat) : Prop :=
  exists f x v, nth_error (m_faces m) i = Some f /\ In x [fa f; fb f; fc f; fd f] /\ nth_error (m_vertices m) x = Some v /\ Rabs (vz v) <= / 100000000.
(** Nothing is above the free surface. *)
Definition immersed (m : mesh) : Prop := forall v, In v (m_vertices m) -> vz v <= / 100000000.
(** Two faces linked by a chain of faces on the free surface, each one sharing a vertex with the next one. *)
Definition linked (m : mesh) : nat -> nat -> Prop := clos_refl_trans nat (fun i j => wet m i /\ wet m j /\ share_vertex (m_faces m) i j).
(** The faces around one of the waterlines of the mesh. *)
Definition is_waterline (m : mesh) (l : list nat) : Prop :=
  l <> [] /\ forall i, In i l -> wet m i /\ forall j, In j l <-> linked m i j.
(** The point is a corner of one of the given faces. *)
Definition corner_of (m : mesh) (l : list nat) (v : vec) : Prop :=
  exists i f x, In i l /\ nth_error (m_faces m) i = Some f /\ In x [fa f; fb f; fc f; fd f] /\ nth_error (m_vertices m) x = Some v.
(** The difference between the greatest and the least value of a coordinate among the corners of the given faces. *)
Definition extent_of (m : mesh) (l : list nat) (coord : vec -> R) (s : R) : Prop :=
  exists u v, corner_of m l u /\ corner_of m l v /\ (forall w, corner_of m l w -> coord v <= coord w <= coord u) /\ s = coord u - coord v.
(** The dimensions of the rectangle around a waterline. *)
Definition waterline_size (m : mesh) (l : list nat) (x y : R) : Prop := extent_of m l vx x /\ extent_of m l vy y.

(** No waterline is reduced to a segment along an axis. *)
Definition proper_waterlines (m : mesh) : Prop := forall l, is_waterline m l -> exists x y, waterline_size m l x y /\ 0 < x /\ 0 < y.

(** ** Irregular frequencies *)
(** The lowest irregular frequency of a parallelepiped of dimensions x and y and draft d. *)
Definition inverse_length (x y : R) : R := sqrt (/ x * / x + / y * / y).
Definition parallelepiped_frequency (g x y d : R) : R :=
  let p := inverse_length x y in sqrt (PI * g * p / tanh (PI * d * p)).
(** A horizontal lid. *)
Definition lid_at (lid : mesh) (z : R) : Prop := m_vertices lid <> [] /\ forall v, In v (m_vertices lid) -> vz v = z.
(** Strictly lower, possibly than infinity. *)
Definition lower_than (x : R) (e : ext) : Prop := match e with Fin y => x < y | PInf => True | _ => False end.

(** ** The generated lids *)
(** The vertical line through the point meets the panel. *)
Definition over (p : vec) (q : polygon) : Prop := exists x, hull q x /\ vx x = vx p /\ vy x = vy p.
(** Twice the signed area of the vertical projection of a triangle. *)
Definition turn (a b c : vec) : R := (vx b - vx a) * (vy c - vy a) - (vy b - vy a) * (vx c - vx a).
(** Seen from above, the panel is a triangle or a strictly convex quadrangle. *)
Definition convex_from_above (q : polygon) : Prop :=
  let '(a, b, c, d) := q in
  (d = a /\ turn a b c <> 0)
  \/ (0 < turn a b c /\ 0 < turn b c d /\ 0 < turn c d a /\ 0 < turn d a b)
  \/ (turn a b c < 0 /\ turn b c d < 0 /\ turn c d a < 0 /\ turn d a b < 0).
(** The panel is vertical: seen from above, it is on the line [nx x + ny y = k]. *)
Definition vertical_on (q : polygon) (nx ny k : R) : Prop :=
  (nx <> 0 \/ ny <> 0) /\ (forall v, In v (polygon_corners q) -> nx * vx v + ny * vy v = k)
  /\ exists u v, In u (polygon_corners q) /\ In v (polygon_corners q) /\ (vx u <> vx v \/ vy u <> vy v).
Definition seen_well (q : polygon) : Prop := convex_from_above q \/ exists nx ny k, vertical_on q nx ny k.
(** The panels that are counted at a point: those which its vertical line meets; for the vertical ones, those whose plane contains it. *)
Definition counted (p : vec) (q : polygon) : Prop :=
  (convex_from_above q /\ over p q) \/ exists nx ny k, vertical_on q nx ny k /\ nx * vx p + ny * vy p = k.
(** The number of elements with the property. *)
Inductive counts {A} (P : A -> Prop) : list A -> nat -> Prop :=
| counts_nil : counts P [] 0
| counts_yes q l n : P q -> counts P l n -> counts P (q :: l) (S n)
| counts_no q l n : ~ P q -> counts P l n -> counts P (q :: l) n.
(** The point is inside of the hull: the number of panels counted is odd. *)
Definition inside (panels : list polygon) (p : vec) : Prop := exists n, counts (counted p) panels n /\ Nat.odd n = true.
(** The elements of the first list that have the property. *)
Inductive kept {A} (P : A -> Prop) : list A -> list A -> Prop :=
| kept_nil : kept P [] []
| kept_yes q l l' : P q -> kept P l l' -> kept P (q :: l) (q :: l')
| kept_no q l l' : ~ P q -> kept P l l' -> kept P (q :: l) l'.
(** The least and the greatest value of a coordinate. *)
Definition bounds (coord : vec -> R) (vs : list vec) (a b : R) : Prop :=
  (exists v, In v vs /\ coord v = a) /\ (exists v, In v vs /\ coord v = b) /\ forall v, In v vs -> a <= coord v <= b.
(** The nodes of the regular grid of a horizontal rectangle larger by one tenth than the rectangle [x0, x1] [y0, y1]. *)
Definition lid_node (x0 x1 y0 y1 z : R) (nx ny i j : nat) : vec :=
  V ((x1 + x0) / 2 + (INR i / INR nx - 1 / 2) * (11 / 10 * (x1 - x0))) ((y1 + y0) / 2 + (INR j / INR ny - 1 / 2) * (11 / 10 * (y1 - y0))) z.
(** The requested radius of the panels: given, or the mean radius of the panels of the hull. *)
Definition wanted_radius (hull : mesh) (faces_max_radius : option R) (r : R) : Prop :=
  faces_max_radius = Some r
  \/ (faces_max_radius = None /\ exists ps, faces_props hull = Ok ps /\ r = Rsum (map p_radius ps) / INR (length ps)).
(** The numbers of panels: 5 in both directions if it is enough, otherwise the least numbers for which the sides of the panels are not longer
    than the side of a square of this radius. *)
Definition lid_counts (width height r : R) (nx ny : nat) : Prop :=
  let radius := sqrt (width / 5 * (width / 5) + height / 5 * (height / 5)) / 2 in
  (radius <= r /\ nx = 5%nat /\ ny = 5%nat)
  \/ (r < radius /\ width <= INR nx * (sqrt 2 * r) < width + sqrt 2 * r /\ height <= INR ny * (sqrt 2 * r) < height + sqrt 2 * r).
