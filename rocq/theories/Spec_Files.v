(** What loading a written mesh back should give. *)
From Coq Require Import Reals List.
From Verif Require Import Model_Base Model_Geometry Model_Mesh.
Import ListNotations.
Open Scope R_scope.

(** The faces refer to vertices of the mesh. *)
Definition valid (m : mesh) : Prop :=
  forall f i, In f (m_faces m) -> In i (face_ids f) -> (i < nb_vertices m)%nat.

(** The error on a number printed with six decimals, and on a number printed with seven significant digits. *)
Definition six_decimals (x y : R) : Prop := Rabs (y - x) <= 5 / 10 ^ 7.
Definition seven_digits (x y : R) : Prop := Rabs (y - x) <= 5 / 10 ^ 7 * Rabs x.

Definition close (tolerated : R -> R -> Prop) (v w : vec) : Prop :=
  tolerated (vx v) (vx w) /\ tolerated (vy v) (vy w) /\ tolerated (vz v) (vz w).

(** The same vertices in the same order, up to the printed precision, and the same faces. *)
Definition same_mesh (tolerated : R -> R -> Prop) (m m' : mesh) : Prop :=
  Forall2 (close tolerated) (m_vertices m) (m_vertices m') /\ m_faces m' = m_faces m.

(** The same polygons in the same order, with the same corners up to the printed precision. *)
Definition same_corner (tolerated : R -> R -> Prop) (m m' : mesh) (i j : nat) : Prop :=
  exists v w, nth_error (m_vertices m) i = Some v /\ nth_error (m_vertices m') j = Some w /\ close tolerated v w.
Definition same_polygons (tolerated : R -> R -> Prop) (m m' : mesh) : Prop :=
  Forall2 (fun f g => Forall2 (same_corner tolerated m m') (face_ids f) (face_ids g)) (m_faces m) (m_faces m').

(** All the coordinates satisfy a condition. *)
Definition coordinates_are (P : R -> Prop) (m : mesh) : Prop :=
  forall v, In v (m_vertices m) -> P (vx v) /\ P (vy v) /\ P (vz v).
(** A range that contains every finite double precision number. *)
Definition float_range (x : R) : Prop := x = 0 \/ / 10 ^ 400 <= Rabs x <= 10 ^ 400.
Definition at_most (bound : R) (x : R) : Prop := Rabs x <= bound.
