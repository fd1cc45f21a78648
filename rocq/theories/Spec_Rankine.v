(** Vocabulary of the properties of the integrals of the Rankine source. *)
From Coq Require Import Reals.
From Coquelicot Require Import Coquelicot.
From Coq Require Import List.
From Verif Require Import Model_Base Model_Mesh Model_Assembly.
Import ListNotations.
Open Scope R_scope.

(** [g] is the gradient at [M]: its product with each direction is the derivative in this direction. *)
Definition gradient_at (f : vec -> R) (M g : vec) : Prop := forall u, is_derive (fun t => f (vadd M (vscale t u))) 0 (dot g u).
(** The distance from the line through [a] and [b] to the projection of the point on the plane with normal vector [n]. *)
Definition distance_to_line (n a b M : vec) : R := Rabs (dot (vsub M a) (cross n (vsub b a))) / norm (vsub b a).
(** The point is not near the plane of the face, nor near the lines that bear its sides. *)
Definition off_face (M : vec) (q : quad) (f : fprops) : Prop :=
  / 10000 * p_radius f < Rabs (dot (vsub M (p_center f)) (p_normal f))
  /\ forall a b, In (a, b) [(qa q, qb q); (qb q, qc q); (qc q, qd q); (qd q, qa q)] -> / 1000 * p_radius f <= norm (vsub b a) ->
       0 < norm (vsub b a) /\ / 100000 < distance_to_line (p_normal f) a b M.
(** The point is far from the face, or it is near and in general position. *)
Definition regular_point (M : vec) (q : quad) (f : fprops) : Prop :=
  (7 * p_radius f < norm (vsub M (p_center f)) /\ / 10000000 < norm (vsub M (p_center f)))
  \/ (norm (vsub M (p_center f)) < 7 * p_radius f /\ off_face M q f).
(** The face and the panel translated by a vector. *)
Definition shifted_quad (v : vec) (q : quad) : quad := Q (vadd (qa q) v) (vadd (qb q) v) (vadd (qc q) v) (vadd (qd q) v).
Definition shifted_props (v : vec) (f : fprops) : fprops := FProps (p_area f) (p_normal f) (vadd (p_center f) v) (p_radius f).
