(** Vocabulary of the conditions satisfied by the Green function on the free surface and on the sea bottom. *)
From Coq Require Import Reals.
From Coquelicot Require Import Complex.
From Coq Require Import List.
From Verif Require Import Model_Base Model_Mesh Model_Assembly.
Import ListNotations.
Open Scope R_scope.

(** The image of a point by the free surface. *)
Definition above (x : vec) : vec := V (vx x) (vy x) (- vz x).
(** The point is more than seven times the radius of the panel away from its center. *)
Definition far_from (x : vec) (q : source_panel) : Prop := 7 * p_radius (sp_props q) < norm (vsub x (p_center (sp_props q))).
(** The panel is replaced by its center with its area, as the default quadrature does; the point is not the center. *)
Definition seen_as_point (x : vec) (q : source_panel) : Prop :=
  sp_quad q = [(p_center (sp_props q), p_area (sp_props q))] /\ far_from x q /\ / 10000000 < norm (vsub x (p_center (sp_props q))).
(** Compared with the wavelength, the center of the panel is not at this point of the free surface. *)
Definition off_singularity (k : R) (x : vec) (q : source_panel) : Prop :=
  / 10000000000 <= k * norm (V (vx x - vx (p_center (sp_props q))) (vy x - vy (p_center (sp_props q))) 0)
  \/ / 10000000000 <= k * Rabs (vz (p_center (sp_props q))).
