(** Vocabulary of the properties of the Green function of Delhommeau on pairs of faces. *)
From Coq Require Import Reals.
From Coquelicot Require Import Complex.
From Coq Require Import List Bool Arith Permutation.
From Verif Require Import Model_Base Model_Ring Spec_Ring Model_Block Model_Geometry Model_Mesh Spec_Mesh Model_Quadrature Model_Tree Spec_Tree Model_Engine Spec_Engine
  Model_Assembly Spec_Assembly Model_Rankine Model_Wave.
Import ListNotations.
Open Scope R_scope.

(** The data of a face given to the assembly: without quadrature method, the only quadrature point is the center. *)
Definition source_of (m : option scheme) (p : panel) : source_panel :=
  SourcePanel (pn_corners p) (pn_props p)
    (match m with None => [(p_center (pn_props p), p_area (pn_props p))] | Some s => face_quadrature s (pn_corners p) end).

Section Green.
  Variable elementary : R -> R -> integrals.
  Variable decomposition : R -> list (R * R).
  (** The frequency, the depth and the settings. *)
  Record conditions := Conditions {
    c_singularities : singularities; c_method : depth_method; c_coeffs : R * R * R;
    c_wavenumber : ext; c_depth : ext; c_adjoint : bool; c_quadrature : option scheme }.
  (** The influence of a face (the second one) on the center of another one; [own] if they are the same face. *)
  Definition pair_arguments (c : conditions) (own : bool) (p1 p2 : panel) : inputs :=
    Inputs (fun _ => p_center (pn_props p1)) 1 (fun _ => source_of (c_quadrature c) p2) 1
           (fun _ => p_normal (pn_props (if c_adjoint c then p1 else p2)))
           (c_wavenumber c) (c_depth c) (c_coeffs c) (c_method c) (c_singularities c) own (c_adjoint c) true.
  Definition delhommeau (c : conditions) (own : bool) (p1 p2 : panel) : complexes * complexes :=
    let a := pair_arguments c own p1 p2 in
    let w := wave_part elementary decomposition in
    (S_entry rankine_of reflected_of one_point_of w a 0 0,
     along (dot_normals a 0) (gradient_entry rankine_of reflected_of one_point_of w a 0 0)).
End Green.

(** Triangles and planar convex quadrangles that are not degenerate. *)
Definition flat_face (tri : bool) (q : quad) : Prop :=
  p_area (props_of tri q) <> 0 /\ (tri = true -> qa q = qd q) /\ (tri = true \/ planar_convex (qa q) (qb q) (qc q) (qd q)).
Definition flat_faces (t : tree) : Prop := forall m f q, In m (leaves t) -> In f (m_faces m) -> face_points (m_vertices m) f = Ok q ->
  p_area (props_of (is_tri f) q) <> 0 /\ (is_tri f = true \/ planar_convex (qa q) (qb q) (qc q) (qd q)).
(** The quadrature points do not depend on the order of the corners of the face. *)
Definition symmetric_scheme (m : option scheme) : Prop :=
  match m with None => True | Some s => Permutation (map (fun '((x, y), w) => ((- x, y), w)) s) s end.
(** Symmetries that keep the free surface, and all the proper symmetries. *)
Definition upright_kind (k : kind) : Prop :=
  match k with
  | Model_Tree.Plain => True
  | Reflection p => proper_plane p /\ vz (pl_normal p) = 0
  | Translation v _ => vz v = 0
  | Axial a => proper_axis a /\ vx (ax_vector a) = 0 /\ vy (ax_vector a) = 0
  end.
Definition proper_kind (k : kind) : Prop :=
  match k with Reflection p => proper_plane p | Axial a => proper_axis a | _ => True end.
(** No free surface: only the source. *)
Definition without_images (c : conditions) : Prop := exists x, c_coeffs c = (x, 0, 0).
