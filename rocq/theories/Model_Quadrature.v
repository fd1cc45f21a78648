(** Model of the quadrature schemes on faces (meshes/quadratures.py). *)
From Coq Require Import Reals List Bool String.
From Verif Require Import Model_Base Model_Geometry Model_Mesh.
Import ListNotations.
Open Scope R_scope.

(** A scheme on the reference square: local points with their weights. *)
Definition scheme := list ((R * R) * R).
(** The argument [method]: [None], the name of a built-in method, a scheme of
    quadpy, or any other object. *)
Inductive qmethod := NoMethod | Named (name : string) | Quadpy (s : scheme) | OtherMethod.

(** [builtin_methods], quadratures.py:14-23. *)
Definition first_order : scheme := [((0, 0), 1)].
Definition gauss_legendre_2 : scheme :=
  let r := 1 / sqrt 3 in
  [((r, r), 1 / 4); ((r, - r), 1 / 4); ((- r, r), 1 / 4); ((- r, - r), 1 / 4)].
Definition builtin_method (name : string) : option scheme :=
  if String.eqb name "First order" then Some first_order
  else if String.eqb name "Gauss-Legendre 2" then Some gauss_legendre_2
  else None.

(** Lines 45-60: the choice of the scheme. [None] is not a method of the list. *)
Definition find_scheme (m : qmethod) : result scheme :=
  match m with
  | Named n => match builtin_method n with Some s => Ok s | None => Err ValueError end
  | Quadpy s => Ok s
  | NoMethod | OtherMethod => Err ValueError
  end.

(** Lines 67-82: a point of a face and its weight. *)
Definition local_point (q : quad) (x y : R) : vec :=
  vscale (1 / 4) (vadd (vadd (vadd
    (vscale ((1 + x) * (1 + y)) (qa q))
    (vscale ((1 + x) * (1 - y)) (qb q)))
    (vscale ((1 - x) * (1 - y)) (qc q)))
    (vscale ((1 - x) * (1 + y)) (qd q))).
Definition dxidx (q : quad) (y : R) : vec :=
  vscale (1 / 4) (vsub (vsub (vadd (vscale (1 + y) (qa q)) (vscale (1 - y) (qb q)))
    (vscale (1 - y) (qc q))) (vscale (1 + y) (qd q))).
Definition dxidy (q : quad) (x : R) : vec :=
  vscale (1 / 4) (vadd (vsub (vsub (vscale (1 + x) (qa q)) (vscale (1 + x) (qb q)))
    (vscale (1 - x) (qc q))) (vscale (1 - x) (qd q))).
Definition det_j (q : quad) (x y : R) : R := norm (cross (dxidx q y) (dxidy q x)).
Definition face_quadrature (s : scheme) (q : quad) : list (vec * R) :=
  map (fun '((x, y), w) => (local_point q x y, w * 4 * det_j q x y)) s.

(** [compute_quadrature_on_faces], quadratures.py:26-82. *)
Definition compute_quadrature_on_faces (faces : list quad) (m : qmethod) : result (list (list (vec * R))) :=
  bind (find_scheme m) (fun s => Ok (map (face_quadrature s) faces)).

(** [compute_quadrature], meshes.py:330-341, on the faces as they are (the
    healing of the triangles that comes first is in Model_Lazy). *)
Definition quadrature_of (m : mesh) (method : qmethod) : result (list (list (vec * R))) :=
  bind (all_points m) (fun qs =>
  match method with
  | NoMethod => bind (faces_props m) (fun ps => Ok (map (fun p => [(p_center p, p_area p)]) ps))
  | _ => compute_quadrature_on_faces qs method
  end).
