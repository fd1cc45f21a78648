(** Model of axes, planes and their transformations (meshes/geometry.py).
    Floats are real numbers. *)
From Coq Require Import Reals List Bool.
From Verif Require Import Model_Base.
Import ListNotations.
Open Scope R_scope.

(** 3x3 arrays, as three rows, and the product [A @ v]. *)
Record mat3 := M3 { r1 : vec; r2 : vec; r3 : vec }.
Definition mapply (a : mat3) (v : vec) : vec := V (dot (r1 a) v) (dot (r2 a) v) (dot (r3 a) v).
Definition madd3 (a b : mat3) : mat3 := M3 (vadd (r1 a) (r1 b)) (vadd (r2 a) (r2 b)) (vadd (r3 a) (r3 b)).
Definition mscale3 (k : R) (a : mat3) : mat3 := M3 (vscale k (r1 a)) (vscale k (r2 a)) (vscale k (r3 a)).
Definition col1 (a : mat3) : vec := V (vx (r1 a)) (vx (r2 a)) (vx (r3 a)).
Definition col2 (a : mat3) : vec := V (vy (r1 a)) (vy (r2 a)) (vy (r3 a)).
Definition col3 (a : mat3) : vec := V (vz (r1 a)) (vz (r2 a)) (vz (r3 a)).
Definition mmul3 (a b : mat3) : mat3 :=
  let row v := V (dot v (col1 b)) (dot v (col2 b)) (dot v (col3 b)) in
  M3 (row (r1 a)) (row (r2 a)) (row (r3 a)).
Definition id3 : mat3 := M3 (V 1 0 0) (V 0 1 0) (V 0 0 1).

(** geometry.py:12-14 *)
Definition e_x : vec := V 1 0 0.
Definition e_y : vec := V 0 1 0.
Definition e_z : vec := V 0 0 1.

(** geometry.py:172-181. [1e-6]. *)
Definition geom_tol : R := / 1000000.
Definition orthogonal_vectors (a b : vec) : bool := Rltb (Rabs (dot a b)) geom_tol.
Definition parallel_vectors (a b : vec) : bool := Rltb (norm (cross a b)) geom_tol.
Definition parallel_same_direction (a b : vec) : bool := parallel_vectors a b && Rltb 0 (dot a b).

(** [vector / np.linalg.norm(vector)]: [None] when the result is an array of nan. *)
Definition normalize (v : vec) : option vec :=
  if Req_EM_T (norm v) 0 then None else Some (vscale (/ norm v) v).

(** ** Axes *)

(** [Axis], geometry.py:188-194: [None] is an axis whose vector is made of nan. *)
Record axis := Axis { ax_vector : vec; ax_point : vec }.
Definition new_axis (vector point : vec) : option axis :=
  match normalize vector with Some u => Some (Axis u point) | None => None end.

(** geometry.py:278-280 *)
Definition Ox_axis : axis := Axis e_x v0.
Definition Oy_axis : axis := Axis e_y v0.
Definition Oz_axis : axis := Axis e_z v0.

(** [__contains__] and [__eq__] of two different axis objects, geometry.py:199-210. *)
Definition in_axis (a : axis) (p : vec) : bool := parallel_vectors (vsub p (ax_point a)) (ax_vector a).
Definition axis_eqb (a b : axis) : bool :=
  in_axis b (ax_point a) && parallel_vectors (ax_vector a) (ax_vector b).

(** [rotation_matrix], geometry.py:259-265. *)
Definition skew (u : vec) : mat3 :=
  M3 (V 0 (- vz u) (vy u)) (V (vz u) 0 (- vx u)) (V (- vy u) (vx u) 0).
Definition rotation_matrix (a : axis) (theta : R) : mat3 :=
  let W := skew (ax_vector a) in
  madd3 (madd3 id3 (mscale3 (sin theta) W))
        (mscale3 (2 * (sin (theta / 2) * sin (theta / 2))) (mmul3 W W)).

(** [rotate_vectors] and [rotate_points], geometry.py:267-273, on one element. *)
Definition rotate_vector (a : axis) (theta : R) (v : vec) : vec := mapply (rotation_matrix a theta) v.
Definition rotate_point (a : axis) (theta : R) (p : vec) : vec :=
  vadd (rotate_vector a theta (vsub p (ax_point a))) (ax_point a).

(** ** Planes *)

(** [Plane], geometry.py:289-294. *)
Record plane := Plane { pl_normal : vec; pl_point : vec }.
Definition new_plane (normal point : vec) : option plane :=
  match normalize normal with Some n => Some (Plane n point) | None => None end.

(** The properties [c] and [s], geometry.py:327-335. *)
Definition pl_c (p : plane) : R := Rabs (dot (pl_normal p) (pl_point p)).
Definition pl_s (p : plane) : R := dot (pl_normal p) (pl_point p).

(** [__contains__] of a point and [__eq__] of two different plane objects,
    geometry.py:299-314. *)
Definition in_plane (p : plane) (x : vec) : bool := orthogonal_vectors (vsub x (pl_point p)) (pl_normal p).
Definition plane_eqb (p q : plane) : bool :=
  in_plane p (pl_point q) && parallel_same_direction (pl_normal p) (pl_normal q).

(** [distance_to_point], geometry.py:364-379. *)
Definition distance_to_point (p : plane) (x : vec) : R := dot x (pl_normal p) - dot (pl_point p) (pl_normal p).

(** ** Transformations *)

(** The reflection applied to points by [Mesh.mirror] (meshes.py:592),
    [Axis.mirror] (geometry.py:251) and [Plane.mirror] (geometry.py:355). *)
Definition mirror_point (p : plane) (x : vec) : vec :=
  vsub x (vscale (2 * (dot x (pl_normal p) - pl_c p)) (pl_normal p)).
(** The reflection applied to vectors (geometry.py:252 and 356, symmetric.py:195). *)
Definition mirror_vector (p : plane) (v : vec) : vec :=
  vsub v (vscale (2 * dot v (pl_normal p)) (pl_normal p)).

(** geometry.py:237-254 *)
Definition axis_translate (a : axis) (t : vec) : axis := Axis (ax_vector a) (vadd (ax_point a) t).
Definition axis_rotate (a : axis) (b : axis) (theta : R) : axis :=
  Axis (rotate_vector b theta (ax_vector a)) (rotate_point b theta (ax_point a)).
Definition axis_mirror (a : axis) (p : plane) : axis :=
  Axis (mirror_vector p (ax_vector a)) (mirror_point p (ax_point a)).

(** geometry.py:342-358. The rotation does not use the point of the axis. *)
Definition plane_translate (p : plane) (t : vec) : plane := Plane (pl_normal p) (vadd (pl_point p) t).
Definition plane_rotate (p : plane) (a : axis) (theta : R) : plane :=
  Plane (rotate_vector a theta (pl_normal p)) (rotate_vector a theta (pl_point p)).
Definition plane_mirror (p : plane) (q : plane) : plane :=
  Plane (mirror_vector q (pl_normal p)) (mirror_point q (pl_point p)).

(** [rotate_around_center_to_align_vectors], geometry.py:84-102: the rotation
    that is applied. [NoRotation] when the object is left unchanged; [NanRotation]
    when the axis or the angle is nan ([np.arccos] outside of [-1, 1]). *)
Inductive alignment := NoRotation | Rotation (a : axis) (theta : R) | NanRotation.
Definition align_vectors (center vec1 vec2 : vec) : alignment :=
  if parallel_same_direction vec1 vec2 then NoRotation
  else if parallel_vectors vec1 vec2 then
    match new_axis (cross vec1 (if parallel_vectors vec1 e_x then e_y else e_x)) center with
    | Some a => Rotation a PI
    | None => NanRotation
    end
  else
    match new_axis (cross vec1 vec2) center with
    | Some a => if Rleb (-1) (dot vec1 vec2) && Rleb (dot vec1 vec2) 1
                then Rotation a (acos (dot vec1 vec2)) else NanRotation
    | None => NanRotation
    end.
Definition apply_alignment (r : alignment) (p : vec) : option vec :=
  match r with
  | NoRotation => Some p
  | Rotation a theta => Some (rotate_point a theta p)
  | NanRotation => None
  end.

(** [Plane.get_edge_intersection], geometry.py:381-404. [None] when the edge is
    parallel to the plane (the coordinates are nan or infinite: neither test
    succeeds on a nan). *)
Definition edge_intersection (p : plane) (a b : vec) : result (option vec) :=
  let an := dot a (pl_normal p) in
  let bn := dot b (pl_normal p) in
  if Req_EM_T an bn then
    (* the division is by zero: 0/0 is nan, and otherwise the quotient is infinite *)
    if Req_EM_T an (pl_s p) then Ok None else Err RuntimeError
  else
    let t := (an - pl_s p) / (an - bn) in
    if Rltb t 0 || Rltb 1 t then Err RuntimeError
    else Ok (Some (vadd (vscale (1 - t) a) (vscale t b))).
