(** Model of meshes (meshes/meshes.py, and parts of meshes/properties.py and
    meshes/quality.py).

    Floats are real numbers. Names, logging, plots and the storage of lazily
    computed properties ([__internals__], see Model_Lazy) are left out. *)
From Coq Require Import Reals List Bool ZArith.
From Verif Require Import Model_Base Model_Geometry.
Import ListNotations.
Open Scope R_scope.

(** ** Arrays *)

(** [l[i]] for a non-negative index. *)
Definition get {A} (l : list A) (i : nat) : result A :=
  match nth_error l i with Some x => Ok x | None => Err IndexError end.
(** [l[z]]: negative indices count from the end. *)
Definition py_index (n : nat) (z : Z) : option nat :=
  if (0 <=? z)%Z then if (z <? Z.of_nat n)%Z then Some (Z.to_nat z) else None
  else if (0 <=? z + Z.of_nat n)%Z then Some (Z.to_nat (z + Z.of_nat n)) else None.
Definition geti {A} (l : list A) (z : Z) : result A :=
  match py_index (length l) z with Some i => get l i | None => Err IndexError end.
Fixpoint mapM {A B} (f : A -> result B) (l : list A) : result (list B) :=
  match l with
  | [] => Ok []
  | a :: l' => bind (f a) (fun b => bind (mapM f l') (fun bs => Ok (b :: bs)))
  end.
(** The positions where a test holds, in order ([np.where(mask)[0]]). *)
Definition positions {A} (test : A -> bool) (l : list A) : list nat :=
  map fst (filter (fun p => test (snd p)) (combine (seq 0 (length l)) l)).
Definition memb (x : nat) (l : list nat) : bool := existsb (Nat.eqb x) l.

(** ** Faces and meshes *)

Record face := F { fa : nat; fb : nat; fc : nat; fd : nat }.
Definition face_ids (f : face) : list nat := [fa f; fb f; fc f; fd f].
Definition face_map (g : nat -> nat) (f : face) : face := F (g (fa f)) (g (fb f)) (g (fc f)) (g (fd f)).
Record mesh := Mesh { m_vertices : list vec; m_faces : list face }.
Definition nb_vertices (m : mesh) : nat := length (m_vertices m).
Definition nb_faces (m : mesh) : nat := length (m_faces m).

(** [Mesh.__init__], meshes.py:44-62, and the two setters, lines 103-130. The
    arguments are arrays given as lists of rows; rows of different lengths make
    [np.array] raise. *)
Definition all_length {A} (n : nat) (rows : list (list A)) : bool :=
  forallb (fun r => Nat.eqb (length r) n) rows.
Definition same_lengths {A} (rows : list (list A)) : bool :=
  match rows with [] => true | r :: _ => all_length (length r) rows end.
Definition row_vec (r : list R) : vec := V (nth 0 r 0) (nth 1 r 0) (nth 2 r 0).
Definition row_face (r : list Z) : face :=
  F (Z.to_nat (nth 0 r 0%Z)) (Z.to_nat (nth 1 r 0%Z)) (Z.to_nat (nth 2 r 0%Z)) (Z.to_nat (nth 3 r 0%Z)).
Definition new_mesh (vertices : list (list R)) (faces : list (list Z)) : result mesh :=
  if negb (same_lengths vertices) then Err ValueError else
  if negb (all_length 3 vertices) then Err AssertionError else
  if negb (same_lengths faces) then Err ValueError else
  if negb (forallb (forallb (fun z => (0 <=? z)%Z)) faces) then Err AssertionError else
  if negb (all_length 4 faces) then Err AssertionError else
  if negb (forallb (forallb (fun z => (z + 1 <=? Z.of_nat (length vertices))%Z)) faces) then Err AssertionError else
  Ok (Mesh (map row_vec vertices) (map row_face faces)).

(** [Mesh(vertices, faces)] called with arrays of the right shapes. *)
Definition build_mesh (vertices : list vec) (faces : list face) : result mesh :=
  if forallb (fun f => forallb (fun i => Nat.ltb i (length vertices)) (face_ids f)) faces
  then Ok (Mesh vertices faces) else Err AssertionError.

(** [self.vertices[self.faces]]: the coordinates of the corners of a face. *)
Record quad := Q { qa : vec; qb : vec; qc : vec; qd : vec }.
Definition quad_points (q : quad) : list vec := [qa q; qb q; qc q; qd q].
Definition face_points (vs : list vec) (f : face) : result quad :=
  bind (get vs (fa f)) (fun a => bind (get vs (fb f)) (fun b =>
  bind (get vs (fc f)) (fun c => bind (get vs (fd f)) (fun d => Ok (Q a b c d))))).
Definition all_points (m : mesh) : result (list quad) := mapM (face_points (m_vertices m)) (m_faces m).

(** [is_triangle] and [_compute_triangles_quadrangles], meshes.py:348-363. *)
Definition is_tri (f : face) : bool := Nat.eqb (fa f) (fd f).
Definition triangles_ids (m : mesh) : list nat := positions is_tri (m_faces m).
Definition quadrangles_ids (m : mesh) : list nat := positions (fun f => negb (is_tri f)) (m_faces m).
(** [get_face], meshes.py:173-190. *)
Definition get_face (m : mesh) (i : nat) : result (list nat) :=
  match nth_error (m_faces m) i with
  | None => Err AssertionError
  | Some f => Ok (if is_tri f then [fa f; fb f; fc f] else face_ids f)
  end.

(** ** Properties of the faces: [compute_faces_properties] and
    [compute_radiuses], properties.py:14-111. *)
Record fprops := FProps { p_area : R; p_normal : vec; p_center : vec; p_radius : R }.
(** [1e-12] *)
Definition degenerate_tol : R := / 1000000000000.
Definition tri_props (q : quad) : R * vec * vec :=
  let n := cross (vsub (qb q) (qa q)) (vsub (qc q) (qa q)) in
  let l := norm n in
  if Rltb (Rabs l) degenerate_tol then (0, v0, v0)
  else (l / 2, vscale (/ l) n, vscale (/ 3) (vadd (vadd (qa q) (qb q)) (qc q))).
Definition quad_props (q : quad) : R * vec * vec :=
  let n := cross (vsub (qc q) (qa q)) (vsub (qd q) (qb q)) in
  let l := norm n in
  if Rltb (Rabs l) degenerate_tol then (0, v0, v0)
  else
    let a1 := norm (cross (vsub (qb q) (qa q)) (vsub (qc q) (qa q))) * (1 / 2) in
    let a2 := norm (cross (vsub (qd q) (qa q)) (vsub (qc q) (qa q))) * (1 / 2) in
    let c1 := vscale (/ 3) (vadd (vadd (qa q) (qb q)) (qc q)) in
    let c2 := vscale (/ 3) (vadd (vadd (qc q) (qd q)) (qa q)) in
    (a1 + a2, vscale (/ l) n, vscale (/ (a1 + a2)) (vadd (vscale a1 c1) (vscale a2 c2))).
Definition radius (c : vec) (q : quad) : R :=
  let d p := norm (vsub c p) in
  Rmax (Rmax (d (qa q)) (d (qb q))) (Rmax (d (qc q)) (d (qd q))).
Definition props_of (tri : bool) (q : quad) : fprops :=
  let '(a, n, c) := if tri then tri_props q else quad_props q in
  FProps a n c (radius c q).
Definition face_props (vs : list vec) (f : face) : result fprops :=
  bind (face_points vs f) (fun q => Ok (props_of (is_tri f) q)).
Definition faces_props (m : mesh) : result (list fprops) := mapM (face_props (m_vertices m)) (m_faces m).

(** ** Extraction of faces *)

(** [extract_one_face], meshes.py:192-200. *)
Definition extract_one_face (m : mesh) (i : Z) : result mesh :=
  bind (geti (m_faces m) i) (fun f =>
  bind (face_points (m_vertices m) f) (fun q =>
  build_mesh (quad_points q) [F 0 1 2 3])).

(** The vertices used by a list of faces, in increasing order, and the position
    of a vertex among them (meshes.py:225-233). Vertices that are not used keep
    their number. *)
Definition used_vertices (nv : nat) (fs : list face) : list nat :=
  filter (fun i => existsb (fun f => memb i (face_ids f)) fs) (seq 0 nv).
Fixpoint position (x : nat) (l : list nat) : option nat :=
  match l with
  | [] => None
  | y :: l' => if Nat.eqb x y then Some 0%nat else option_map S (position x l')
  end.
Definition new_id (used : list nat) (i : nat) : nat :=
  match position i used with Some k => k | None => i end.

(** [extract_faces], meshes.py:204-254, with [return_index=True]. *)
Definition extract_faces (m : mesh) (ids : list Z) : result (mesh * list nat) :=
  bind (mapM (geti (m_faces m)) ids) (fun fs =>
  let used := used_vertices (nb_vertices m) fs in
  bind (mapM (get (m_vertices m)) used) (fun vs =>
  bind (build_mesh vs (map (face_map (new_id used)) fs)) (fun m' => Ok (m', used)))).

(** ** Transformations *)

(** meshes.py:538-573. *)
Definition translate (m : mesh) (t : vec) : mesh := Mesh (map (fun p => vadd p t) (m_vertices m)) (m_faces m).
Definition rotate (m : mesh) (a : axis) (theta : R) : mesh :=
  Mesh (map (rotate_point a theta) (m_vertices m)) (m_faces m).
(** [flip_normals], meshes.py:576-582: [np.fliplr]. *)
Definition flip_face (f : face) : face := F (fd f) (fc f) (fb f) (fa f).
Definition flip_normals (m : mesh) : mesh := Mesh (m_vertices m) (map flip_face (m_faces m)).
(** [mirror], meshes.py:584-594. *)
Definition mirror (m : mesh) (p : plane) : mesh :=
  flip_normals (Mesh (map (mirror_point p) (m_vertices m)) (m_faces m)).

(** [triangulate_quadrangles], meshes.py:610-641. The first triangle of each
    quadrangle goes to the end, the second one takes the place of the quadrangle. *)
Definition first_half (f : face) : face := F (fa f) (fb f) (fc f) (fa f).
Definition second_half (f : face) : face := F (fa f) (fc f) (fd f) (fa f).
Definition triangulate (m : mesh) : mesh :=
  let fs := m_faces m in
  Mesh (m_vertices m)
       (map (fun f => if is_tri f then f else second_half f) fs
        ++ map first_half (filter (fun f => negb (is_tri f)) fs)).

(** [heal_triangles], quality.py:304-334: [np.roll(face, 1)] up to three times. *)
Definition roll (f : face) : face := F (fd f) (fa f) (fb f) (fc f).
Definition roll_quad (f : face) : face := if is_tri f then f else roll f.
Definition heal_face (f : face) : face := roll_quad (roll_quad (roll_quad f)).
Definition heal_triangles (m : mesh) : mesh := Mesh (m_vertices m) (map heal_face (m_faces m)).

(** [remove_unused_vertices], quality.py:271-301. *)
Definition remove_unused (m : mesh) : result mesh :=
  let used := used_vertices (nb_vertices m) (m_faces m) in
  if Nat.ltb (length used) (nb_vertices m) then
    bind (mapM (get (m_vertices m)) used) (fun vs =>
    Ok (Mesh vs (map (face_map (new_id used)) (m_faces m))))
  else Ok m.

(** [remove_degenerated_faces], quality.py:337-367. The mean area of a mesh
    without face is nan. *)
Definition remove_degenerated (rtol : R) (m : mesh) : result mesh :=
  if negb (Rltb 0 rtol) then Err AssertionError else
  bind (faces_props m) (fun ps =>
  let mean := Rsum (map p_area ps) / INR (length ps) in
  Ok (Mesh (m_vertices m)
        (map fst (filter (fun fp => negb (Rltb (p_area (snd fp)) (mean * rtol))) (combine (m_faces m) ps))))).

(** [sliced_by_plane] (meshes.py:256-266) and [extract_lid] (849-870) split the
    faces in two lists of indices. The order of [list(set(range(n)) - set(ids))]
    is not specified by the language: [set_order] stands for it. *)
Section Slices.
  Variable set_order : list nat -> list nat.
  Definition others (n : nat) (ids : list nat) : list nat :=
    set_order (filter (fun i => negb (memb i ids)) (seq 0 n)).
  Definition extract (m : mesh) (ids : list nat) : result mesh :=
    bind (extract_faces m (map Z.of_nat ids)) (fun r => Ok (fst r)).
  (** The parts of the returned collection; a single part for a copy of the mesh. *)
  Definition sliced_by_plane (m : mesh) (p : plane) : result (list mesh) :=
    bind (faces_props m) (fun ps =>
    let side := positions (fun x => Rltb (distance_to_point p (p_center x)) 0) ps in
    if Nat.eqb (length side) 0 || Nat.eqb (length side) (nb_faces m) then Ok [m]
    else bind (extract m side) (fun m1 =>
         bind (extract m (others (nb_faces m) side)) (fun m2 => Ok [m1; m2]))).
  Definition face_on_plane (p : plane) (x : fprops) : bool :=
    in_plane p (p_center x) && parallel_vectors (pl_normal p) (p_normal x).
  (** The hull, then the lid. *)
  Definition extract_lid (m : mesh) (p : plane) : result (mesh * mesh) :=
    bind (faces_props m) (fun ps =>
    let lid := positions (face_on_plane p) ps in
    bind (extract m lid) (fun lid_mesh =>
    bind (extract m (others (nb_faces m) lid)) (fun hull => Ok (hull, lid_mesh)))).
End Slices.

(** [axis_aligned_bbox] and [squared_axis_aligned_bbox], meshes.py:395-430. *)
Definition Rmin_list (x : R) (l : list R) : R := fold_right Rmin x l.
Definition Rmax_list (x : R) (l : list R) : R := fold_right Rmax x l.
Definition bbox (m : mesh) : (R * R) * (R * R) * (R * R) :=
  match m_vertices m with
  | [] => ((0, 0), (0, 0), (0, 0))
  | v :: vs =>
    ((Rmin_list (vx v) (map vx vs), Rmax_list (vx v) (map vx vs)),
     (Rmin_list (vy v) (map vy vs), Rmax_list (vy v) (map vy vs)),
     (Rmin_list (vz v) (map vz vs), Rmax_list (vz v) (map vz vs)))
  end.
Definition squared_bbox (m : mesh) : (R * R) * (R * R) * (R * R) :=
  let '((x1, x2), (y1, y2), (z1, z2)) := bbox m in
  let d := Rmax (Rmax ((x2 - x1) / 2) ((y2 - y1) / 2)) ((z2 - z1) / 2) in
  let x0 := (x1 + x2) / 2 in let y0 := (y1 + y2) / 2 in let z0 := (z1 + z2) / 2 in
  ((x0 - d, x0 + d), (y0 - d, y0 + d), (z0 - d, z0 + d)).
