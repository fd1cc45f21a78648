(** Model of the lids used to remove the irregular frequencies: [connected_components_of_waterline] (meshes/properties.py),
    [lowest_lid_position] and [generate_lid] (meshes/meshes.py) and [first_irregular_frequency_estimate] (bodies/bodies.py), for a [Mesh].
    Exact real numbers, infinities and nan instead of floats. *)
From Coq Require Import Reals List Bool Arith ZArith.
From Verif Require Import Model_Base Model_Problem Model_Geometry Model_Mesh Model_Quality Model_Clip Model_Tree Model_Body Model_Normals Model_Grid.
Import ListNotations.
Open Scope R_scope.

(** [values.max()] and [values.min()] of an array: an empty array is refused. *)
Definition array_max (l : list R) : result R := match l with [] => Err ValueError | x :: r => Ok (fold_left Rmax r x) end.
Definition array_min (l : list R) : result R := match l with [] => Err ValueError | x :: r => Ok (fold_left Rmin r x) end.
Definition span (l : list R) : result R := bind (array_max l) (fun a => bind (array_min l) (fun b => Ok (a - b))).
(** [np.arctanh]: nan outside of [[-1, 1]], infinite at the ends. *)
Definition np_arctanh (a : ext) : ext :=
  match a with
  | Fin x => if Rltb 1 (Rabs x) then NaN else if Reqb x 1 then PInf else if Reqb x (-1) then NInf else Fin (ln ((1 + x) / (1 - x)) / 2)
  | _ => NaN
  end.
(** [np.hypot]. *)
Definition np_hypot (a b : ext) : ext :=
  match a, b with
  | Fin x, Fin y => Fin (sqrt (x * x + y * y))
  | PInf, _ | NInf, _ | _, PInf | _, NInf => PInf
  | _, _ => NaN
  end.
(** Python's [min(a, b)]: the second one only if it is lower, so that a nan in second position is ignored. *)
Definition py_min (a b : ext) : ext := if ext_ltb b a then b else a.
(** The plane [Plane(normal=(0, 0, 1), point=(0, 0, z))]. *)
Definition level_plane (z : R) : plane := Plane (V 0 0 1) (V 0 0 z).

(** A loop that does not end has no value. *)
Definition ended {A} (r : option (result A)) : result A := match r with Some x => x | None => Err OtherException end.

Section Lids.
  Variable argsort : list R -> list nat.
  Variable set_order : list nat -> list nat.

  (** [np.isclose(x, z)], with the default tolerances. *)
  Definition is_close (z x : R) : bool := Rleb (Rabs (x - z)) (/ 100000000 + / 100000 * Rabs z).
  (** properties.py:273-276: the faces with a vertex at the level z. *)
  Definition crown (z : R) (m : mesh) : result mesh :=
    let fs_vertices := positions (fun v => is_close z (vz v)) (m_vertices m) in
    extract m (positions (fun f => existsb (fun i => memb i fs_vertices) (face_ids f)) (m_faces m)).
  (** [connected_components_of_waterline], properties.py:270-277. *)
  Definition components_of_waterline (z : R) (m : mesh) : result (list mesh) :=
    bind (if existsb (fun v => Rltb (z + / 100000000) (vz v)) (m_vertices m)
          then bind (clip argsort (level_plane z) vicinity m) (fun r => Ok (fst r)) else Ok m) (fun m' =>
    bind (crown z m') (fun c => ended (connected_components c))).
  (** The two nested loops, meshes.py:756-757 and bodies.py:1155-1156. *)
  Definition waterlines (m : mesh) : result (list mesh) :=
    bind (ended (connected_components m)) (fun parts =>
    bind (mapM (components_of_waterline 0) parts) (fun l => Ok (concat l))).
  (** meshes.py:758-760 and bodies.py:1157-1159. A span is a numpy number, whose inverse is infinite if it is zero. *)
  Definition waterline_p (m : mesh) : result ext :=
    bind (span (map vx (m_vertices m))) (fun x_span =>
    bind (span (map vy (m_vertices m))) (fun y_span =>
    Ok (np_hypot (np_div (Fin 1) (Fin x_span)) (np_div (Fin 1) (Fin y_span))))).

  (** [Mesh.lowest_lid_position], meshes.py:753-763. *)
  Definition lid_position_of (omega_max g : R) (p : ext) : ext :=
    np_div (ext_opp (np_arctanh (np_div (ext_mul (Fin (PI * g)) p) (Fin (omega_max * omega_max))))) (ext_mul (Fin PI) p).
  Definition lowest_lid_position (omega_max g : R) (m : mesh) : result ext :=
    bind (waterlines m) (fun comps =>
    bind (mapM waterline_p comps) (fun ps =>
    Ok (ext_mul (Fin (9 / 10)) (fold_left py_min (map (lid_position_of omega_max g) ps) (Fin 0))))).

  (** [FloatingBody.first_irregular_frequency_estimate], bodies.py:1127-1162, without the cache. *)
  Definition draft_of (m : mesh) : result R := bind (array_min (map vz (m_vertices m))) (fun z => Ok (Rabs z)).
  Definition irregular_of (g draft : R) (p : ext) : ext :=
    np_sqrt (np_div (ext_mul (Fin (PI * g)) p) (np_tanh (ext_mul (Fin (PI * draft)) p))).
  Definition irregular_loop (g draft : R) (m : mesh) : result ext :=
    bind (waterlines m) (fun comps =>
    bind (mapM waterline_p comps) (fun ps =>
    Ok (fold_left py_min (map (irregular_of g draft) ps) PInf))).
  Definition first_irregular_frequency_estimate (g : R) (m : mesh) (lid : option mesh) : result ext :=
    match lid with
    | None => bind (draft_of m) (fun draft => irregular_loop g draft m)
    | Some l => bind (draft_of l) (fun draft => if Rltb draft (/ 1000000) then Ok PInf else irregular_loop g draft m)
    end.

  (** ** [Mesh.generate_lid], meshes.py:765-836 *)
  (** meshes.py:812-819: on which side of the four edges of a face the point is. *)
  Definition side_of_edge (p a b : vec) : R := (vx p - vx a) * (vy b - vy a) - (vy p - vy a) * (vx b - vx a).
  Definition sides_of_edges (p : vec) (q : quad) : list R :=
    [side_of_edge p (qa q) (qb q); side_of_edge p (qb q) (qc q); side_of_edge p (qc q) (qd q); side_of_edge p (qd q) (qa q)].
  Definition is_above_panel (p : vec) (q : quad) : bool :=
    forallb (fun s => Rleb s 0) (sides_of_edges p q) || forallb (fun s => Rleb 0 s) (sides_of_edges p q).
  (** meshes.py:826-827. *)
  Definition needs_lid (hull : list quad) (p : vec) : bool := Nat.odd (length (filter (is_above_panel p) hull)).
  (** meshes.py:829. *)
  Definition lid_face (needing : list nat) (f : face) : bool := forallb (fun i => memb i needing) (face_ids f).
  (** [np.mean(faces_radiuses)] of a mesh with faces. *)
  Definition mean_radius (m : mesh) : result R :=
    bind (faces_props m) (fun ps => Ok (Rsum (map p_radius ps) / INR (length ps))).
  (** meshes.py:799-804. [mesh_rectangle] with its other arguments by default; it returns a [Mesh]. *)
  Definition candidate_lid (hull : mesh) (z : R) (faces_max_radius : option R) : result mesh :=
    bind (array_max (map vx (m_vertices hull))) (fun x1 => bind (array_min (map vx (m_vertices hull))) (fun x0 =>
    bind (array_max (map vy (m_vertices hull))) (fun y1 => bind (array_min (map vy (m_vertices hull))) (fun y0 =>
    bind (match faces_max_radius with Some r => Ok r | None => mean_radius hull end) (fun r =>
    bind (mesh_rectangle argsort set_order (11 / 10 * (y1 - y0)) (11 / 10 * (x1 - x0)) (V ((x1 + x0) / 2) ((y1 + y0) / 2) z) 5 5 (Some r)
            (V 0 0 (-1)) false false) (fun t =>
    match t with Leaf m => Ok m | Node _ _ => Err OtherException end)))))).
  Definition generate_lid (m : mesh) (z : R) (faces_max_radius : option R) : result mesh :=
    bind (clip argsort (level_plane z) vicinity m) (fun r => let hull := fst r in
    if nb_faces hull =? 0 then Ok (Mesh [] []) else
    bind (candidate_lid hull z faces_max_radius) (fun candidate =>
    bind (mapM (face_points (m_vertices hull)) (m_faces hull)) (fun panels =>
    let needing := positions (needs_lid panels) (m_vertices candidate) in
    let faces := filter (lid_face needing) (m_faces candidate) in
    if length faces =? 0 then Ok (Mesh [] []) else
    bind (build_mesh (m_vertices candidate) faces) (heal_leaf argsort (heal_normals set_order) true)))).
End Lids.
