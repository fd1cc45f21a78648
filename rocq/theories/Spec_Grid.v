(** Vocabulary of the properties of structured meshes. *)
From Coq Require Import Reals List Arith Permutation.
From Verif Require Import Model_Base Model_Geometry Model_Mesh Model_Clip Model_Tree Spec_Mesh Spec_Tree Spec_Clip.
Import ListNotations.
Open Scope R_scope.

(** The cell (i, j) of a grid whose node (i, j) is [P i j]. *)
Definition cell (P : nat -> nat -> vec) (i j : nat) : polygon := (P i j, P i (S j), P (S i) (S j), P (S i) j).
(** All the cells, row by row. *)
Definition cells (P : nat -> nat -> vec) (nx ny : nat) : list polygon :=
  flat_map (fun i => map (cell P i) (seq 0 ny)) (seq 0 nx).
(** The nodes of a horizontal grid on a range of x and a range of y. *)
Definition surface_node (x0 x1 : R) (nx : nat) (y0 y1 : R) (ny : nat) (i j : nat) : vec :=
  V (x0 + INR i * (x1 - x0) / INR nx) (y0 + INR j * (y1 - y0) / INR ny) 0.
(** The nodes of a rectangle with the given centre, directions and dimensions. *)
Definition rectangle_node (center u v : vec) (width height : R) (nw nh i j : nat) : vec :=
  vadd center (vadd (vscale (INR i * width / INR nw - width / 2) u) (vscale (INR j * height / INR nh - height / 2) v)).
(** Orthogonal unit vectors of the plane whose normal is [n]. *)
Definition frame (u v n : vec) : Prop := dot u u = 1 /\ dot v v = 1 /\ dot u v = 0 /\ cross v u = n.
(** The faces of the mesh are the given polygons, in any order and starting from any corner. *)
Definition made_of (t : tree) (qs : list polygon) : Prop :=
  exists qs' qs'', tree_polygons t qs'' /\ Permutation qs qs' /\ Forall2 same_polygon qs' qs''.
(** Two unit vectors which are the same, opposite, or whose directions differ by more than a rounding error. *)
Definition alignable (N n : vec) : Prop := n = N \/ n = vopp N \/ / 1000000 <= norm (cross N n).
(** A rotation bringing [N] on [n], which does not move the direction orthogonal to both, and which is the identity if they are the same. If
    they are opposite, the direction that is not moved is orthogonal to the x axis, or to the y axis if they are along the x axis. *)
Definition turns (l : vec -> vec) (N n : vec) : Prop :=
  (forall k x, l (vscale k x) = vscale k (l x)) /\ (forall x y, l (vadd x y) = vadd (l x) (l y))
  /\ (forall x y, dot (l x) (l y) = dot x y) /\ (forall x y, cross (l x) (l y) = l (cross x y))
  /\ l N = n /\ l (cross N n) = cross N n /\ (n = N -> forall x, l x = x)
  /\ (n = vopp N -> (cross N e_x = v0 -> l (cross N e_y) = cross N e_y) /\ (/ 1000000 <= norm (cross N e_x) -> l (cross N e_x) = cross N e_x)).
(** The properties of a panel: its area, normal and radius. *)
Definition panel_is (area radius : R) (n : vec) (p : fprops) : Prop := p_area p = area /\ p_normal p = n /\ p_radius p = radius.
(** In each part of the mesh all the indices are valid, all the vertices are used and no vertex is duplicated (neighbouring panels share their vertices). *)
Definition sound_parts (t : tree) : Prop := forall m, In m (leaves t) -> valid m /\ all_used m /\ NoDup (m_vertices m).
(** A mesh of a rectangle: its directions, centre, dimensions and numbers of panels, and the area, normal and radius of each panel. *)
Definition is_rectangle (w h : R) (nw nh : nat) (c u v n : vec) (t : tree) : Prop :=
  frame u v n /\ sound_parts t /\ made_of t (cells (rectangle_node c u v w h nw nh) nw nh)
  /\ exists ps, t_props t = Ok ps /\ length ps = (nw * nh)%nat
     /\ Forall (panel_is (w / INR nw * (h / INR nh)) (sqrt (w / INR nw * (w / INR nw) + h / INR nh * (h / INR nh)) / 2) n) ps.
