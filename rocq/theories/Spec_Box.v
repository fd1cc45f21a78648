(** Vocabulary of the properties of rectangular boxes. *)
From Coq Require Import Reals List Bool Arith Permutation.
From Verif Require Import Model_Base Model_Geometry Model_Mesh Model_Clip Model_Tree Spec_Mesh Spec_Tree Spec_Clip Model_Box Spec_Grid.
Import ListNotations.
Open Scope R_scope.

(** The point (x, y, z) of the regular grid of nw nt nh cells of a box with the given centre and dimensions. *)
Definition grid_point : Type := nat * nat * nat.
Definition box_node (c : vec) (w t h : R) (nw nt nh : nat) (p : grid_point) : vec :=
  let '(x, y, z) := p in
  vadd c (V (INR x * w / INR nw - w / 2) (INR y * t / INR nt - t / 2) (INR z * h / INR nh - h / 2)).
Definition box_sides : list box_side := [LeftSide; RightSide; FrontSide; BackSide; TopSide; BottomSide].
(** The numbers of panels of a side, and its panel (i, j); the corners turn counterclockwise around the outward normal. *)
Definition side_count (nw nt nh : nat) (s : box_side) : nat * nat :=
  match s with
  | LeftSide | RightSide => (nt, nh)
  | FrontSide | BackSide => (nw, nh)
  | TopSide | BottomSide => (nw, nt)
  end.
Definition side_panel (nw nt nh : nat) (s : box_side) (i j : nat) : grid_point * grid_point * grid_point * grid_point :=
  match s with
  | LeftSide => ((0, i, j), (0, i, S j), (0, S i, S j), (0, S i, j))
  | RightSide => ((nw, i, j), (nw, S i, j), (nw, S i, S j), (nw, i, S j))
  | FrontSide => ((i, 0, j), (S i, 0, j), (S i, 0, S j), (i, 0, S j))
  | BackSide => ((i, nt, j), (i, nt, S j), (S i, nt, S j), (S i, nt, j))
  | TopSide => ((i, j, nh), (S i, j, nh), (S i, S j, nh), (i, S j, nh))
  | BottomSide => ((i, j, 0), (i, S j, 0), (S i, S j, 0), (S i, j, 0))
  end%nat.
Definition placed (f : grid_point -> vec) (q : grid_point * grid_point * grid_point * grid_point) : polygon :=
  let '(a, b, c, d) := q in (f a, f b, f c, f d).
(** All the panels of a side; the panels of the sides that are present. *)
Definition side_panels (c : vec) (w t h : R) (nw nt nh : nat) (s : box_side) : list polygon :=
  flat_map (fun i => map (fun j => placed (box_node c w t h nw nt nh) (side_panel nw nt nh s i j)) (seq 0 (snd (side_count nw nt nh s))))
           (seq 0 (fst (side_count nw nt nh s))).
Definition box_panels (c : vec) (w t h : R) (nw nt nh : nat) (present : box_side -> bool) : list polygon :=
  flat_map (side_panels c w t h nw nt nh) (filter present box_sides).

(** The outward normal of a side, its distance to the centre, and the lengths of the two edges of its panels. *)
Definition side_normal (s : box_side) : vec :=
  match s with
  | LeftSide => V (-1) 0 0 | RightSide => V 1 0 0 | FrontSide => V 0 (-1) 0
  | BackSide => V 0 1 0 | TopSide => V 0 0 1 | BottomSide => V 0 0 (-1)
  end.
Definition side_distance (w t h : R) (s : box_side) : R :=
  match s with LeftSide | RightSide => w / 2 | FrontSide | BackSide => t / 2 | TopSide | BottomSide => h / 2 end.
Definition side_edges (w t h : R) (nw nt nh : nat) (s : box_side) : R * R :=
  match s with
  | LeftSide | RightSide => (t / INR nt, h / INR nh)
  | FrontSide | BackSide => (w / INR nw, h / INR nh)
  | TopSide | BottomSide => (w / INR nw, t / INR nt)
  end.
(** The area of the panels of a side. No panel is smaller than 1e-5 times another one (smaller ones would be seen as degenerated faces). *)
Definition panel_area (w t h : R) (nw nt nh : nat) (s : box_side) : R := let '(a, b) := side_edges w t h nw nt nh s in a * b.
Definition comparable (w t h : R) (nw nt nh : nat) (present : box_side -> bool) : Prop :=
  forall s s', present s = true -> present s' = true -> panel_area w t h nw nt nh s / 100000 <= panel_area w t h nw nt nh s'.
(** The properties of a panel of a side. *)
Definition side_panel_is (c : vec) (w t h : R) (nw nt nh : nat) (s : box_side) (p : fprops) : Prop :=
  let '(a, b) := side_edges w t h nw nt nh s in
  panel_is (a * b) (sqrt (a * a + b * b) / 2) (side_normal s) p
  /\ dot (vsub (p_center p) c) (side_normal s) = side_distance w t h s.
(** A mesh of the given sides of a box. *)
Definition is_box (c : vec) (w t h : R) (nw nt nh : nat) (present : box_side -> bool) (T : tree) : Prop :=
  sound_parts T /\ made_of T (box_panels c w t h nw nt nh present)
  /\ exists ps, t_props T = Ok ps /\ Forall (fun p => exists s, present s = true /\ side_panel_is c w t h nw nt nh s p) ps.
(** With the reflection symmetries, the right side is the image of the left side and the back side of the front side. *)
Definition shown (reflection : bool) (missing : box_side -> bool) (s : box_side) : bool :=
  negb (missing (if reflection then match s with RightSide => LeftSide | BackSide => FrontSide | _ => s end else s)).
