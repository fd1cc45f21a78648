(** Vocabulary of the properties of the meshes of revolution. *)
From Coq Require Import Reals List Bool Arith.
From Verif Require Import Model_Base Model_Geometry Model_Mesh Model_Tree Spec_Mesh Spec_Clip Spec_Tree Spec_Grid.
Import ListNotations.
Open Scope R_scope.

(** The node of the row i (at the distance [fst (profile i)] of the vertical axis through [c], at the height [snd (profile i)] above it) on the meridian j out of [nt]. *)
Definition revolved_node (c : vec) (profile : nat -> R * R) (nt i j : nat) : vec :=
  vadd c (V (fst (profile i) * sin (2 * PI * INR j / INR nt)) (fst (profile i) * cos (2 * PI * INR j / INR nt)) (snd (profile i))).
(** The panel between two rows and two meridians, and all the panels. The corners turn counterclockwise when seen from outside if the rows go upwards. *)
Definition revolved_panel (P : nat -> nat -> vec) (i j : nat) : polygon := (P i j, P (S i) j, P (S i) (S j), P i (S j)).
Definition revolved (P : nat -> nat -> vec) (n nt : nat) : list polygon := flat_map (fun i => map (revolved_panel P i) (seq 0 nt)) (seq 0 n).
(** The profile of a cylinder: [nr] panels along the radius of the bottom, [nz] along the height, [nr] along the radius of the top. *)
Definition cylinder_profile (length radius : R) (nr nz i : nat) : R * R :=
  if Nat.ltb i nr then (INR i * radius / INR nr, - length / 2)
  else if Nat.leb i (nr + nz) then (radius, - length / 2 + INR (i - nr) * length / INR nz)
  else (INR (nr + nz + nr - i) * radius / INR nr, length / 2).
(** The area of a panel between two rows (a trapezoid, a triangle if one row is on the axis). *)
Definition strip_area (p q : R * R) (nt : nat) : R :=
  (fst p + fst q) * sin (PI / INR nt) * sqrt ((snd q - snd p) * (snd q - snd p) + (fst q - fst p) * (fst q - fst p) * (cos (PI / INR nt) * cos (PI / INR nt))).
(** No panel is smaller than 1e-5 times another one (smaller ones would be seen as degenerated faces), two different nodes are not closer than 1e-6. *)
Definition comparable_strips (profile : nat -> R * R) (n nt : nat) : Prop :=
  forall i i', (i < n)%nat -> (i' < n)%nat -> strip_area (profile i) (profile (S i)) nt / 100000 <= strip_area (profile i') (profile (S i')) nt.
Definition spread_nodes (P : nat -> nat -> vec) (n nt : nat) : Prop :=
  forall i j i' j', (i <= n)%nat -> (j < nt)%nat -> (i' <= n)%nat -> (j' < nt)%nat -> P i j = P i' j' \/ / 1000000 <= dist (P i j) (P i' j').
(** The area of the panels is not negligible. *)
Definition visible_strips (profile : nat -> R * R) (n nt : nat) : Prop :=
  forall i, (i < n)%nat -> / 1000000000000 <= strip_area (profile i) (profile (S i)) nt.
(** The mesh of a vertical cylinder of center [c]: its panels are those of the bottom, of the side and of the top, each of them once, with the corners in the same order up to the choice of the first one. Without panel along the height, the side still is one strip between the bottom and the top. *)
Definition is_cylinder (c : vec) (length radius : R) (nr nt nz : nat) (t : tree) : Prop :=
  filled t /\ sound_parts t /\ made_of t (revolved (revolved_node c (cylinder_profile length radius nr (Nat.max 1 nz)) nt) (nr + Nat.max 1 nz + nr) nt).
(** The panels are neither too small (1e-6) nor too different from each other. *)
Definition reasonable_cylinder (length radius : R) (nr nt nz : nat) : Prop :=
  0 < length /\ 0 < radius /\ (3 <= nt)%nat /\ (0 < nr \/ 0 < nz)%nat
  /\ / 1000000 <= length / INR (Nat.max 1 nz) /\ / 1000000 <= radius / INR (Nat.max 1 nr) /\ / 1000000 <= 2 * (radius / INR (Nat.max 1 nr)) * sin (PI / INR nt)
  /\ visible_strips (cylinder_profile length radius nr (Nat.max 1 nz)) (nr + Nat.max 1 nz + nr) nt
  /\ comparable_strips (cylinder_profile length radius nr (Nat.max 1 nz)) (nr + Nat.max 1 nz + nr) nt.
(** Surfaces of revolution around a vertical axis, the first meridian being in the direction x. The rows go upwards and the corners turn counterclockwise when seen from outside. *)
Definition around_node (c : vec) (profile : nat -> R * R) (nt i j : nat) : vec :=
  vadd c (V (fst (profile i) * cos (2 * PI * INR j / INR nt)) (fst (profile i) * sin (2 * PI * INR j / INR nt)) (snd (profile i))).
Definition around (P : nat -> nat -> vec) (n nt : nat) : list polygon := flat_map (fun i => map (fun j => (P i j, P i (S j), P (S i) (S j), P (S i) j)) (seq 0 nt)) (seq 0 n).
(** Two points of the profile, and two successive nodes of a row, are at least at 1e-6 from each other; only the ends of the profile can be on the axis. *)
Definition reasonable_profile (profile : nat -> R * R) (n nt : nat) : Prop :=
  (0 < n)%nat /\ (3 <= nt)%nat /\ (forall i, (i <= n)%nat -> 0 <= fst (profile i)) /\ (forall i, (0 < i < n)%nat -> 0 < fst (profile i))
  /\ (n = 1%nat -> ~ (fst (profile 0%nat) = 0 /\ fst (profile n) = 0))
  /\ (forall i i', (i <= n)%nat -> (i' <= n)%nat -> i <> i' ->
      / 1000000 <= sqrt ((fst (profile i) - fst (profile i')) * (fst (profile i) - fst (profile i')) + (snd (profile i) - snd (profile i')) * (snd (profile i) - snd (profile i'))))
  /\ (forall i, (i <= n)%nat -> 0 < fst (profile i) -> / 1000000 <= 2 * fst (profile i) * sin (PI / INR nt))
  /\ visible_strips profile n nt.
(** A sphere. *)
Definition sphere_profile (radius : R) (n i : nat) : R * R := (radius * sin (PI * INR i / INR n), - radius * cos (PI * INR i / INR n)).
Definition is_sphere (c : vec) (radius : R) (ntheta nphi : nat) (t : tree) : Prop :=
  filled t /\ sound_parts t /\ made_of t (around (around_node c (sphere_profile radius ntheta) nphi) ntheta nphi).
Definition reasonable_sphere (radius : R) (ntheta nphi : nat) : Prop :=
  0 < radius /\ (2 <= ntheta)%nat /\ (3 <= nphi)%nat
  /\ / 1000000 <= 2 * radius * sin (PI / (2 * INR ntheta)) /\ / 1000000 <= 2 * radius * sin (PI / INR ntheta) * sin (PI / INR nphi)
  /\ visible_strips (sphere_profile radius ntheta) ntheta nphi /\ comparable_strips (sphere_profile radius ntheta) ntheta nphi.
