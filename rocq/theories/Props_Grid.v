(** Properties of the structured meshes (C44, C45, C54). *)
From Coq Require Import Reals List Bool Arith ZArith Lia Lra Permutation.
From Verif Require Import Model_Base Model_Geometry Model_Mesh Model_Clip Spec_Mesh Spec_Tree Spec_Clip Model_Tree
  Model_Quality Spec_Quality Props_Quality Spec_Normals Model_Grid Spec_Grid Proofs_Geometry Proofs_Grid6 Proofs_Grid7 Proofs_Grid8.
Import ListNotations.
Open Scope R_scope.

(** C44. The free surface is made of the cells of the grid: the vertices of the faces exist, every vertex is used, the face number
    i ny + j is the cell (i, j), two neighbours share the two ends of a side and are oriented in the same way. *)
Theorem free_surface_is_the_grid x0 x1 nx y0 y1 ny : (0 < nx)%nat -> (0 < ny)%nat ->
  exists m, free_surface (x0, x1) nx (y0, y1) ny = Ok m /\ valid m /\ all_used m
    /\ length (m_vertices m) = ((nx + 1) * (ny + 1))%nat /\ length (m_faces m) = (nx * ny)%nat
    /\ (forall i j, (i < nx)%nat -> (j < ny)%nat -> let P := surface_node x0 x1 nx y0 y1 ny in
        face_is m (i * ny + j) (P i j) (P i (S j)) (P (S i) (S j)) (P (S i) j))
    /\ conformal (m_faces m) /\ consistent (m_faces m).
Proof.
  intros Nx Ny. destruct (free_surface_built x0 x1 nx y0 y1 ny Nx Ny) as (m & A & B & C & D & E & G & H & I & _). exists m. auto 9.
Qed.
Print Assumptions free_surface_is_the_grid.
Example free_surface_is_the_grid_example : exists m, free_surface (-50, 50) 3 (-20, 20) 2 = Ok m /\ length (m_vertices m) = 12%nat /\ length (m_faces m) = 6%nat
  /\ face_is m 3 (V (-50 + 1 * (50 - -50) / 3) (-20 + 1 * (20 - -20) / 2) 0) (V (-50 + 1 * (50 - -50) / 3) (-20 + 2 * (20 - -20) / 2) 0)
              (V (-50 + 2 * (50 - -50) / 3) (-20 + 2 * (20 - -20) / 2) 0) (V (-50 + 2 * (50 - -50) / 3) (-20 + 1 * (20 - -20) / 2) 0).
Proof.
  destruct (free_surface_is_the_grid (-50) 50 3 (-20) 20 2) as (m & E & _ & _ & A & B & C & _); [lia|lia|]. exists m. split; [exact E|]. split; [exact A|]. split; [exact B|].
  pose proof (C 1%nat 1%nat ltac:(lia) ltac:(lia)) as X. cbn zeta in X. unfold surface_node in X.
  replace (INR 1) with 1 in X by reflexivity. replace (INR 2) with 2 in X by (cbn; lra). replace (INR 3) with 3 in X by (cbn; lra). exact X.
Qed.

(** The panels together have the announced area, and with increasing ranges all the normals point downwards. *)
Theorem free_surface_area_is_covered x0 x1 nx y0 y1 ny m : (0 < nx)%nat -> (0 < ny)%nat ->
  / 1000000000000 <= (Rabs (x1 - x0) / INR nx) * (Rabs (y1 - y0) / INR ny) -> free_surface (x0, x1) nx (y0, y1) ny = Ok m ->
  exists ps, faces_props m = Ok ps /\ length ps = (nx * ny)%nat
    /\ Rsum (map p_area ps) = free_surface_area (x0, x1) (y0, y1)
    /\ (x0 < x1 -> y0 < y1 -> Forall (fun p => p_normal p = V 0 0 (-1)) ps).
Proof. exact (free_surface_panels x0 x1 nx y0 y1 ny m). Qed.
Print Assumptions free_surface_area_is_covered.
Example free_surface_area_example : exists m ps, free_surface (-50, 50) 3 (-20, 20) 2 = Ok m /\ faces_props m = Ok ps /\ Rsum (map p_area ps) = 4000.
Proof.
  destruct (free_surface_is_the_grid (-50) 50 3 (-20) 20 2) as (m & E & _); [lia|lia|].
  destruct (free_surface_area_is_covered (-50) 50 3 (-20) 20 2 m) as (ps & A & _ & B & _); [lia|lia| |exact E|].
  - rewrite !Rabs_pos_eq by lra. cbn. lra.
  - exists m, ps. split; [exact E|]. split; [exact A|]. rewrite B. unfold free_surface_area. cbn [fst snd]. rewrite !Rabs_pos_eq by lra. lra.
Qed.

Section Oracles.
  (** Any correct sort (C22) and any order of enumeration of the sets (C53). *)
  Variable argsort : list R -> list nat.
  Hypothesis Hs : sorts argsort.
  Variable set_order : list nat -> list nat.
  Hypothesis Ho : forall l, Permutation l (set_order l).

  (** C44. A generated rectangle is made of nw nh equal panels with the requested normal; they are exactly the cells of the rectangle with
      the requested centre and dimensions, whatever the option about symmetries; its directions are those of the initial rectangle (drawn in the plane
      yOz without symmetry, xOy with a symmetry), turned by the smallest rotation giving the requested normal. *)
  Theorem rectangle_is_the_grid w h c nw0 nh0 r n tr rf nw nh : 0 < w -> 0 < h -> (0 < nw0)%Z -> (0 < nh0)%Z ->
    refined w h nw0 nh0 r = Ok (Z.of_nat nw, Z.of_nat nh) -> (0 < nw)%nat -> (0 < nh)%nat -> / 1000000 <= w / INR nw -> / 1000000 <= h / INR nh ->
    unit_vector n -> alignable (if tr || rf then e_z else V (-1) 0 0) n -> tr && rf = false -> (rf = true -> Nat.even nw = true) -> (tr = true -> (2 <= nw)%nat) ->
    exists l t, mesh_rectangle argsort set_order w h c nw0 nh0 r n tr rf = Ok t /\ turns l (if tr || rf then e_z else V (-1) 0 0) n
      /\ is_rectangle w h nw nh c (l e_y) (l (if tr || rf then e_x else e_z)) n t.
  Proof. exact (mesh_rectangle_ok argsort Hs set_order Ho w h c nw0 nh0 r n tr rf nw nh). Qed.
  (** The cases where no mesh is returned. *)
  Theorem rectangle_errors w h c nw0 nh0 r n tr rf :
    (~ (0 < w /\ 0 < h /\ (0 < nw0)%Z /\ (0 < nh0)%Z) -> mesh_rectangle argsort set_order w h c nw0 nh0 r n tr rf = Err AssertionError)
    /\ (0 < w -> 0 < h -> (0 < nw0)%Z -> (0 < nh0)%Z -> forall nw nh, refined w h nw0 nh0 r = Ok (nw, nh) ->
        (tr = true -> rf = true -> mesh_rectangle argsort set_order w h c nw0 nh0 r n tr rf = Err NotImplementedError)
        /\ (tr = false -> rf = true -> Z.odd nw = true -> mesh_rectangle argsort set_order w h c nw0 nh0 r n tr rf = Err ValueError)).
  Proof. exact (mesh_rectangle_errors argsort set_order w h c nw0 nh0 r n tr rf). Qed.
  (** The translation symmetry of a single strip is refused. *)
  Theorem rectangle_single_strip w h c nw0 nh0 r n nh : 0 < w -> 0 < h -> (0 < nw0)%Z -> (0 < nh0)%Z ->
    refined w h nw0 nh0 r = Ok (1%Z, Z.of_nat nh) -> (0 < nh)%nat -> / 1000000 <= w -> / 1000000 <= h / INR nh ->
    mesh_rectangle argsort set_order w h c nw0 nh0 r n true false = Err AssertionError.
  Proof. exact (mesh_rectangle_one argsort Hs set_order Ho w h c nw0 nh0 r n nh). Qed.

  (** C45. Whenever a rectangle is returned for a maximal radius, all its panels are at most this large. *)
  Theorem rectangle_radius_at_most w h c nw0 nh0 r n tr rf t : / 500000 <= w -> / 500000 <= h -> (0 < nw0)%Z -> (0 < nh0)%Z ->
    / 1000000 <= w / IZR nw0 -> / 1000000 <= h / IZR nh0 -> / 500000 <= r -> unit_vector n -> alignable (if tr || rf then e_z else V (-1) 0 0) n ->
    mesh_rectangle argsort set_order w h c nw0 nh0 (Some r) n tr rf = Ok t ->
    exists ps, t_props t = Ok ps /\ ps <> [] /\ Forall (fun p => p_radius p <= r) ps.
  Proof.
    intros A B C D E G H I J K. destruct (mesh_rectangle_radius argsort Hs set_order Ho w h c nw0 nh0 r n tr rf t A B C D E G H I J K) as (nw & nh & u & v & Nw & Nh & (_ & _ & _ & ps & Ep & Lp & Fp) & Rr).
    exists ps. split; [exact Ep|]. split; [destruct ps; [cbn in Lp; lia|discriminate]|]. eapply Forall_impl; [|exact Fp]. intros p (_ & _ & ->). exact Rr.
  Qed.
  (** Without symmetry a mesh is always returned. *)
  Theorem rectangle_radius_reached w h c nw0 nh0 r n : / 500000 <= w -> / 500000 <= h -> (0 < nw0)%Z -> (0 < nh0)%Z ->
    / 1000000 <= w / IZR nw0 -> / 1000000 <= h / IZR nh0 -> / 500000 <= r -> unit_vector n -> alignable (V (-1) 0 0) n ->
    exists t, mesh_rectangle argsort set_order w h c nw0 nh0 (Some r) n false false = Ok t.
  Proof. exact (mesh_rectangle_returns argsort Hs set_order Ho w h c nw0 nh0 r n). Qed.

  (** C54. With the default normal, the rectangle does not depend on the symmetries. *)
  Theorem rectangle_symmetry_same_panels_partial w h c nw0 nh0 r tr rf nw nh : 0 < w -> 0 < h -> (0 < nw0)%Z -> (0 < nh0)%Z ->
    refined w h nw0 nh0 r = Ok (Z.of_nat nw, Z.of_nat nh) -> (0 < nw)%nat -> (0 < nh)%nat -> / 1000000 <= w / INR nw -> / 1000000 <= h / INR nh ->
    tr && rf = false -> (rf = true -> Nat.even nw = true) -> (tr = true -> (2 <= nw)%nat) ->
    exists t, mesh_rectangle argsort set_order w h c nw0 nh0 r e_z tr rf = Ok t /\ is_rectangle w h nw nh c e_y e_x e_z t.
  Proof. exact (same_flat argsort Hs set_order Ho w h c nw0 nh0 r tr rf nw nh). Qed.
  (** With another normal the width and the height can be exchanged. *)
  Theorem rectangle_symmetry_same_panels_refuted :
    ~ (forall w h c nw nh n t t', unit_vector n -> mesh_rectangle argsort set_order w h c nw nh None n false false = Ok t ->
       mesh_rectangle argsort set_order w h c nw nh None n false true = Ok t' -> exists qs, made_of t qs /\ made_of t' qs).
  Proof.
    intros H. destruct (exchanged argsort Hs set_order Ho) as (t & t' & E & E' & N). apply N. exact (H _ _ _ _ _ _ _ _ ey_unit E E').
  Qed.
  (** A normal which is not a unit vector is accepted, and the normals of the panels do not have its direction. *)
  Theorem rectangle_normal_direction_refuted :
    ~ (forall w h c nw nh n t p ps, n <> v0 -> mesh_rectangle argsort set_order w h c nw nh None n false false = Ok t -> t_props t = Ok (p :: ps) ->
       cross (p_normal p) n = v0).
  Proof.
    intros H. destruct (not_unit argsort Hs set_order Ho) as (t & E & p & ps & Ep & Hn).
    assert (X : cross (p_normal p) (V 1 1 0) = v0) by (eapply H; [|exact E|exact Ep]; intros K; injection K; lra).
    rewrite Hn in X. apply (f_equal vz) in X. unfold cross in X. cbn in X. lra.
  Qed.
End Oracles.
Print Assumptions rectangle_is_the_grid.
Print Assumptions rectangle_errors.
Print Assumptions rectangle_single_strip.
Print Assumptions rectangle_radius_at_most.
Print Assumptions rectangle_radius_reached.
Print Assumptions rectangle_symmetry_same_panels_partial.
Print Assumptions rectangle_symmetry_same_panels_refuted.
Print Assumptions rectangle_normal_direction_refuted.

(** The default rectangle with a reflection symmetry. *)
Example rectangle_example : exists t, mesh_rectangle insertion_argsort (fun l => l) 5 5 v0 4 5 None e_z false true = Ok t /\ is_rectangle 5 5 4 5 v0 e_y e_x e_z t.
Proof.
  apply (rectangle_symmetry_same_panels_partial insertion_argsort insertion_sorts (fun l => l) (fun l => Permutation_refl l));
    try lra; try lia; try reflexivity; try discriminate; cbn; lra.
Qed.
(** Four panels of width 1 are too large for the radius 1/2: the width 4 is cut in ceil(4 / (sqrt 2 / 2)) = 6. *)
Example rectangle_radius_example : exists t ps, mesh_rectangle insertion_argsort (fun l => l) 4 4 v0 4 4 (Some (/ 2)) e_z false false = Ok t
  /\ t_props t = Ok ps /\ ps <> [] /\ Forall (fun p => p_radius p <= / 2) ps.
Proof.
  destruct (rectangle_radius_reached insertion_argsort insertion_sorts (fun l => l) (fun l => Permutation_refl l) 4 4 v0 4 4 (/ 2) e_z) as [t E];
    try lra; try lia; [exact ez_unit|exact start_up|].
  exists t. destruct (rectangle_radius_at_most insertion_argsort insertion_sorts (fun l => l) (fun l => Permutation_refl l) 4 4 v0 4 4 (/ 2) e_z false false t) as (ps & A & B & C);
    try lra; try lia; [exact ez_unit|exact start_up|exact E|]. exists ps. auto.
Qed.
(** A single strip. *)
Example rectangle_single_strip_example : mesh_rectangle insertion_argsort (fun l => l) 5 5 v0 1 5 None e_z true false = Err AssertionError.
Proof.
  apply (rectangle_single_strip insertion_argsort insertion_sorts (fun l => l) (fun l => Permutation_refl l) 5 5 v0 1 5 None e_z 5); try lra; try lia; try reflexivity. cbn. lra.
Qed.
