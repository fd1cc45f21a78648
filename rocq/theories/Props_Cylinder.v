(** Properties of the meshes of vertical cylinders (C83). *)
From Coq Require Import Reals List Bool Arith ZArith Lia Lra Permutation.
From Verif Require Import Model_Base Model_Geometry Model_Mesh Model_Clip Spec_Mesh Spec_Tree Spec_Clip Model_Tree Model_Integrals Spec_Integrals
  Model_Quality Spec_Quality Props_Quality Spec_Grid Model_Grid Model_Box Model_Cylinder Spec_Cylinder Proofs_Cylinder11 Proofs_Cylinder12.
Import ListNotations.
Open Scope R_scope.

Section Oracles.
  (** Any correct sort (C22) and any order of enumeration of the sets (C53). *)
  Variable argsort : list R -> list nat.
  Hypothesis Hs : sorts argsort.
  Variable set_order : list nat -> list nat.
  Hypothesis Ho : forall l, Permutation l (set_order l).

  (** C83. A vertical cylinder is made of exactly the panels of its bottom, side and top, whatever the option about symmetries; all normals
      point outwards. The symmetric meshes are made of two halves or of as many slices as panels around the axis. *)
  Theorem cylinder_is_its_panels len rad c nr nt nz axial refl : reasonable_cylinder len rad nr nt nz -> axial && refl = false -> (refl = true -> Nat.even nt = true) ->
    exists t, mesh_vertical_cylinder argsort set_order len rad c (Z.of_nat nr) (Z.of_nat nt) (Z.of_nat nz) None axial refl = Ok t
      /\ is_cylinder c len rad nr nt nz t /\ length (leaves t) = (if refl then 2 else if axial then nt else 1)%nat.
  Proof. exact (cylinder_ok argsort Hs set_order Ho len rad c nr nt nz axial refl). Qed.
  (** With panels on the bottom and on the top, the surface is closed and its volume is that of the prism with a regular polygon as base. *)
  Theorem cylinder_is_closed len rad c nr nt nz axial refl : reasonable_cylinder len rad nr nt nz -> (0 < nr)%nat -> axial && refl = false -> (refl = true -> Nat.even nt = true) ->
    exists t qs, mesh_vertical_cylinder argsort set_order len rad c (Z.of_nat nr) (Z.of_nat nt) (Z.of_nat nz) None axial refl = Ok t
      /\ proper_surface t qs /\ watertight qs /\ volume t = Ok (INR nt / 2 * sin (2 * PI / INR nt) * (rad * rad) * len).
  Proof. exact (cylinder_shut argsort Hs set_order Ho len rad c nr nt nz axial refl). Qed.
  (** The values that are refused. *)
  Theorem cylinder_errors_raised len rad c nr nt nz r axial refl :
    (~ (0 < len /\ 0 < rad /\ (0 <= nr)%Z /\ (0 <= nt)%Z /\ (0 <= nz)%Z) -> mesh_vertical_cylinder argsort set_order len rad c nr nt nz r axial refl = Err AssertionError)
    /\ (0 < len -> 0 < rad -> (0 <= nr)%Z -> (0 <= nt)%Z -> (0 <= nz)%Z ->
        (axial && refl = true -> mesh_vertical_cylinder argsort set_order len rad c nr nt nz None axial refl = Err NotImplementedError)
        /\ (axial = false -> refl = true -> Z.odd nt = true -> mesh_vertical_cylinder argsort set_order len rad c nr nt nz None axial refl = Err ValueError)
        /\ ((nr = 0 \/ nt = 0 \/ nz = 0)%Z -> forall q, r = Some q -> mesh_vertical_cylinder argsort set_order len rad c nr nt nz r axial refl = Err ZeroDivisionError)).
  Proof. exact (cylinder_errors argsort set_order len rad c nr nt nz r axial refl). Qed.
  (** C45 for cylinders. With a maximal radius, the mesh is that of a resolution for which half of the diagonal of the cells is at most this radius. It is
      the given resolution when this one is fine enough. *)
  Theorem cylinder_radius_resolution len rad c nr0 nt0 nz0 r axial refl : 0 < len -> 0 < rad -> 0 < r -> (0 < nr0)%Z -> (0 < nt0)%Z -> (0 < nz0)%Z ->
    exists nr nt nz, (0 < nr)%Z /\ (0 < nt)%Z /\ (0 < nz)%Z
      /\ mesh_vertical_cylinder argsort set_order len rad c nr0 nt0 nz0 (Some r) axial refl = mesh_vertical_cylinder argsort set_order len rad c nr nt nz None axial refl
      /\ sqrt ((rad / IZR nr) * (rad / IZR nr) + (2 * PI * rad / IZR nt) * (2 * PI * rad / IZR nt)) / 2 <= r
      /\ sqrt ((2 * PI * rad / IZR nt) * (2 * PI * rad / IZR nt) + (len / IZR nz) * (len / IZR nz)) / 2 <= r
      /\ (sqrt ((rad / IZR nr0) * (rad / IZR nr0) + (2 * PI * rad / IZR nt0) * (2 * PI * rad / IZR nt0)) / 2 <= r ->
          sqrt ((2 * PI * rad / IZR nt0) * (2 * PI * rad / IZR nt0) + (len / IZR nz0) * (len / IZR nz0)) / 2 <= r -> (nr, nt, nz) = (nr0, nt0, nz0)).
  Proof. exact (cylinder_radius argsort set_order len rad c nr0 nt0 nz0 r axial refl). Qed.
  (** C45 for cylinders, partial: the radius of a panel is at most the maximal radius plus one third. *)
  Theorem cylinder_radius_partial len rad c nr0 nt0 nz0 r axial refl : 0 < len -> 0 < rad -> 0 < r -> (0 < nr0)%Z -> (0 < nt0)%Z -> (0 < nz0)%Z -> axial && refl = false ->
    exists nr nt nz, (0 < nr)%Z /\ (0 < nt)%Z /\ (0 < nz)%Z
      /\ mesh_vertical_cylinder argsort set_order len rad c nr0 nt0 nz0 (Some r) axial refl = mesh_vertical_cylinder argsort set_order len rad c nr nt nz None axial refl
      /\ (sqrt ((rad / IZR nr0) * (rad / IZR nr0) + (2 * PI * rad / IZR nt0) * (2 * PI * rad / IZR nt0)) / 2 <= r ->
          sqrt ((2 * PI * rad / IZR nt0) * (2 * PI * rad / IZR nt0) + (len / IZR nz0) * (len / IZR nz0)) / 2 <= r -> (nr, nt, nz) = (nr0, nt0, nz0))
      /\ (reasonable_cylinder len rad (Z.to_nat nr) (Z.to_nat nt) (Z.to_nat nz) -> (refl = true -> Z.even nt = true) ->
          exists t ps, mesh_vertical_cylinder argsort set_order len rad c nr0 nt0 nz0 (Some r) axial refl = Ok t
            /\ t_props t = Ok ps /\ ps <> [] /\ Forall (fun p => p_radius p <= 4 / 3 * r) ps).
  Proof. exact (cylinder_radius_most argsort Hs set_order Ho len rad c nr0 nt0 nz0 r axial refl). Qed.
  (** It can be larger than the maximal radius: the given resolution (1, 12, 1) of a cylinder of radius 1 is kept for a maximal radius 0.61, but the
      triangles of the bottom and of the top have a radius larger than 0.64. *)
  Theorem cylinder_radius_refuted : exists t ps p,
    mesh_vertical_cylinder argsort set_order 1 1 v0 1 12 1 (Some (61 / 100)) false false = Ok t /\ t_props t = Ok ps /\ In p ps /\ 61 / 100 < p_radius p.
  Proof. exact (cylinder_radius_more argsort Hs set_order Ho). Qed.
End Oracles.
Print Assumptions cylinder_radius_partial.
Print Assumptions cylinder_radius_refuted.
Print Assumptions cylinder_is_its_panels.
Print Assumptions cylinder_is_closed.
Print Assumptions cylinder_errors_raised.
Print Assumptions cylinder_radius_resolution.

Definition same_order (l : list nat) : list nat := l.
(** A cylinder with a square section. *)
Example cylinder_example : forall axial refl, axial && refl = false ->
  exists t, mesh_vertical_cylinder insertion_argsort same_order 1 1 (V 10 0 (-3)) 1 4 1 None axial refl = Ok t /\ is_cylinder (V 10 0 (-3)) 1 1 1 4 1 t.
Proof.
  intros axial refl H. destruct (cylinder_is_its_panels insertion_argsort insertion_sorts same_order (fun l => Permutation_refl l) 1 1 (V 10 0 (-3)) 1 4 1 axial refl) as (t & E & C & _);
    [exact square_section|exact H|reflexivity|]. eauto.
Qed.
Example cylinder_volume_example : exists t, mesh_vertical_cylinder insertion_argsort same_order 1 1 (V 10 0 (-3)) 1 4 1 None true false = Ok t /\ volume t = Ok 2.
Proof.
  destruct (cylinder_is_closed insertion_argsort insertion_sorts same_order (fun l => Permutation_refl l) 1 1 (V 10 0 (-3)) 1 4 1 true false) as (t & qs & E & _ & _ & Vol);
    [exact square_section|lia|reflexivity|discriminate|]. exists t. split; [exact E|]. rewrite Vol. f_equal. cbn [INR]. replace (2 * PI / (1 + 1 + 1 + 1)) with (PI / 2) by field. rewrite sin_PI2. field.
Qed.
Example cylinder_radius_example : exists nr nt nz, (1 < nr)%Z
  /\ mesh_vertical_cylinder insertion_argsort same_order 1 1 v0 1 4 1 (Some (/ 10)) true false = mesh_vertical_cylinder insertion_argsort same_order 1 1 v0 nr nt nz None true false.
Proof.
  destruct (cylinder_radius_resolution insertion_argsort same_order 1 1 v0 1 4 1 (/ 10) true false) as (nr & nt & nz & A & _ & _ & E & B & _); try lra; try lia.
  exists nr, nt, nz. split; [|exact E]. destruct (Z.lt_ge_cases 1 nr) as [H|H]; [exact H|]. replace nr with 1%Z in B by lia. set (y := 2 * PI * 1 / IZR nt) in *.
  assert (1 <= sqrt (1 / 1 * (1 / 1) + y * y)) by (rewrite <- sqrt_1 at 1; apply sqrt_le_1_alt; nra). lra.
Qed.
Example cylinder_radius_panels : exists t ps, mesh_vertical_cylinder insertion_argsort same_order 1 1 v0 1 12 1 (Some (61 / 100)) true false = Ok t
  /\ t_props t = Ok ps /\ ps <> [] /\ Forall (fun p => p_radius p <= 4 / 3 * (61 / 100)) ps.
Proof.
  destruct (cylinder_radius_partial insertion_argsort insertion_sorts same_order (fun l => Permutation_refl l) 1 1 v0 1 12 1 (61 / 100) true false) as (nr & nt & nz & P1 & P2 & P3 & E & K & G); try lra; try lia; try reflexivity.
  pose proof PI_4 as P4. pose proof PI_RGT_0 as P0.
  assert (B : 0 <= (2 * PI * 1 / 12) * (2 * PI * 1 / 12) <= 4 / 9) by (assert (0 <= 2 * PI * 1 / 12 <= 2 / 3) by lra; nra).
  assert (Q : (nr, nt, nz) = (1, 12, 1)%Z) by (apply K; apply half_hypot; lra). injection Q as -> -> ->. apply G; [exact twelve_sides|discriminate].
Qed.
