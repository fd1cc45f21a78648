(** Properties of the meshes of revolution: profiles turned around the vertical axis, spheres (C84). *)
From Coq Require Import Reals List Bool Arith ZArith Lia Lra Permutation.
From Verif Require Import Model_Base Model_Geometry Model_Mesh Model_Clip Spec_Mesh Spec_Tree Spec_Clip Model_Tree Model_Integrals Spec_Integrals
  Model_Quality Spec_Quality Props_Quality Spec_Grid Model_Grid Model_Box Model_Cylinder Spec_Cylinder Proofs_Sphere2 Proofs_Sphere3.
Import ListNotations.
Open Scope R_scope.

Section Oracles.
  (** Any correct sort (C22) and any order of enumeration of the sets (C53). *)
  Variable argsort : list R -> list nat.
  Hypothesis Hs : sorts argsort.
  Variable set_order : list nat -> list nat.
  Hypothesis Ho : forall l, Permutation l (set_order l).

  (** C84. The mesh made from a profile in the plane xOz is made of exactly the panels between two successive points of the profile and two successive
      meridians, all around the axis, as many equal slices as asked. For a profile going upwards, the normals point outwards. *)
  Theorem profile_is_its_panels profile n nphi : reasonable_profile profile n nphi ->
    exists t, from_profile argsort (map (fun i => V (fst (profile i)) 0 (snd (profile i))) (seq 0 (n + 1))) Oz_axis nphi = Ok t
      /\ filled t /\ sound_parts t /\ made_of t (around (around_node v0 profile nphi) n nphi) /\ length (leaves t) = nphi.
  Proof. exact (profile_made argsort Hs profile n nphi). Qed.
  (** If both ends of the profile are on the axis, then the surface is closed. Its volume is that of a pile of truncated pyramids. *)
  Theorem profile_is_closed profile n nphi : reasonable_profile profile n nphi -> fst (profile 0%nat) = 0 -> fst (profile n) = 0 ->
    exists t qs, from_profile argsort (map (fun i => V (fst (profile i)) 0 (snd (profile i))) (seq 0 (n + 1))) Oz_axis nphi = Ok t
      /\ proper_surface t qs /\ watertight qs
      /\ volume t = Ok (INR nphi / 2 * sin (2 * PI / INR nphi)
           * Rsum (map (fun i => (snd (profile (S i)) - snd (profile i))
                                 * (fst (profile i) * fst (profile i) + fst (profile i) * fst (profile (S i)) + fst (profile (S i)) * fst (profile (S i))) / 3) (seq 0 n))).
  Proof. exact (profile_closed argsort Hs profile n nphi). Qed.
  (** A sphere is made of exactly the panels between its parallels and its meridians, with or without the axial symmetry. *)
  Theorem sphere_is_its_panels radius c ntheta nphi axial : reasonable_sphere radius ntheta nphi ->
    exists t, mesh_sphere argsort set_order radius c (Z.of_nat ntheta) (Z.of_nat nphi) None axial = Ok t
      /\ is_sphere c radius ntheta nphi t /\ length (leaves t) = (if axial then nphi else 1)%nat.
  Proof. intros H. exact (sphere_ok argsort Hs set_order Ho radius ntheta nphi H c axial). Qed.
  (** It is closed. Its volume is that of the polyhedron, which tends to that of the ball when the resolution increases. *)
  Theorem sphere_is_closed radius c ntheta nphi axial : reasonable_sphere radius ntheta nphi ->
    exists t qs, mesh_sphere argsort set_order radius c (Z.of_nat ntheta) (Z.of_nat nphi) None axial = Ok t
      /\ proper_surface t qs /\ watertight qs
      /\ volume t = Ok (INR nphi / 2 * sin (2 * PI / INR nphi) * (2 / 3 * (1 + cos (PI / INR ntheta))) * (radius * radius * radius)).
  Proof. intros H. exact (sphere_shut argsort Hs set_order Ho radius ntheta nphi H c axial). Qed.
  (** The values that are refused. *)
  Theorem sphere_errors_raised radius c ntheta nphi axial :
    ((ntheta < -1)%Z -> mesh_sphere argsort set_order radius c ntheta nphi None axial = Err ValueError)
    /\ ((-1 <= ntheta)%Z -> (nphi < 0)%Z -> mesh_sphere argsort set_order radius c ntheta nphi None axial = Err AssertionError)
    /\ ((0 <= ntheta)%Z -> nphi = 0%Z -> mesh_sphere argsort set_order radius c ntheta nphi None axial = Err ZeroDivisionError)
    /\ ((ntheta = 0 \/ nphi = 0)%Z -> forall r, mesh_sphere argsort set_order radius c ntheta nphi (Some r) axial = Err ZeroDivisionError).
  Proof. exact (sphere_errors argsort set_order radius c ntheta nphi axial). Qed.
  (** C45 for spheres: with a maximal radius, the resolution is one for which half of the diagonal of a square cell on the equator is at most this radius. *)
  Theorem sphere_radius_resolution radius c ntheta0 nphi0 r axial : 0 < radius -> 0 < r -> (0 < ntheta0)%Z -> (0 < nphi0)%Z ->
    exists ntheta nphi, (0 < ntheta)%Z /\ (0 < nphi)%Z
      /\ mesh_sphere argsort set_order radius c ntheta0 nphi0 (Some r) axial = mesh_sphere argsort set_order radius c ntheta nphi None axial
      /\ sqrt ((2 * PI * radius / IZR ntheta) * (2 * PI * radius / IZR ntheta) + (2 * PI * radius / IZR nphi) * (2 * PI * radius / IZR nphi)) / 2 <= r
      /\ (sqrt ((2 * PI * radius / IZR ntheta0) * (2 * PI * radius / IZR ntheta0) + (2 * PI * radius / IZR nphi0) * (2 * PI * radius / IZR nphi0)) / 2 <= r ->
          (ntheta, nphi) = (ntheta0, nphi0)).
  Proof. exact (sphere_radius argsort set_order radius c ntheta0 nphi0 r axial). Qed.
  (** The radius of every panel of a sphere is at most the maximal radius. *)
  Theorem sphere_radius_at_most radius c ntheta0 nphi0 r axial : 0 < radius -> 0 < r -> (0 < ntheta0)%Z -> (0 < nphi0)%Z ->
    exists ntheta nphi, (0 < ntheta)%Z /\ (0 < nphi)%Z
      /\ mesh_sphere argsort set_order radius c ntheta0 nphi0 (Some r) axial = mesh_sphere argsort set_order radius c ntheta nphi None axial
      /\ (sqrt ((2 * PI * radius / IZR ntheta0) * (2 * PI * radius / IZR ntheta0) + (2 * PI * radius / IZR nphi0) * (2 * PI * radius / IZR nphi0)) / 2 <= r ->
          (ntheta, nphi) = (ntheta0, nphi0))
      /\ (reasonable_sphere radius (Z.to_nat ntheta) (Z.to_nat nphi) ->
          exists t ps, mesh_sphere argsort set_order radius c ntheta0 nphi0 (Some r) axial = Ok t
            /\ t_props t = Ok ps /\ length ps = (Z.to_nat ntheta * Z.to_nat nphi)%nat /\ Forall (fun p => p_radius p <= r) ps).
  Proof. exact (sphere_radius_most argsort Hs set_order Ho radius c ntheta0 nphi0 r axial). Qed.
End Oracles.
Print Assumptions sphere_radius_at_most.
Print Assumptions profile_is_its_panels.
Print Assumptions profile_is_closed.
Print Assumptions sphere_is_its_panels.
Print Assumptions sphere_is_closed.
Print Assumptions sphere_errors_raised.
Print Assumptions sphere_radius_resolution.

Definition enumerated (l : list nat) : list nat := l.
(** An octahedron. *)
Example sphere_example : forall axial, exists t, mesh_sphere insertion_argsort enumerated 1 (V 10 0 (-3)) 2 4 None axial = Ok t /\ is_sphere (V 10 0 (-3)) 1 2 4 t.
Proof.
  intros axial. destruct (sphere_is_its_panels insertion_argsort insertion_sorts enumerated (fun l => Permutation_refl l) 1 (V 10 0 (-3)) 2 4 axial octahedron) as (t & E & C & _). eauto.
Qed.
Example sphere_volume_example : exists t, mesh_sphere insertion_argsort enumerated 1 (V 10 0 (-3)) 2 4 None true = Ok t /\ volume t = Ok (4 / 3).
Proof.
  destruct (sphere_is_closed insertion_argsort insertion_sorts enumerated (fun l => Permutation_refl l) 1 (V 10 0 (-3)) 2 4 true octahedron) as (t & qs & E & _ & _ & Vol).
  exists t. split; [exact E|]. rewrite Vol. f_equal. replace (2 * PI / INR 4) with (PI / 2) by (cbn; field). replace (PI / INR 2) with (PI / 2) by reflexivity. rewrite sin_PI2, cos_PI2. cbn [INR]. field.
Qed.
Example profile_example : exists t qs, from_profile insertion_argsort (map (fun i => V (fst (sphere_profile 1 2 i)) 0 (snd (sphere_profile 1 2 i))) (seq 0 3)) Oz_axis 4 = Ok t
  /\ proper_surface t qs /\ watertight qs.
Proof.
  destruct (profile_is_closed insertion_argsort insertion_sorts (sphere_profile 1 2) 2 4 (sphere_reasonable 1 2 4 octahedron) (sphere_first 1 2) (sphere_last 1 2 4 octahedron)) as (t & qs & E & A & B & _).
  exists t, qs. auto.
Qed.
Example profile_parts_example : exists t, from_profile insertion_argsort (map (fun i => V (fst (sphere_profile 1 2 i)) 0 (snd (sphere_profile 1 2 i))) (seq 0 3)) Oz_axis 4 = Ok t /\ length (leaves t) = 4%nat.
Proof.
  destruct (profile_is_its_panels insertion_argsort insertion_sorts (sphere_profile 1 2) 2 4 (sphere_reasonable 1 2 4 octahedron)) as (t & E & _ & _ & _ & L). eauto.
Qed.
Example sphere_errors_example : mesh_sphere insertion_argsort enumerated 1 v0 10 0 None true = Err ZeroDivisionError.
Proof. apply sphere_errors_raised; [lia|reflexivity]. Qed.
Example sphere_radius_example : exists ntheta nphi, (0 < ntheta)%Z /\ (0 < nphi)%Z
  /\ mesh_sphere insertion_argsort enumerated 1 v0 2 4 (Some (/ 10)) true = mesh_sphere insertion_argsort enumerated 1 v0 ntheta nphi None true.
Proof. destruct (sphere_radius_resolution insertion_argsort enumerated 1 v0 2 4 (/ 10) true) as (a & b & A & B & E & _); try lra; try lia. eauto. Qed.
Example sphere_radius_panels : exists t ps, mesh_sphere insertion_argsort enumerated 1 v0 2 4 (Some 4) false = Ok t /\ t_props t = Ok ps /\ length ps = 8%nat /\ Forall (fun p => p_radius p <= 4) ps.
Proof.
  destruct (sphere_radius_at_most insertion_argsort insertion_sorts enumerated (fun l => Permutation_refl l) 1 v0 2 4 4 false) as (a & b & A & B & E & K & G); try lra; try lia.
  assert (X : (a, b) = (2, 4)%Z).
  { apply K. pose proof PI_4. pose proof PI_RGT_0. assert (L : sqrt ((2 * PI * 1 / 2) * (2 * PI * 1 / 2) + (2 * PI * 1 / 4) * (2 * PI * 1 / 4)) <= sqrt (8 * 8)).
    { apply sqrt_le_1_alt. assert ((2 * PI * 1 / 2) * (2 * PI * 1 / 2) <= 4 * 4) by (apply Rmult_le_compat; lra). assert ((2 * PI * 1 / 4) * (2 * PI * 1 / 4) <= 2 * 2) by (apply Rmult_le_compat; lra). lra. }
    rewrite sqrt_square in L by lra. lra. }
  injection X as -> ->. destruct (G octahedron) as (t & ps & P). exists t, ps. exact P.
Qed.
