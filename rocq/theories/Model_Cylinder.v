(** Model of the meshes of vertical cylinders and spheres (meshes/predefined/cylinders.py, spheres.py). Exact real numbers instead of floats. *)
From Coq Require Import Reals List Bool Arith ZArith.
From Verif Require Import Model_Base Model_Geometry Model_Mesh Model_Tree Model_Body Model_Normals Model_Grid Model_Box.
Import ListNotations.
Open Scope R_scope.

Section Cylinders.
  Variable argsort : list R -> list nat.
  Variable set_order : list nat -> list nat.

  (** cylinders.py:134-141: the assertions on the values. *)
  Definition cylinder_checks (length radius : R) (nr nt nz : Z) : bool :=
    Rltb 0 length && Rltb 0 radius && (0 <=? nr)%Z && (0 <=? nt)%Z && (0 <=? nz)%Z.
  (** cylinders.py:143-153. *)
  Definition refined_cylinder (length radius : R) (nr nt nz : Z) (max_radius : option R) : result (Z * Z * Z) :=
    match max_radius with
    | None => Ok (nr, nt, nz)
    | Some r =>
      if (nr =? 0)%Z || (nt =? 0)%Z || (nz =? 0)%Z then Err ZeroDivisionError else
      let dr := radius / IZR nr in let dtheta := 2 * PI * radius / IZR nt in let dz := length / IZR nz in
      if Rltb r (Rmax (hypot dr dtheta / 2) (hypot dtheta dz / 2)) then
        if Reqb r 0 then Err OtherException
        else Ok (ceil (radius / (sqrt 2 * r)), (2 * ceil (PI * radius / (sqrt 2 * r)))%Z, ceil (length / (sqrt 2 * r)))
      else Ok (nr, nt, nz)
    end.
  (** cylinders.py:182-193: the distances to the axis and the heights of the rows of nodes. *)
  Definition cylinder_rows (length radius : R) (nr nz : nat) : list (R * R) :=
    let zs := linspace (- length / 2) (length / 2) (nz + 1) in
    if Nat.ltb 0 nr then
      let rs := linspace 0 radius (nr + 1) in
      map (fun r => (r, - length / 2)) rs ++ map (fun z => (radius, z)) zs ++ map (fun r => (r, length / 2)) (rev rs)
    else map (fun z => (radius, z)) zs.
  Definition row_nodes (thetas : list R) (p : R * R) : list vec := map (fun t => V (fst p * sin t) (fst p * cos t) (snd p)) thetas.
  (** cylinders.py:194-195: the panels. *)
  Definition row_panel (nt i j : nat) : face :=
    F (j + i * (nt + 1)) (j + (i + 1) * (nt + 1)) (j + 1 + (i + 1) * (nt + 1)) (j + 1 + i * (nt + 1)).
  Definition row_panels (strips nt : nat) : list face := flat_map (fun i => map (row_panel nt i) (seq 0 nt)) (seq 0 strips).
  Definition grid_cylinder (length radius theta_max : R) (nr nt nz : nat) : result mesh :=
    build_mesh (flat_map (row_nodes (linspace 0 theta_max (nt + 1))) (cylinder_rows length radius nr nz))
               (row_panels (nz + 2 * (if Nat.ltb 0 nr then nr + 1 else 0)) nt).
  (** [mesh_vertical_cylinder] at the origin, without the options about symmetries and radius, as called at lines 169-171 and 177-178. *)
  Definition simple_cylinder (length radius theta_max : R) (nr nt nz : Z) : result tree :=
    if negb (cylinder_checks length radius nr nt nz) then Err AssertionError else
    bind (grid_cylinder length radius theta_max (Z.to_nat nr) (Z.to_nat nt) (Z.to_nat nz)) (fun m => healed_at argsort set_order (Leaf m) v0).
  (** [mesh_vertical_cylinder], cylinders.py:104-202. The resolution is not negative at line 155; [np.linspace] is not called with a negative number. *)
  Definition mesh_vertical_cylinder (length radius : R) (center : vec) (nr0 nt0 nz0 : Z) (max_radius : option R)
    (axial_symmetry reflection_symmetry : bool) : result tree :=
    if negb (cylinder_checks length radius nr0 nt0 nz0) then Err AssertionError else
    bind (refined_cylinder length radius nr0 nt0 nz0 max_radius) (fun n => let '(nr, nt, nz) := n in
    if reflection_symmetry && axial_symmetry then Err NotImplementedError else
    if reflection_symmetry then
      if (nt mod 2 =? 1)%Z then Err ValueError else
      bind (simple_cylinder length radius (2 * PI / 2) nr (nt / 2) nz) (fun half =>
      bind (ReflectionSymmetricMesh half yOz_Plane) (fun t => healed_at argsort set_order t center))
    else if axial_symmetry then
      if (nt =? 0)%Z then Err ZeroDivisionError else
      bind (simple_cylinder length radius (2 * PI / IZR nt) nr 1 nz) (fun slice =>
      bind (AxialSymmetricMesh slice Oz_axis (Z.to_nat (nt - 1))) (fun t => healed_at argsort set_order t center))
    else bind (grid_cylinder length radius (2 * PI) (Z.to_nat nr) (Z.to_nat nt) (Z.to_nat nz)) (fun m => healed_at argsort set_order (Leaf m) center)).

  (** spheres.py:43-48. *)
  Definition refined_sphere (radius : R) (ntheta nphi : Z) (max_radius : option R) : result (Z * Z) :=
    match max_radius with
    | None => Ok (ntheta, nphi)
    | Some r =>
      if (ntheta =? 0)%Z || (nphi =? 0)%Z then Err ZeroDivisionError else
      let perimeter := 2 * PI * radius in
      if Rltb r (hypot (perimeter / IZR ntheta) (perimeter / IZR nphi) / 2) then
        if Reqb r 0 then Err OtherException
        else let n := ceil (perimeter / (sqrt 2 * r)) in Ok (n, n)
      else Ok (ntheta, nphi)
    end.
  (** spheres.py:50-51. *)
  Definition meridian (radius : R) (ntheta : nat) : list vec :=
    map (fun t => vscale radius (V (sin t) 0 (- cos t))) (linspace 0 PI (ntheta + 1)).
  (** [mesh_sphere], spheres.py:16-63. [np.linspace] refuses a negative number of points; a negative number of slices is refused by the
      constructor of the symmetric mesh. *)
  Definition mesh_sphere (radius : R) (center : vec) (ntheta0 nphi0 : Z) (max_radius : option R) (axial_symmetry : bool) : result tree :=
    bind (refined_sphere radius ntheta0 nphi0 max_radius) (fun n => let '(ntheta, nphi) := n in
    if (ntheta + 1 <? 0)%Z then Err ValueError else
    if (nphi <? 0)%Z then Err AssertionError else
    bind (from_profile argsort (meridian radius (Z.to_nat (ntheta + 1) - 1)) Oz_axis (Z.to_nat nphi)) (fun t =>
    bind (if axial_symmetry then Ok t else bind (t_merged argsort t) (fun m => Ok (Leaf m))) (fun t' =>
    healed_at argsort set_order t' center))).
End Cylinders.
