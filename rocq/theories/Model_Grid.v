(** Model of the structured meshes: the free surface (post_pro/free_surfaces.py) and
    the rectangles (meshes/predefined/rectangles.py). Exact real numbers instead of floats. *)
From Coq Require Import Reals List Bool Arith ZArith.
From Verif Require Import Model_Base Model_Geometry Model_Mesh Model_Tree Model_Body Model_Normals.
Import ListNotations.
Open Scope R_scope.

(** [np.linspace(a, b, n)] with n points. *)
Definition linspace (a b : R) (n : nat) : list R := map (fun k => a + INR k * ((b - a) / INR (n - 1))) (seq 0 n).
(** [product(xs, ys)] with the third coordinate given by [f]. *)
Definition grid_nodes (f : R -> R -> vec) (xs ys : list R) : list vec := flat_map (fun x => map (f x) ys) xs.
(** free_surfaces.py:67-71 and rectangles.py:96-97: the panels. *)
Definition panel (ny i j : nat) : face :=
  F (j + i * (ny + 1)) ((j + 1) + i * (ny + 1)) ((j + 1) + (i + 1) * (ny + 1)) (j + (i + 1) * (ny + 1)).
Definition grid_faces (nx ny : nat) : list face := flat_map (fun i => map (panel ny i) (seq 0 ny)) (seq 0 nx).

(** [FreeSurface._generate_mesh], free_surfaces.py:56-73, and [FreeSurface.area], 75-79. *)
Definition free_surface (x_range : R * R) (nx : nat) (y_range : R * R) (ny : nat) : result mesh :=
  build_mesh (grid_nodes (fun x y => V x y 0) (linspace (fst x_range) (snd x_range) (nx + 1))
                                              (linspace (fst y_range) (snd y_range) (ny + 1)))
             (grid_faces nx ny).
Definition free_surface_area (x_range y_range : R * R) : R :=
  Rabs (snd x_range - fst x_range) * Rabs (snd y_range - fst y_range).

(** [int(np.ceil(x))]. *)
Definition ceil (x : R) : Z := (1 - up (- x))%Z.

Section Rectangles.
  Variable argsort : list R -> list nat.
  Variable set_order : list nat -> list nat.

  (** [mesh.rotate_around_center_to_align_vectors(center, mesh.faces_normals[0], normal)]; nan coordinates are represented by an error. *)
  Definition t_align (t : tree) (center normal : vec) : result tree :=
    bind (t_props t) (fun ps => bind (get ps 0) (fun p =>
    match align_vectors center (p_normal p) normal with
    | NoRotation => Ok t
    | Rotation a theta => Ok (t_rotate t a theta)
    | NanRotation => Err OtherException
    end)).
  (** rectangles.py:101-105. *)
  Definition finish (t : tree) (center normal : vec) : result tree :=
    bind (t_heal argsort (heal_normals set_order) t) (fun t1 => t_align (t_translate t1 center) center normal).
  (** rectangles.py:47-55: the assertions on the values (the arguments are couples of numbers, the resolutions are integers). *)
  Definition rectangle_checks (width height : R) (nw nh : Z) : bool :=
    Rltb 0 width && Rltb 0 height && (0 <? nw)%Z && (0 <? nh)%Z.
  (** rectangles.py:93-99. [np.linspace] refuses a negative number of points. *)
  Definition grid_rectangle (width height : R) (nw nh : Z) : result mesh :=
    if (nw + 1 <? 0)%Z || (nh + 1 <? 0)%Z then Err ValueError else
    build_mesh (grid_nodes (fun y z => V 0 y z) (linspace (- width / 2) (width / 2) (Z.to_nat (nw + 1)))
                                                (linspace (- height / 2) (height / 2) (Z.to_nat (nh + 1))))
               (grid_faces (Z.to_nat nw) (Z.to_nat nh)).
  (** [mesh_rectangle] without the options about symmetries and radius, as called at lines 81-84 and 87-90. *)
  Definition simple_rectangle (width height : R) (nw nh : Z) (center normal : vec) : result tree :=
    if negb (rectangle_checks width height nw nh) then Err AssertionError else
    bind (grid_rectangle width height nw nh) (fun m => finish (Leaf m) center normal).

  (** rectangles.py:63-67. [r = 0]: the infinite ratio cannot be converted to an integer. *)
  Definition refined (width height : R) (nw nh : Z) (max_radius : option R) : result (Z * Z) :=
    match max_radius with
    | None => Ok (nw, nh)
    | Some r =>
      if Rltb r (sqrt ((width / IZR nw) * (width / IZR nw) + (height / IZR nh) * (height / IZR nh)) / 2) then
        if Reqb r 0 then Err OtherException
        else Ok (ceil (width / (sqrt 2 * r)), ceil (height / (sqrt 2 * r)))
      else Ok (nw, nh)
    end.
  Definition xOz_Plane : plane := Plane (V 0 1 0) (V 0 0 0).
  (** [mesh_rectangle], rectangles.py:16-106. *)
  Definition mesh_rectangle (width height : R) (center : vec) (nw0 nh0 : Z) (max_radius : option R) (normal : vec)
    (translation_symmetry reflection_symmetry : bool) : result tree :=
    if negb (rectangle_checks width height nw0 nh0) then Err AssertionError else
    bind (refined width height nw0 nh0 max_radius) (fun n => let '(nw, nh) := n in
    if translation_symmetry && reflection_symmetry then Err NotImplementedError else
    if reflection_symmetry then
      if (nw mod 2 =? 1)%Z then Err ValueError else
      bind (simple_rectangle (width / 2) height (nw / 2) nh (V 0 (- width / 4) 0) (V 0 0 1)) (fun half =>
      bind (ReflectionSymmetricMesh half xOz_Plane) (fun t => finish t center normal))
    else if translation_symmetry then
      if (nw =? 0)%Z then Err ZeroDivisionError else
      bind (simple_rectangle (width / IZR nw) height 1 nh (V 0 (- width / 2 + width / (2 * IZR nw)) 0) (V 0 0 1)) (fun strip =>
      bind (TranslationalSymmetricMesh strip (V 0 (width / IZR nw) 0) false (Z.to_nat (nw - 1))) (fun t => finish t center normal))
    else bind (grid_rectangle width height nw nh) (fun m => finish (Leaf m) center normal)).
End Rectangles.
