(** Model of meshes/surface_integrals.py, for meshes and collections. A division by zero, which gives nan with numpy, is
    [None]. *)
From Coq Require Import Reals List Bool ZArith Arith.
From Verif Require Import Model_Base Model_Geometry Model_Mesh Model_Tree.
Import ListNotations.
Open Scope R_scope.

(** The product of two one-dimensional arrays: an array with a single element is repeated. *)
Definition product (xs ys : list R) : result (list R) :=
  if Nat.eqb (length xs) (length ys) then Ok (map (fun p => fst p * snd p) (combine xs ys))
  else match xs, ys with
       | [x], _ => Ok (map (fun y => x * y) ys)
       | _, [y] => Ok (map (fun x => x * y) xs)
       | _, _ => Err ValueError
       end.
(** [surface_integral], surface_integrals.py:13-15, for [data] of one dimension ([surface_integral(1)] is that of [[1]]). *)
Definition surface_integral (t : tree) (data : list R) : result R :=
  bind (t_props t) (fun ps => bind (product data (map p_area ps)) (fun l => Ok (Rsum l))).
(** [waterplane_integral], surface_integrals.py:17-19. *)
Definition waterplane_integral (t : tree) (data : list R) : result R :=
  bind (t_props t) (fun ps => bind (product (map (fun p => vz (p_normal p)) ps) data) (surface_integral t)).
(** [wet_surface_area], surface_integrals.py:21-24. *)
Definition wet_surface_area (t : tree) : result R := surface_integral t [1].
(** [surface_integral(data.T, axis=1)] for [data] with one row for each face, computed from the properties of the face. *)
Definition surface_integral3 (t : tree) (data : fprops -> vec) : result vec :=
  bind (t_props t) (fun ps =>
  bind (surface_integral t (map (fun p => vx (data p)) ps)) (fun x =>
  bind (surface_integral t (map (fun p => vy (data p)) ps)) (fun y =>
  bind (surface_integral t (map (fun p => vz (data p)) ps)) (fun z => Ok (V x y z))))).
(** The product of two arrays with three columns. *)
Definition vmul (u v : vec) : vec := V (vx u * vx v) (vy u * vy v) (vz u * vz v).
(** [volumes] and [volume], surface_integrals.py:26-35. *)
Definition volumes (t : tree) : result vec := surface_integral3 t (fun p => vmul (p_normal p) (p_center p)).
Definition volume (t : tree) : result R := bind (volumes t) (fun v => Ok ((vx v + vy v + vz v) / 3)).
(** [disp_mass], surface_integrals.py:37-38. *)
Definition disp_mass (t : tree) (rho : R) : result R := bind (volume t) (fun v => Ok (rho * v)).
(** [center_of_buoyancy], surface_integrals.py:40-44. *)
Definition center_of_buoyancy (t : tree) : result (option vec) :=
  bind (surface_integral3 t (fun p => vmul (p_normal p) (vmul (p_center p) (p_center p)))) (fun s =>
  bind (volume t) (fun v => Ok (if Reqb v 0 then None else Some (vscale (/ (2 * v)) s)))).
(** [waterplane_area], surface_integrals.py:46-50. *)
Definition waterplane_area (t : tree) : result R := bind (waterplane_integral t [1]) (fun x => Ok (- x)).
(** [waterplane_center], surface_integrals.py:52-64. *)
Definition waterplane_center (t : tree) : result (option (R * R)) :=
  bind (waterplane_area t) (fun a =>
  if Rltb (Rabs a) (/ 10000000000) then Ok None else
  bind (surface_integral3 t (fun p => vscale (vz (p_normal p)) (p_center p))) (fun s =>
  Ok (Some (- vx s / a, - vy s / a)))).
