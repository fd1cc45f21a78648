(** Model of the hydrostatics of bodies/bodies.py: the metacentric radii and heights and [compute_hydrostatics]; and of the
    clipping of bodies with all their attributes. Exact real numbers instead of floats; a nan is [None]. *)
From Coq Require Import Reals String Ascii List Bool ZArith Arith.
From Verif Require Import Model_Base Model_Geometry Model_Mesh Model_Quality Model_Tree Model_Integrals Model_Clip Model_Body Model_Lid.
Import ListNotations.
Open Scope R_scope.

(** A division by zero, nan or infinite with numpy, is [None]. *)
Definition quotient (a b : R) : option R := if Reqb b 0 then None else Some (a / b).

(** ** Metacentres *)

(** [transversal_metacentric_radius] (with the coordinate [vy]) and [longitudinal_metacentric_radius] (with [vx]),
    bodies.py:325-335. *)
Definition metacentric_radius (coordinate : vec -> R) (b : fbody) : result (option R) :=
  bind (fb_centers b) (fun cs =>
  bind (waterplane_integral (fb_mesh b) (map (fun c => coordinate c * coordinate c) cs)) (fun i =>
  bind (volume (fb_mesh b)) (fun v => Ok (quotient (- i) v)))).
(** [transversal_metacentric_height] and [longitudinal_metacentric_height], bodies.py:337-347. *)
Definition metacentric_height (coordinate : vec -> R) (b : fbody) : result (option R) :=
  bind (center_of_buoyancy (fb_mesh b)) (fun cob =>
  match fb_com b with
  | None => Err TypeError
  | Some com =>
    bind (metacentric_radius coordinate b) (fun r =>
    Ok (match r, cob with Some r, Some c => Some (r - (vz com - vz c)) | _, _ => None end))
  end).

(** ** Clipping *)

Section Hydro.
  Variable argsort : list R -> list nat.

  (** [FloatingBody.clip], bodies.py:1010-1030. *)
  Definition fb_clip (p : plane) (b : fbody) : result fbody :=
    bind (fb_check b) (fun _ =>
    bind (t_clip argsort p (fb_mesh b)) (fun r =>
    bind (match fb_lid b with
          | None => Ok None
          | Some lid => bind (t_clip argsort p lid) (fun l => Ok (if Nat.eqb (t_nb_faces (fst l)) 0 then None else Some (fst l)))
          end) (fun lid =>
    bind (mapM (fun d => bind (mapM (get (snd d)) (snd r)) (fun rows => Ok (fst d, rows))) (fb_dofs b)) (fun dofs =>
    Ok (FB (fb_name b) (fst r) lid dofs (fb_mass b) (fb_com b) (fb_rc b) (fb_gc b) (fb_inertia b) (fb_stiffness b)))))).
  (** [immersed_part()], geometry.py:154-165, for the free surface z = 0 and an infinite depth. *)
  Definition fb_immersed (b : fbody) : result fbody := bind (fb_copy b (Some (fb_name b))) (fb_clip (level_plane 0)).

  (** ** [compute_hydrostatics], bodies.py:686-755 *)

  (** The dictionary that is returned. [h_waterplane_center] is [None] for the array [[None, 0.0]]; [h_inertia] is [None]
      when the key is not set. *)
  Record hydrostatics := Hydrostatics {
    h_g : R; h_rho : R; h_center_of_mass : vec;
    h_wet_surface_area : R; h_disp_volumes : vec; h_disp_volume : R; h_disp_mass : R; h_center_of_buoyancy : option vec;
    h_waterplane_center : option vec; h_waterplane_area : R;
    h_transversal_radius : option R; h_longitudinal_radius : option R; h_transversal_height : option R; h_longitudinal_height : option R;
    h_stiffness : lmatrix;
    h_length_overall : R; h_breadth_overall : R; h_depth : R; h_draught : R;
    h_length_at_waterline : R; h_breadth_at_waterline : R; h_length_submerged : R; h_breadth_submerged : R;
    h_inertia : option lmatrix
  }.
  (** The lengths at the waterline, bodies.py:718-723. *)
  Definition at_waterline (vertices : list vec) (area : R) : result (R * R) :=
    if Rltb (/ 10000000000) (Rabs area) then
      let water := filter (fun v => Rleb (Rabs (vz v)) (/ 100000000)) vertices in
      bind (span (map vx water)) (fun l => bind (span (map vy water)) (fun w => Ok (l, w)))
    else Ok (0, 0).
  Definition lower_rigid_names : list string := ["surge"%string; "sway"%string; "heave"%string; "roll"%string; "pitch"%string; "yaw"%string].
  Definition has_rigid_dof (b : fbody) : bool :=
    existsb (fun d => existsb (String.eqb (str_lower (fst d))) lower_rigid_names) (fb_dofs b).
  (** The result and the body afterwards: the matrices are stored as attributes (when the computation succeeds; an exception
      raised by the last step comes after the stiffness has been stored). *)
  Definition compute_hydrostatics (b : fbody) (divergence : list (string * list R)) (rho g : R) : result (hydrostatics * fbody) :=
    match fb_com b with
    | None => Err ValueError
    | Some com =>
      bind (fb_immersed b) (fun im =>
      bind (t_vertices (fb_mesh b)) (fun full =>
      bind (span (map vx full)) (fun full_length => bind (span (map vy full)) (fun full_breadth => bind (span (map vz full)) (fun depth =>
      bind (array_min (map vz full)) (fun zmin =>
      bind (t_vertices (fb_mesh im)) (fun vertices =>
      bind (span (map vx vertices)) (fun sub_length => bind (span (map vy vertices)) (fun sub_breadth =>
      bind (waterplane_area (fb_mesh im)) (fun area =>
      bind (at_waterline vertices area) (fun wl =>
      bind (wet_surface_area (fb_mesh im)) (fun wet =>
      bind (volumes (fb_mesh im)) (fun vols => bind (volume (fb_mesh im)) (fun vol => bind (disp_mass (fb_mesh im) rho) (fun dm =>
      bind (center_of_buoyancy (fb_mesh im)) (fun cob => bind (waterplane_center (fb_mesh im)) (fun wc =>
      bind (metacentric_radius vy im) (fun rt => bind (metacentric_radius vx im) (fun rl =>
      bind (metacentric_height vy im) (fun gmt => bind (metacentric_height vx im) (fun gml =>
      bind (compute_hydrostatic_stiffness im divergence rho g) (fun k =>
      bind (if has_rigid_dof b then bind (compute_rigid_body_inertia b rho BodyDofs) (fun m => Ok (Some m)) else Ok None) (fun inertia =>
      Ok (Hydrostatics g rho com wet vols vol dm cob (option_map (fun c => V (fst c) (snd c) 0) wc) area rt rl gmt gml k
            full_length full_breadth depth (Rabs zmin) (fst wl) (snd wl) sub_length sub_breadth inertia,
          set_matrices b (match inertia with Some m => Some m | None => fb_inertia b end) (Some k)))))))))))))))))))))))))
    end.
End Hydro.
