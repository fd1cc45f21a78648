(** Vocabulary of the change of the unit of length. *)
From Coq Require Import Reals.
From Coquelicot Require Import Complex.
From Coq Require Import List.
From Verif Require Import Model_Base Model_Mesh Model_Assembly.
Import ListNotations.
Open Scope R_scope.

Section Unit.
  (** All the lengths are multiplied by [l]. *)
  Variable l : R.
  Definition scaled_quad (q : quad) : quad := Q (vscale l (qa q)) (vscale l (qb q)) (vscale l (qc q)) (vscale l (qd q)).
  Definition scaled_props (f : fprops) : fprops := FProps (l * l * p_area f) (p_normal f) (vscale l (p_center f)) (l * p_radius f).
  Definition scaled_panel (q : source_panel) : source_panel :=
    SourcePanel (scaled_quad (sp_corners q)) (scaled_props (sp_props q)) (map (fun pw => (vscale l (fst pw), l * l * snd pw)) (sp_quad q)).
  Definition scaled_receiver (m : receiver) : receiver :=
    match m with OnMesh ps own => OnMesh (map scaled_props ps) own | OnPoints xs => OnPoints (map (vscale l) xs) | Unrecognized => Unrecognized end.
  (** Wavenumbers are divided by [l], the depth is multiplied by [l]. *)
  Definition scaled_wavenumber (k : ext) : ext := match k with Fin x => Fin (x / l) | _ => k end.
  Definition scaled_depth (h : ext) : ext := match h with Fin x => Fin (l * x) | _ => h end.

  (** The value is larger than the tolerance in both units. *)
  Definition above_tolerance (tolerance x : R) : Prop := tolerance <= x /\ tolerance <= l * x.
  (** In both units the point [P] is at least 1e-7 away from the center of the panel and its projection at least 1e-5 from the lines that bear the sides. *)
  Definition clear_of (q : source_panel) (P : vec) : Prop :=
    (/ 10000000 < norm (vsub P (p_center (sp_props q))) /\ / 10000000 < l * norm (vsub P (p_center (sp_props q)))
     \/ norm (vsub P (p_center (sp_props q))) <= 7 * p_radius (sp_props q))
    /\ forall a b, In (a, b) [(qa (sp_corners q), qb (sp_corners q)); (qb (sp_corners q), qc (sp_corners q)); (qc (sp_corners q), qd (sp_corners q)); (qd (sp_corners q), qa (sp_corners q))] ->
       above_tolerance (/ 100000) (Rabs (dot (vsub P a) (cross (p_normal (sp_props q)) (vsub b a)) / norm (vsub b a))).
  (** The same for a point and its images by the free surface and by the bottom; [decomposition] are the terms of the exponential decomposition. *)
  Definition heights (h : ext) (decomposition : list (R * R)) (z : R) : list R :=
    match h with
    | Fin h => [z; - z; - z - 2 * h] ++ flat_map (fun la => [z - h * fst la + 2 * h; - z + h * fst la - 4 * h; - z - h * fst la; z + h * fst la - 2 * h]) decomposition
    | _ => [z; - z]
    end.
  (** The heights of the images that are always seen as points. *)
  Definition point_heights (h : ext) (z : R) : list R := match h with Fin h => [- z; z - 2 * h; z + 2 * h; - z - 4 * h] | _ => [] end.
  Definition clear_images (h : ext) (decomposition : list (R * R)) (q : source_panel) (x : vec) : Prop :=
    (forall z, In z (heights h decomposition (vz x)) -> clear_of q (V (vx x) (vy x) z))
    /\ forall z, In z (point_heights h (vz x)) -> let d := norm (vsub (V (vx x) (vy x) z) (p_center (sp_props q))) in / 10000000 < d /\ / 10000000 < l * d.
End Unit.
