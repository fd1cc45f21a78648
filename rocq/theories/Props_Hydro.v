(** Properties of the hydrostatics of bodies: stiffness and metacentres, translations, [compute_hydrostatics]. *)
From Coq Require Import Reals String Ascii List Bool ZArith Arith Lra Lia.
From Verif Require Import Model_Base Model_Geometry Model_Mesh Model_Quality Model_Tree Spec_Mesh Spec_Tree Spec_Clip Proofs_Geometry Proofs_Mesh Proofs_Problem Model_Integrals Spec_Integrals
  Proofs_Tree Proofs_Clip5 Proofs_Integrals Proofs_Integrals2 Proofs_Integrals3 Model_Clip Model_Body Spec_Body Proofs_Body6 Model_Lid Proofs_Lid Model_Hydro Proofs_Hydro Proofs_Hydro2
  Spec_Hydro Proofs_Hydro3 Proofs_Hydro4 Proofs_Hydro5 Props_Integrals Props_Body.
Import ListNotations.
Open Scope R_scope.

(** ** C78 *)

(** The hydrostatic stiffness computed by [compute_hydrostatics] is labelled by the dofs of the body. Its coefficient for
    heave is that of the waterplane area. For a body with the mass of the displaced water (given or by default) and rotating about a
    point of the plane y = 0 (resp. x = 0), the coefficient for roll (resp. pitch) is that of the transversal (resp.
    longitudinal) metacentric height. *)
Theorem stiffness_and_metacentric_heights :
  forall argsort b divergence rho g h b', compute_hydrostatics argsort b divergence rho g = Ok (h, b') ->
  lm_labels (h_stiffness h) = map fst (fb_dofs b)
  /\ (forall k, nth_error (lm_labels (h_stiffness h)) k = Some "Heave"%string ->
       coefficient (h_stiffness h) k k = Some (Some (rho * g * h_waterplane_area h)))
  /\ (rho <> 0 -> fb_mass b = None \/ fb_mass b = Some (h_disp_mass h) ->
      forall rc, fb_rc b = Some rc ->
      (forall k gm, vy rc = 0 -> h_transversal_height h = Some gm -> nth_error (lm_labels (h_stiffness h)) k = Some "Roll"%string ->
         coefficient (h_stiffness h) k k = Some (Some (rho * g * h_disp_volume h * gm)))
      /\ (forall k gm, vx rc = 0 -> h_longitudinal_height h = Some gm -> nth_error (lm_labels (h_stiffness h)) k = Some "Pitch"%string ->
         coefficient (h_stiffness h) k k = Some (Some (rho * g * h_disp_volume h * gm)))).
Proof.
  intros argsort b div rho g h b' E. split; [exact (computed_labels _ _ _ _ _ _ _ E)|]. split; [intros k Hk; exact (computed_heave _ _ _ _ _ _ _ E k Hk)|].
  intros Hr Hm rc Hrc. split; intros k gm H0 Hg Hk.
  - exact (computed_own _ _ _ _ _ _ _ E false rc gm k Hr Hm Hrc H0 Hg Hk).
  - exact (computed_own _ _ _ _ _ _ _ E true rc gm k Hr Hm Hrc H0 Hg Hk).
Qed.
Print Assumptions stiffness_and_metacentric_heights.
(** A pyramid in the water joined to a tetrahedron in the air. *)
Example stiffness_and_metacentric_heights_ex : forall argsort, exists h b' gm gm', compute_hydrostatics argsort (hung "s" stack 7) [] 1000 10 = Ok (h, b')
  /\ fb_mass (hung "s" stack 7) = None /\ fb_rc (hung "s" stack 7) = Some (V 0 0 0) /\ h_transversal_height h = Some gm /\ h_longitudinal_height h = Some gm'
  /\ lm_labels (h_stiffness h) = ["Surge"%string; "Heave"%string; "Roll"%string; "Pitch"%string].
Proof.
  intros argsort. destruct (stack_hydrostatics argsort 1000 10) as (h & b' & E). destruct (stack_values _ _ _ _ _ E) as (_ & _ & (gm & Eg) & (gm' & Eg')).
  exists h, b', gm, gm'. split; [exact E|]. split; [reflexivity|]. split; [reflexivity|]. split; [exact Eg|]. split; [exact Eg'|]. exact (computed_labels _ _ _ _ _ _ _ E).
Qed.
Print Assumptions stiffness_and_metacentric_heights_ex.

(** ** C79 *)

(** A hull open at the free surface and its translations along the free surface: the metacentric radii and heights change by the second
    moment of the waterplane about the new axis minus the one about the old axis, because they are all taken about the origin. Hence they do
    not change when the body moves along the axis. *)
Theorem metacentres_of_translated_hull_partial :
  forall b qs opening w area xc yc v, proper_surface (fb_mesh b) qs -> Forall horizontal_lid opening -> watertight (qs ++ opening) -> vz w = 0 ->
  waterplane_area (fb_mesh b) = Ok area -> waterplane_center (fb_mesh b) = Ok (Some (xc, yc)) -> volume (fb_mesh b) = Ok v ->
  (forall r, metacentric_radius vy b = Ok (Some r) -> metacentric_radius vy (fb_translate b w) = Ok (Some (r + area * (2 * yc * vy w + vy w * vy w) / v)))
  /\ (forall r, metacentric_radius vx b = Ok (Some r) -> metacentric_radius vx (fb_translate b w) = Ok (Some (r + area * (2 * xc * vx w + vx w * vx w) / v)))
  /\ (forall gm, metacentric_height vy b = Ok (Some gm) -> metacentric_height vy (fb_translate b w) = Ok (Some (gm + area * (2 * yc * vy w + vy w * vy w) / v)))
  /\ (forall gm, metacentric_height vx b = Ok (Some gm) -> metacentric_height vx (fb_translate b w) = Ok (Some (gm + area * (2 * xc * vx w + vx w * vx w) / v))).
Proof.
  intros b qs ls w A xc yc v S Hl W Hw EA EC Ev. split; [|split; [|split]]; intros r Er.
  - exact (radius_moved false b qs ls w A xc yc v r S Hl W Hw EA EC Ev Er).
  - exact (radius_moved true b qs ls w A xc yc v r S Hl W Hw EA EC Ev Er).
  - exact (height_moved false b qs ls w A xc yc v r S Hl W Hw EA EC Ev Er).
  - exact (height_moved true b qs ls w A xc yc v r S Hl W Hw EA EC Ev Er).
Qed.
Print Assumptions metacentres_of_translated_hull_partial.
Definition pyramid_body : fbody := FB "p" (Leaf pyramid) None [] None (Some (V 0 0 0)) None None None None.
Lemma pyramid_values : waterplane_area (Leaf pyramid) = Ok (1 / 2) /\ waterplane_center (Leaf pyramid) = Ok (Some (1 / 3, 1 / 3)) /\ volume (Leaf pyramid) = Ok (1 / 6)
  /\ exists r, metacentric_radius vy pyramid_body = Ok (Some r).
Proof.
  destruct (immersed_hull_partial _ _ _ pyramid_surface pyramid_lid pyramid_watertight) as (_ & Ev & Ea & Ec).
  assert (X : Rsum (map (fun q => vz (area_of q)) [pyramid_top]) = 1 / 2) by (cbn; field).
  assert (Y : Rsum (map signed_volume (pyramid_faces ++ [pyramid_top])) = 1 / 6) by (unfold pyramid_faces, pyramid_top, Rsum, signed_volume, triple, dot, cross; cbn; field).
  rewrite X in Ea, Ec. rewrite Y in Ev. split; [exact Ea|]. split; [|split; [exact Ev|]].
  - rewrite Ec. assert (Rltb (1 / 2) (/ 10000000000) = false) as -> by (apply Rltb_false; lra). do 3 f_equal; cbn; field.
  - destruct pyramid_surface as (F & P & _). unfold metacentric_radius, fb_centers. cbn [pyramid_body fb_mesh]. rewrite (tree_props _ _ F P). cbn [bind].
    destruct (waterplane_total _ _ F P (fun c => vy c * vy c)) as [x ->]. cbn [bind]. rewrite Ev. cbn [bind]. unfold quotient.
    assert (Reqb (1 / 6) 0 = false) as -> by (apply Reqb_false; lra). eexists. reflexivity.
Qed.
Example metacentres_of_translated_hull_ex : proper_surface (fb_mesh pyramid_body) pyramid_faces /\ Forall horizontal_lid [pyramid_top] /\ watertight (pyramid_faces ++ [pyramid_top])
  /\ waterplane_center (fb_mesh pyramid_body) = Ok (Some (1 / 3, 1 / 3)) /\ exists r, metacentric_radius vy pyramid_body = Ok (Some r).
Proof. split; [exact pyramid_surface|]. split; [exact pyramid_lid|]. split; [exact pyramid_watertight|]. split; apply pyramid_values. Qed.
(** Refuted: the transversal metacentric radius of a hull changes when the hull is translated along y. *)
Theorem metacentric_radius_moves_refuted :
  exists b qs opening r r', proper_surface (fb_mesh b) qs /\ Forall horizontal_lid opening /\ watertight (qs ++ opening)
  /\ metacentric_radius vy b = Ok (Some r) /\ metacentric_radius vy (fb_translate b (V 0 1 0)) = Ok (Some r') /\ r' = r + 5.
Proof.
  destruct pyramid_values as (Ea & Ec & Ev & r & Er). exists pyramid_body, pyramid_faces, [pyramid_top], r. eexists. split; [exact pyramid_surface|]. split; [exact pyramid_lid|]. split; [exact pyramid_watertight|].
  split; [exact Er|]. split.
  - exact (radius_moved false pyramid_body _ _ (V 0 1 0) _ _ _ _ r pyramid_surface pyramid_lid pyramid_watertight eq_refl Ea Ec Ev Er).
  - cbn. field.
Qed.
Print Assumptions metacentric_radius_moves_refuted.

(** ** C80 *)

(** What [compute_hydrostatics] returns: the integrals are those of the part of the body below z = 0, the overall lengths those of the whole
    body; the stiffness and, for a body with a rigid dof, the inertia are stored on the body, of which nothing else changes; and the lengths
    at the waterline are not greater than those of the immersed part. *)
Theorem hydrostatics_of_immersed_part :
  forall argsort b divergence rho g h b', compute_hydrostatics argsort b divergence rho g = Ok (h, b') ->
  exists im vs ws, fb_immersed argsort b = Ok im /\ t_vertices (fb_mesh b) = Ok vs /\ t_vertices (fb_mesh im) = Ok ws
  /\ fb_com b = Some (h_center_of_mass h)
  /\ wet_surface_area (fb_mesh im) = Ok (h_wet_surface_area h) /\ volumes (fb_mesh im) = Ok (h_disp_volumes h)
  /\ volume (fb_mesh im) = Ok (h_disp_volume h) /\ h_disp_mass h = rho * h_disp_volume h
  /\ center_of_buoyancy (fb_mesh im) = Ok (h_center_of_buoyancy h) /\ waterplane_area (fb_mesh im) = Ok (h_waterplane_area h)
  /\ greatest_distance vx vs (h_length_overall h) /\ greatest_distance vy vs (h_breadth_overall h) /\ greatest_distance vz vs (h_depth h)
  /\ greatest_distance vx ws (h_length_submerged h) /\ greatest_distance vy ws (h_breadth_submerged h)
  /\ h_length_at_waterline h <= h_length_submerged h /\ h_breadth_at_waterline h <= h_breadth_submerged h
  /\ (exists v, In v vs /\ h_draught h = Rabs (vz v) /\ forall u, In u vs -> vz v <= vz u)
  /\ fb_stiffness b' = Some (h_stiffness h)
  /\ (forall m, h_inertia h = Some m -> fb_inertia b' = Some m) /\ (h_inertia h = None -> fb_inertia b' = fb_inertia b)
  /\ b = set_matrices b' (fb_inertia b) (fb_stiffness b).
Proof. exact hydrostatics_spec. Qed.
Print Assumptions hydrostatics_of_immersed_part.
Example hydrostatics_of_immersed_part_ex : forall argsort, exists h b', compute_hydrostatics argsort (hung "s" stack 7) [] 1000 10 = Ok (h, b') /\ h_disp_volume h = 1 / 6
  /\ volume stack = Ok (1 / 3).
Proof.
  intros argsort. destruct (stack_hydrostatics argsort 1000 10) as (h & b' & E). exists h, b'. split; [exact E|]. split; [apply (stack_values _ _ _ _ _ E)|exact stack_volume].
Qed.
(** The inertia for surge is the mass of the body or, if none is given, the density times the volume of the whole mesh: it is the displaced
    mass of the dictionary if the whole mesh has the volume of its immersed part. *)
Theorem hydrostatics_inertia_partial :
  forall argsort b divergence rho g h b' m vol, compute_hydrostatics argsort b divergence rho g = Ok (h, b') -> h_inertia h = Some m ->
  volume (fb_mesh b) = Ok vol -> vol <> 0 ->
  forall k, nth_error (lm_labels m) k = Some "Surge"%string ->
  (forall mass, fb_mass b = Some mass -> coefficient m k k = Some (Some mass))
  /\ (fb_mass b = None -> vol = h_disp_volume h -> coefficient m k k = Some (Some (h_disp_mass h))).
Proof. exact hydrostatics_surge. Qed.
Print Assumptions hydrostatics_inertia_partial.
Example hydrostatics_inertia_ex : forall argsort, exists h b' m, compute_hydrostatics argsort (hung "p" (Leaf pyramid) 3) [] 1000 10 = Ok (h, b') /\ h_inertia h = Some m
  /\ volume (Leaf pyramid) = Ok (h_disp_volume h) /\ volume (Leaf pyramid) = Ok (1 / 6).
Proof.
  intros argsort. destruct (sunk_hydrostatics argsort 1000 10) as (h & b' & E & Ev & m & Hm). exists h, b', m. split; [exact E|]. split; [exact Hm|]. split; [exact Ev|apply pyramid_values].
Qed.
(** Refuted otherwise: the default mass in the inertia matrix is that of the volume of the whole mesh, twice the displaced mass here. *)
Theorem hydrostatics_inertia_refuted :
  exists b, fb_mass b = None /\ forall argsort, exists h b' m, compute_hydrostatics argsort b [] 1000 10 = Ok (h, b') /\ h_inertia h = Some m
  /\ nth_error (lm_labels m) 0 = Some "Surge"%string /\ h_disp_mass h = 1000 / 6 /\ coefficient m 0 0 = Some (Some (1000 / 3)).
Proof.
  exists (hung "s" stack 7). split; [reflexivity|]. intros argsort. destruct (stack_hydrostatics argsort 1000 10) as (h & b' & E). destruct (stack_values _ _ _ _ _ E) as (_ & Em & _).
  destruct (stack_inertia _ _ _ _ _ E) as (m & Hm & Lm & Cm). exists h, b', m. split; [exact E|]. split; [exact Hm|]. split; [now rewrite Lm|]. split; [rewrite Em; field|]. rewrite Cm. do 2 f_equal. field.
Qed.
Print Assumptions hydrostatics_inertia_refuted.
(** Without a centre of mass, or without dofs, the hydrostatics are refused. *)
Theorem hydrostatics_refused :
  forall argsort b divergence rho g, fb_com b = None -> compute_hydrostatics argsort b divergence rho g = Err ValueError.
Proof. intros argsort b divergence rho g E. unfold compute_hydrostatics. now rewrite E. Qed.
Print Assumptions hydrostatics_refused.
Theorem hydrostatics_without_dofs :
  forall argsort b divergence rho g, fb_dofs b = [] -> exists e, compute_hydrostatics argsort b divergence rho g = Err e.
Proof. exact without_dofs. Qed.
Print Assumptions hydrostatics_without_dofs.
Example hydrostatics_refused_ex : exists b, fb_com b = None /\ fb_dofs b = [] /\ fb_mesh b = Leaf pyramid.
Proof. exists (FB "p" (Leaf pyramid) None [] None None None None None None). now repeat split. Qed.

(** ** Clipping a body *)

(** C28 and C80. Clipping a body (in particular taking its immersed part) keeps for each dof the rows of the panels kept by the clipping of its mesh. The lid is
    clipped too, and there is no lid left if nothing remains of it. *)
Theorem body_clip_follows_panels :
  forall argsort p b b', fb_clip argsort p b = Ok b' ->
  exists ids, t_clip argsort p (fb_mesh b) = Ok (fb_mesh b', ids)
    /\ Forall2 (fun d d' => fst d' = fst d /\ picks (snd d) ids (snd d')) (fb_dofs b) (fb_dofs b')
    /\ (fb_lid b = None -> fb_lid b' = None)
    /\ (forall lid, fb_lid b = Some lid -> exists lid' ids', t_clip argsort p lid = Ok (lid', ids')
         /\ (t_nb_faces lid' = 0%nat -> fb_lid b' = None) /\ (t_nb_faces lid' <> 0%nat -> fb_lid b' = Some lid')).
Proof.
  intros argsort p b b' E. unfold fb_clip in E. step E. destruct (t_clip argsort p (fb_mesh b)) as [[t ids]|] eqn:B0; [cbn [bind fst snd] in E|discriminate E]. step E. step E.
  apply Ok_inj' in E. subst b'. exists ids. cbn [fb_mesh fb_dofs fb_lid]. split; [reflexivity|]. split; [|split].
  - clear - B2. revert a1 B2. induction (fb_dofs b) as [|d ds IH]; intros l E; cbn [mapM] in E; [apply Ok_inj' in E; subst; constructor|].
    step E. step E. apply Ok_inj' in E. subst l. constructor; [|now apply IH]. step B. apply Ok_inj' in B. subst a. split; [reflexivity|]. cbn [snd].
    clear - B1. unfold picks. revert a1 B1. induction ids as [|i ids IH]; intros l E; cbn [mapM] in E; [apply Ok_inj' in E; subst; constructor|].
    step E. step E. apply Ok_inj' in E. subst l. constructor; [|now apply IH]. clear - B. unfold get in B. destruct (nth_error (snd d) i); [|discriminate]. congruence.
  - intros El. rewrite El in B1. now apply Ok_inj' in B1.
  - intros lid El. rewrite El in B1. destruct (t_clip argsort p lid) as [[lid' ids']|]; [|discriminate]. exists lid', ids'. split; [reflexivity|]. cbn [bind fst] in B1. apply Ok_inj' in B1. subst a0.
    split; intros N; [now rewrite N|]. now rewrite (proj2 (Nat.eqb_neq _ _) N).
Qed.
Print Assumptions body_clip_follows_panels.
Example body_clip_follows_panels_ex : forall argsort, exists b', fb_immersed argsort (hung "s" stack 7) = Ok b' /\ fb_mesh b' = below
  /\ map fst (fb_dofs b') = ["Surge"%string; "Heave"%string; "Roll"%string; "Pitch"%string].
Proof. intros argsort. destruct (stack_immersed argsort) as (b & E & M & _ & _ & _ & D). exists b. auto. Qed.
