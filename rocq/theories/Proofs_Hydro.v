(** The metacentric heights and the hydrostatic stiffness. *)
From Coq Require Import Reals String Ascii List Bool ZArith Arith Lra Lia.
From Verif Require Import Model_Base Model_Geometry Model_Mesh Model_Quality Model_Tree Proofs_Geometry Proofs_Mesh Proofs_Problem Model_Integrals Proofs_Integrals
  Model_Clip Model_Body Spec_Body Proofs_Body6 Model_Lid Model_Hydro.
Import ListNotations.
Open Scope R_scope.

Lemma waterplane_props t ps f : t_props t = Ok ps -> waterplane_integral t (map f ps) = Ok (Rsum (map (fun p => vz (p_normal p) * f p * p_area p) ps)).
Proof.
  intros E. unfold waterplane_integral, surface_integral. rewrite E. cbn [bind]. rewrite product_maps. cbn [bind]. rewrite product_maps. reflexivity.
Qed.
Lemma waterplane_area_props t ps : t_props t = Ok ps -> waterplane_area t = Ok (- Rsum (map (fun p => vz (p_normal p) * p_area p) ps)).
Proof.
  intros E. unfold waterplane_area, waterplane_integral, surface_integral. rewrite E. cbn [bind]. rewrite product_one_r. cbn [bind]. rewrite !map_map, product_maps. cbn [bind].
  do 2 f_equal. apply Rsum_ext. intros; ring.
Qed.
Lemma Rsum_square (l : list fprops) (f : fprops -> R) y :
  Rsum (map (fun p => vz (p_normal p) * ((f p - y) * (f p - y)) * p_area p) l)
  = Rsum (map (fun p => vz (p_normal p) * (f p * f p) * p_area p) l) - 2 * y * Rsum (map (fun p => vz (p_normal p) * f p * p_area p) l)
    + y * y * Rsum (map (fun p => vz (p_normal p) * p_area p) l).
Proof. induction l as [|p l IH]; [cbn; ring|]. cbn [map]. rewrite !Rsum_cons, IH. ring. Qed.

(** The roll ([vy]) or pitch ([vx]) stiffness of a body with the mass of the displaced water, about a point with the
    coordinate [0]. *)
Definition own_name (x : bool) : string := if x then "Pitch"%string else "Roll"%string.
Definition own_axis (x : bool) : vec -> R := if x then vx else vy.
Lemma own_stiffness (x : bool) b com rho vol rc gm : fb_com b = Some com -> rho <> 0 -> volume (fb_mesh b) = Ok vol -> mass_of b rho vol = rho * vol ->
  infer_rotation_center b = Ok rc -> own_axis x rc = 0 -> metacentric_height (own_axis x) b = Ok (Some gm) ->
  rigid_stiffness b com rho (own_name x) (own_name x) = Ok (Some (vol * gm)).
Proof.
  intros Ec Hr Ev Em Er Ey Eg. unfold metacentric_height in Eg. rewrite Ec in Eg.
  destruct (center_of_buoyancy (fb_mesh b)) as [cob|] eqn:Eb; [|discriminate]. cbn [bind] in Eg.
  unfold metacentric_radius, fb_centers in Eg. destruct (t_props (fb_mesh b)) as [ps|] eqn:Ep; [|discriminate]. cbn [bind] in Eg.
  rewrite map_map, (waterplane_props _ _ (fun p => own_axis x (p_center p) * own_axis x (p_center p)) Ep) in Eg. cbn [bind] in Eg. rewrite Ev in Eg. cbn [bind] in Eg.
  unfold quotient in Eg. destruct (Reqb vol 0) eqn:Z0; [discriminate|]. destruct cob as [c|]; [|discriminate].
  apply Ok_inj' in Eg. injection Eg as <-. assert (Nz : vol <> 0) by (intros ->; rewrite Reqb_refl in Z0; discriminate).
  unfold rigid_stiffness. rewrite Ev. cbn [bind]. fold (mass_of b rho vol). rewrite Em, Er. cbn [bind]. unfold fb_centers. rewrite Ep. cbn [bind]. rewrite Eb. cbn [bind].
  unfold moment_term. assert (Reqb rho 0 = false) as -> by (apply Reqb_false; exact Hr). cbn [option_map].
  destruct x; cbn [own_name own_axis] in *; unfold pair_in;
    repeat match goal with |- context [pair_is ?a ?b ?c ?d] => let v := eval vm_compute in (pair_is a b c d) in change (pair_is a b c d) with v end;
    cbv iota; cbn [orb]; rewrite map_map.
  - rewrite (waterplane_props _ _ (fun p => (vx (p_center p) - vx rc) * (vx (p_center p) - vx rc)) Ep). cbn [bind option_map].
    rewrite (Rsum_square ps (fun p => vx (p_center p)) (vx rc)), Ey. do 2 f_equal. field. auto.
  - rewrite (waterplane_props _ _ (fun p => (vy (p_center p) - vy rc) * (vy (p_center p) - vy rc)) Ep). cbn [bind option_map].
    rewrite (Rsum_square ps (fun p => vy (p_center p)) (vy rc)), Ey. do 2 f_equal. field. auto.
Qed.
Lemma heave_stiffness b com rho vol rc a cob : fb_com b = Some com -> volume (fb_mesh b) = Ok vol ->
  infer_rotation_center b = Ok rc -> center_of_buoyancy (fb_mesh b) = Ok cob -> waterplane_area (fb_mesh b) = Ok a ->
  rigid_stiffness b com rho "Heave" "Heave" = Ok (Some a).
Proof.
  intros Ec Ev Er Eb Ea. unfold rigid_stiffness. rewrite Ev, Er. cbn [bind].
  assert (exists ps, t_props (fb_mesh b) = Ok ps) as [ps Ep].
  { unfold waterplane_area, waterplane_integral in Ea. destruct (t_props (fb_mesh b)) as [ps|]; [now exists ps|discriminate]. }
  unfold fb_centers. rewrite Ep. cbn [bind]. rewrite Eb. cbn [bind]. change (pair_is "Heave" "Heave" "Heave" "Heave") with true. cbv iota. rewrite Ea. reflexivity.
Qed.

(** ** Inversions *)
Ltac step E := match type of E with bind ?X _ = _ => let N := fresh "B" in destruct X eqn:N; [cbn [bind] in E|discriminate E] end.
Lemma clip_body_inv argsort p b b' : fb_clip argsort p b = Ok b' ->
  exists ids, t_clip argsort p (fb_mesh b) = Ok (fb_mesh b', ids) /\ map fst (fb_dofs b') = map fst (fb_dofs b)
    /\ fb_name b' = fb_name b /\ fb_mass b' = fb_mass b /\ fb_com b' = fb_com b /\ fb_rc b' = fb_rc b.
Proof.
  intros E. unfold fb_clip in E. step E. destruct (t_clip argsort p (fb_mesh b)) as [[t ids]|] eqn:B0; [cbn [bind fst snd] in E|discriminate E]. step E. step E. apply Ok_inj' in E. subst b'. exists ids. cbn.
  split; [reflexivity|]. split; [|auto].
  clear - B2. revert a1 B2. induction (fb_dofs b) as [|d ds IH]; intros l E; cbn [mapM] in E; [apply Ok_inj' in E; now subst|].
  step E. step E. apply Ok_inj' in E. subst l. cbn [map]. f_equal; [|now apply IH]. step B. apply Ok_inj' in B. now subst.
Qed.
Lemma copy_body_inv b n b' : fb_copy b n = Ok b' -> copy (fb_mesh b) = Ok (fb_mesh b') /\ fb_dofs b' = fb_dofs b /\ fb_mass b' = fb_mass b
  /\ fb_com b' = fb_com b /\ fb_rc b' = fb_rc b.
Proof. intros E. unfold fb_copy in E. step E. step E. step E. apply Ok_inj' in E. subst b'. cbn. auto. Qed.
Lemma immersed_inv argsort b im : fb_immersed argsort b = Ok im ->
  map fst (fb_dofs im) = map fst (fb_dofs b) /\ fb_mass im = fb_mass b /\ fb_com im = fb_com b /\ fb_rc im = fb_rc b
  /\ exists t ids, copy (fb_mesh b) = Ok t /\ t_clip argsort (level_plane 0) t = Ok (fb_mesh im, ids).
Proof.
  intros E. unfold fb_immersed in E. step E. destruct (copy_body_inv _ _ _ B) as (C1 & C2 & C3 & C4 & C5). destruct (clip_body_inv _ _ _ _ E) as (ids & D1 & D2 & _ & D4 & D5 & D6).
  rewrite D2, C2, D4, D5, D6. repeat (split; [assumption || reflexivity|]). exists (fb_mesh a), ids. auto.
Qed.
Record computed argsort (b : fbody) div rho g (h : hydrostatics) (b' im : fbody) : Prop := {
  c_im : fb_immersed argsort b = Ok im;
  c_com : fb_com b = Some (h_center_of_mass h);
  c_g : h_g h = g; c_rho : h_rho h = rho;
  c_wet : wet_surface_area (fb_mesh im) = Ok (h_wet_surface_area h);
  c_volumes : volumes (fb_mesh im) = Ok (h_disp_volumes h);
  c_volume : volume (fb_mesh im) = Ok (h_disp_volume h);
  c_mass : disp_mass (fb_mesh im) rho = Ok (h_disp_mass h);
  c_cob : center_of_buoyancy (fb_mesh im) = Ok (h_center_of_buoyancy h);
  c_area : waterplane_area (fb_mesh im) = Ok (h_waterplane_area h);
  c_wc : exists wc, waterplane_center (fb_mesh im) = Ok wc /\ h_waterplane_center h = option_map (fun c => V (fst c) (snd c) 0) wc;
  c_rt : metacentric_radius vy im = Ok (h_transversal_radius h);
  c_rl : metacentric_radius vx im = Ok (h_longitudinal_radius h);
  c_gmt : metacentric_height vy im = Ok (h_transversal_height h);
  c_gml : metacentric_height vx im = Ok (h_longitudinal_height h);
  c_stiffness : compute_hydrostatic_stiffness im div rho g = Ok (h_stiffness h);
  c_lengths : exists vs ws zmin, t_vertices (fb_mesh b) = Ok vs /\ t_vertices (fb_mesh im) = Ok ws
    /\ span (map vx vs) = Ok (h_length_overall h) /\ span (map vy vs) = Ok (h_breadth_overall h) /\ span (map vz vs) = Ok (h_depth h)
    /\ array_min (map vz vs) = Ok zmin /\ h_draught h = Rabs zmin
    /\ span (map vx ws) = Ok (h_length_submerged h) /\ span (map vy ws) = Ok (h_breadth_submerged h)
    /\ at_waterline ws (h_waterplane_area h) = Ok (h_length_at_waterline h, h_breadth_at_waterline h);
  c_inertia : if has_rigid_dof b then exists m, compute_rigid_body_inertia b rho BodyDofs = Ok m /\ h_inertia h = Some m else h_inertia h = None;
  c_body : b' = set_matrices b (match h_inertia h with Some m => Some m | None => fb_inertia b end) (Some (h_stiffness h))
}.
Lemma hydrostatics_inv argsort b div rho g h b' : compute_hydrostatics argsort b div rho g = Ok (h, b') -> exists im, computed argsort b div rho g h b' im.
Proof.
  intros E. unfold compute_hydrostatics in E. destruct (fb_com b) as [com|] eqn:Ec; [|discriminate].
  do 23 step E. apply Ok_inj' in E. assert (E1 : h = _) by exact (eq_sym (f_equal fst E)). assert (E2 : b' = _) by exact (eq_sym (f_equal snd E)). cbn [fst snd] in E1, E2. clear E. exists a.
  subst h. constructor; cbn; try assumption; try reflexivity.
  - eexists. split; [eassumption|reflexivity].
  - destruct a9 as [w1 w2]. do 3 eexists. repeat (split; [first [eassumption|reflexivity]|]). assumption.
  - destruct (has_rigid_dof b); [|now apply Ok_inj' in B21]. step B21. apply Ok_inj' in B21. subst a21. eexists. split; reflexivity || assumption.
Qed.
