(** What is returned by [compute_hydrostatics]. *)
From Coq Require Import Reals String Ascii List Bool ZArith Arith Lra Lia.
From Verif Require Import Model_Base Model_Geometry Model_Mesh Model_Quality Model_Tree Spec_Mesh Spec_Tree Spec_Clip Proofs_Geometry Proofs_Mesh Proofs_Problem Model_Integrals Spec_Integrals
  Proofs_Tree Proofs_Clip5 Proofs_Integrals Proofs_Integrals2 Proofs_Integrals3 Model_Clip Model_Body Spec_Body Proofs_Body6 Model_Lid Proofs_Lid3 Model_Hydro Spec_Hydro Proofs_Hydro Proofs_Hydro2
  Proofs_Hydro3 Proofs_Hydro4.
Import ListNotations.
Open Scope R_scope.

Lemma span_distance z vs d : span (map z vs) = Ok d -> greatest_distance z vs d.
Proof.
  intros E. assert (N : map z vs <> []) by (intros E0; rewrite E0 in E; discriminate). unfold span in E.
  destruct (array_max_spec _ N) as (a & Ea & Ia & La). destruct (array_min_spec _ N) as (c & Ec & Ic & Lc). rewrite Ea in E. cbn [bind] in E. rewrite Ec in E. apply Ok_inj' in E. subst d.
  apply in_map_iff in Ia. apply in_map_iff in Ic. destruct Ia as (u & <- & Hu). destruct Ic as (v & <- & Hv). split; [exists u, v; auto|].
  intros u' v' Hu' Hv'. specialize (La (z u') (in_map z _ _ Hu')). specialize (Lc (z v') (in_map z _ _ Hv')). lra.
Qed.
Lemma distance_filter z (t : vec -> bool) vs d d' : greatest_distance z vs d -> greatest_distance z (filter t vs) d' -> d' <= d.
Proof. intros [_ L] [(u & v & Hu & Hv & <-) _]. apply filter_In in Hu. apply filter_In in Hv. now apply L. Qed.
Lemma distance_pos z vs d : greatest_distance z vs d -> 0 <= d.
Proof. intros [(u & _ & Hu & _) L]. specialize (L u u Hu Hu). lra. Qed.
Lemma hydrostatics_spec argsort b div rho g h b' : compute_hydrostatics argsort b div rho g = Ok (h, b') ->
  exists im vs ws, fb_immersed argsort b = Ok im /\ t_vertices (fb_mesh b) = Ok vs /\ t_vertices (fb_mesh im) = Ok ws
  /\ fb_com b = Some (h_center_of_mass h)
  /\ wet_surface_area (fb_mesh im) = Ok (h_wet_surface_area h) /\ volumes (fb_mesh im) = Ok (h_disp_volumes h)
  /\ volume (fb_mesh im) = Ok (h_disp_volume h) /\ h_disp_mass h = rho * h_disp_volume h
  /\ center_of_buoyancy (fb_mesh im) = Ok (h_center_of_buoyancy h) /\ waterplane_area (fb_mesh im) = Ok (h_waterplane_area h)
  /\ greatest_distance vx vs (h_length_overall h) /\ greatest_distance vy vs (h_breadth_overall h) /\ greatest_distance vz vs (h_depth h)
  /\ greatest_distance vx ws (h_length_submerged h) /\ greatest_distance vy ws (h_breadth_submerged h)
  /\ h_length_at_waterline h <= h_length_submerged h /\ h_breadth_at_waterline h <= h_breadth_submerged h
  /\ (exists v, In v vs /\ h_draught h = Rabs (vz v) /\ forall u, In u vs -> vz v <= vz u)
  /\ fb_stiffness b' = Some (h_stiffness h)
  /\ (forall m, h_inertia h = Some m -> fb_inertia b' = Some m) /\ (h_inertia h = None -> fb_inertia b' = fb_inertia b)
  /\ b = set_matrices b' (fb_inertia b) (fb_stiffness b).
Proof.
  intros E. destruct (hydrostatics_inv _ _ _ _ _ _ _ E) as (im & C). destruct C as [Ci Cc _ _ Cw Cvs Cv Cm Cb Ca _ _ _ _ _ _ (vs & ws & zmin & L1 & L2 & L3 & L4 & L5 & L6 & L7 & L8 & L9 & L10) _ Cbody].
  exists im, vs, ws. split; [exact Ci|]. split; [exact L1|]. split; [exact L2|]. split; [exact Cc|]. split; [exact Cw|]. split; [exact Cvs|]. split; [exact Cv|].
  split; [unfold disp_mass in Cm; rewrite Cv in Cm; cbn [bind] in Cm; symmetry; now apply Ok_inj' in Cm|]. split; [exact Cb|]. split; [exact Ca|].
  split; [now apply span_distance|]. split; [now apply span_distance|]. split; [now apply span_distance|].
  pose proof (span_distance _ _ _ L8) as D8. pose proof (span_distance _ _ _ L9) as D9. split; [exact D8|]. split; [exact D9|].
  assert (W : h_length_at_waterline h <= h_length_submerged h /\ h_breadth_at_waterline h <= h_breadth_submerged h).
  { unfold at_waterline in L10. destruct (Rltb _ _).
    - cbn zeta in L10. step L10. step L10. apply Ok_inj' in L10. injection L10 as <- <-. apply span_distance in B, B0.
      split; [exact (distance_filter _ _ _ _ _ D8 B)|exact (distance_filter _ _ _ _ _ D9 B0)].
    - apply Ok_inj' in L10. injection L10 as <- <-. split; [exact (distance_pos _ _ _ D8)|exact (distance_pos _ _ _ D9)]. }
  split; [apply W|]. split; [apply W|]. split.
  { assert (N : map vz vs <> []) by (intros E0; rewrite E0 in L6; discriminate). destruct (array_min_spec _ N) as (c & Ec & Ic & Lc). rewrite Ec in L6. apply Ok_inj' in L6. subst c.
    apply in_map_iff in Ic. destruct Ic as (v & Ev & Hv). exists v. split; [exact Hv|]. split; [now rewrite L7, Ev|]. intros u Hu. rewrite Ev. apply Lc. now apply in_map. }
  subst b'. split; [reflexivity|]. split; [intros m Hm; cbn; now rewrite Hm|]. split; [intros Hm; cbn; now rewrite Hm|]. now destruct b.
Qed.
Lemma hydrostatics_surge argsort b div rho g h b' m vol : compute_hydrostatics argsort b div rho g = Ok (h, b') -> h_inertia h = Some m ->
  volume (fb_mesh b) = Ok vol -> vol <> 0 -> forall k, nth_error (lm_labels m) k = Some "Surge"%string ->
  (forall mass, fb_mass b = Some mass -> coefficient m k k = Some (Some mass))
  /\ (fb_mass b = None -> vol = h_disp_volume h -> coefficient m k k = Some (Some (h_disp_mass h))).
Proof.
  intros E Hm Ev Nv k Hk. destruct (hydrostatics_inv _ _ _ _ _ _ _ E) as (im & C). pose proof (c_inertia _ _ _ _ _ _ _ _ C) as I.
  destruct (has_rigid_dof b); [|congruence]. destruct I as (m' & Em & E'). assert (m' = m) as -> by congruence.
  pose proof (translation_block b rho BodyDofs m vol Ev (fun _ => Nv) Em k k _ _ Hk Hk (or_introl eq_refl) (or_introl eq_refl)) as T. rewrite String.eqb_refl in T.
  rewrite T. unfold mass_of. split; [intros mass ->; reflexivity|]. intros -> ->. do 2 f_equal.
  pose proof (c_mass _ _ _ _ _ _ _ _ C) as Ed. unfold disp_mass in Ed. rewrite (c_volume _ _ _ _ _ _ _ _ C) in Ed. cbn [bind] in Ed. now apply Ok_inj' in Ed.
Qed.
Lemma stack_inertia argsort rho g h b' : compute_hydrostatics argsort (hung "s" stack 7) [] rho g = Ok (h, b') ->
  exists m, h_inertia h = Some m /\ lm_labels m = ["Surge"%string; "Heave"%string; "Roll"%string; "Pitch"%string] /\ coefficient m 0 0 = Some (Some (rho * (1 / 3))).
Proof.
  intros E. destruct (hydrostatics_inv _ _ _ _ _ _ _ E) as (im & C). pose proof (c_inertia _ _ _ _ _ _ _ _ C) as I. change (has_rigid_dof (hung "s" stack 7)) with true in I. cbv iota in I.
  destruct I as (m & Em & E'). exists m. split; [exact E'|].
  assert (L : lm_labels m = ["Surge"%string; "Heave"%string; "Roll"%string; "Pitch"%string]).
  { unfold compute_rigid_body_inertia in Em. step Em. apply Ok_inj' in Em. now subst m. }
  split; [exact L|]. rewrite (translation_block (hung "s" stack 7) rho BodyDofs m (1 / 3) stack_volume ltac:(intros H; now destruct H) Em 0 0 "Surge"%string "Surge"%string); [reflexivity| | | |]; try (now rewrite L); now left.
Qed.
Lemma without_dofs argsort b div rho g : fb_dofs b = [] -> exists e, compute_hydrostatics argsort b div rho g = Err e.
Proof.
  intros D. destruct (compute_hydrostatics argsort b div rho g) as [[h b']|e] eqn:E; [|now exists e]. exfalso.
  destruct (hydrostatics_inv _ _ _ _ _ _ _ E) as (im & C). destruct (immersed_inv _ _ _ (c_im _ _ _ _ _ _ _ _ C)) as (I1 & _). pose proof (c_stiffness _ _ _ _ _ _ _ _ C) as K.
  unfold compute_hydrostatic_stiffness in K. rewrite I1, D in K. discriminate.
Qed.
(** A pyramid that is wholly immersed. *)
Lemma sunk_immersed argsort : exists b, fb_immersed argsort (hung "p" (Leaf pyramid) 3) = Ok b /\ fb_mesh b = Leaf pyramid.
Proof.
  unfold fb_immersed. change (fb_copy (hung "p" (Leaf pyramid) 3) (Some (fb_name (hung "p" (Leaf pyramid) 3)))) with (Ok (hung "p" (Leaf pyramid) 3)). cbn [bind]. unfold fb_clip.
  change (fb_check (hung "p" (Leaf pyramid) 3)) with (Ok tt). cbn [bind].
  assert (t_clip argsort (level_plane 0) (fb_mesh (hung "p" (Leaf pyramid) 3)) = Ok (Leaf pyramid, [0; 1; 2]%nat)) as -> by (cbn [hung fb_mesh t_clip]; now rewrite pyramid_clip).
  eexists. split; reflexivity.
Qed.
Lemma sunk_hydrostatics argsort rho g : exists h b', compute_hydrostatics argsort (hung "p" (Leaf pyramid) 3) [] rho g = Ok (h, b') /\ volume (Leaf pyramid) = Ok (h_disp_volume h)
  /\ exists m, h_inertia h = Some m.
Proof.
  destruct (sunk_immersed argsort) as (im & Ei & Em). destruct pyramid_surface as (F & P & _).
  destruct (hydrostatics_total argsort (hung "p" (Leaf pyramid) 3) [] rho g (V 0 0 0) (V 0 0 0) im pyramid_faces pyramid_faces (m_vertices pyramid) (m_vertices pyramid)) as (h & b' & E);
    [reflexivity|reflexivity|discriminate| |exact F|exact P|exact Ei|rewrite Em; exact F|rewrite Em; exact P|reflexivity|discriminate|rewrite Em; reflexivity|discriminate| |].
  - intros d Hd. cbn in Hd. repeat (destruct Hd as [<-|Hd]; [reflexivity|]). destruct Hd.
  - exists (V 0 0 0). split; [now left|]. cbn. rewrite Rabs_R0. lra.
  - exists h, b'. split; [exact E|]. destruct (hydrostatics_inv _ _ _ _ _ _ _ E) as (im' & C). assert (im' = im) as -> by (pose proof (c_im _ _ _ _ _ _ _ _ C); congruence).
    split; [rewrite <- Em; exact (c_volume _ _ _ _ _ _ _ _ C)|]. pose proof (c_inertia _ _ _ _ _ _ _ _ C) as I. change (has_rigid_dof (hung "p" (Leaf pyramid) 3)) with true in I.
    destruct I as (m & _ & Hm). now exists m.
Qed.
