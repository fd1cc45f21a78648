(** When the hydrostatics are computed. *)
From Coq Require Import Reals String Ascii List Bool ZArith Arith Lra Lia.
From Verif Require Import Model_Base Model_Geometry Model_Mesh Model_Quality Model_Tree Spec_Mesh Spec_Tree Spec_Clip Proofs_Geometry Proofs_Mesh Proofs_Problem Model_Integrals Spec_Integrals
  Proofs_Tree Proofs_Clip5 Proofs_Integrals Proofs_Integrals2 Proofs_Integrals3 Model_Clip Model_Body Spec_Body Proofs_Body6 Model_Lid Model_Hydro Proofs_Hydro Proofs_Hydro2 Proofs_Hydro3.
Import ListNotations.
Open Scope R_scope.

Lemma mapM_all {A B} (f : A -> result B) l : (forall x, In x l -> exists y, f x = Ok y) -> exists r, mapM f l = Ok r.
Proof.
  induction l as [|a l IH]; intros H; [now exists []|]. destruct (H a (or_introl eq_refl)) as [y Ey]. destruct (IH (fun x h => H x (or_intror h))) as [r Er].
  exists (y :: r). cbn. now rewrite Ey, Er.
Qed.
Lemma span_total l : l <> [] -> exists x, span l = Ok x.
Proof. destruct l; [contradiction|]. eexists. reflexivity. Qed.
Lemma min_total l : l <> [] -> exists x, array_min l = Ok x.
Proof. destruct l; [contradiction|]. eexists. reflexivity. Qed.
Lemma map_filled {A B} (f : A -> B) l : l <> [] -> map f l <> [].
Proof. now destruct l. Qed.
Section Total.
  Variables (t : tree) (qs : list polygon).
  Hypothesis F : filled t.
  Hypothesis P : tree_polygons t qs.
  Lemma volumes_total : exists x, volumes t = Ok x.
  Proof. eexists. unfold volumes. apply (integral3_value t qs F P). Qed.
  Lemma volume_total : exists x, volume t = Ok x.
  Proof. destruct volumes_total as [v E]. unfold volume. rewrite E. eexists. reflexivity. Qed.
  Lemma buoyancy_total : exists x, center_of_buoyancy t = Ok x.
  Proof. destruct volume_total as [v E]. unfold center_of_buoyancy. rewrite (integral3_value t qs F P), E. eexists. reflexivity. Qed.
  Lemma area_total : exists x, waterplane_area t = Ok x.
  Proof. eexists. apply (waterplane_value t qs F P). Qed.
  Lemma wet_total : exists x, wet_surface_area t = Ok x.
  Proof. eexists. apply (integral_const t qs F P). Qed.
  Lemma center_total : exists x, waterplane_center t = Ok x.
  Proof.
    destruct area_total as [a E]. unfold waterplane_center. rewrite E. cbn [bind]. destruct (Rltb _ _); [eexists; reflexivity|].
    rewrite (integral3_value t qs F P). eexists. reflexivity.
  Qed.
  Lemma waterplane_total f : exists x, waterplane_integral t (map f (map p_center (map face_of qs))) = Ok x.
  Proof.
    eexists. pose proof (waterplane_props t (map face_of qs) (fun p => f (p_center p)) (tree_props t qs F P)) as H.
    rewrite (map_map p_center f). exact H.
  Qed.
  Lemma radius_total z b : fb_mesh b = t -> exists x, metacentric_radius z b = Ok x.
  Proof.
    intros E. unfold metacentric_radius, fb_centers. rewrite E, (tree_props t qs F P). cbn [bind]. destruct (waterplane_total (fun c => z c * z c)) as [x ->]. cbn [bind].
    destruct volume_total as [v ->]. eexists. reflexivity.
  Qed.
  Lemma height_total z b com : fb_mesh b = t -> fb_com b = Some com -> exists x, metacentric_height z b = Ok x.
  Proof.
    intros E Ec. unfold metacentric_height. rewrite E, Ec. destruct buoyancy_total as [c ->]. cbn [bind]. destruct (radius_total z b E) as [r ->]. eexists. reflexivity.
  Qed.
  Lemma rigid_total b com rho i j rc : fb_mesh b = t -> fb_rc b = Some rc -> exists x, rigid_stiffness b com rho i j = Ok x.
  Proof.
    intros E Er. unfold rigid_stiffness. rewrite E. destruct volume_total as [v ->]. cbn [bind]. unfold infer_rotation_center, fb_centers. rewrite Er, E, (tree_props t qs F P). cbn [bind].
    destruct buoyancy_total as [c ->]. cbn [bind]. destruct area_total as [a ->]. cbn [bind].
    destruct (waterplane_total (fun c => vy c - vy rc)) as [x1 ->]. destruct (waterplane_total (fun c => vx c - vx rc)) as [x2 ->].
    destruct (waterplane_total (fun c => (vy c - vy rc) * (vy c - vy rc))) as [x3 ->]. destruct (waterplane_total (fun c => (vx c - vx rc) * (vy c - vy rc))) as [x4 ->].
    destruct (waterplane_total (fun c => (vx c - vx rc) * (vx c - vx rc))) as [x5 ->]. cbn [bind].
    repeat match goal with |- context [if ?c then _ else _] => destruct c; [eexists; reflexivity|] end. eexists. reflexivity.
  Qed.
  Lemma stiffness_total b com div rho g rc : fb_mesh b = t -> fb_com b = Some com -> fb_rc b = Some rc -> fb_dofs b <> [] ->
    (forall d, In d (fb_dofs b) -> is_rigid (fst d) = true) -> exists x, compute_hydrostatic_stiffness b div rho g = Ok x.
  Proof.
    intros E Ec Er N H. unfold compute_hydrostatic_stiffness. apply (map_filled fst) in N.
    assert (Hr : forall n, In n (map fst (fb_dofs b)) -> is_rigid n = true) by (intros n Hn; apply in_map_iff in Hn; destruct Hn as (d & <- & Hd); auto).
    set (names := map fst (fb_dofs b)) in *. clearbody names. destruct names as [|n0 ns]; [contradiction|].
    destruct (mapM_all (fun i => mapM (fun j => each_hydrostatic_stiffness b i j (divergence_dof div i) rho g) (n0 :: ns)) (n0 :: ns)) as [r Hm].
    - intros i Hi. apply mapM_all. intros j Hj. unfold each_hydrostatic_stiffness. rewrite (Hr i Hi), (Hr j Hj), Ec. cbn [andb].
      destruct (rigid_total b com rho i j rc E Er) as [x ->]. eexists. reflexivity.
    - rewrite Hm. eexists. reflexivity.
  Qed.
  Lemma inertia_total b com rho rc : fb_mesh b = t -> fb_com b = Some com -> fb_rc b = Some rc -> exists x, compute_rigid_body_inertia b rho BodyDofs = Ok x.
  Proof.
    intros E Ec Er. unfold compute_rigid_body_inertia, rigid_inertia. rewrite Ec. unfold infer_rotation_center. rewrite Er, E, (tree_props t qs F P). cbn [bind].
    destruct volume_total as [v ->]. eexists. reflexivity.
  Qed.
End Total.
Lemma hydrostatics_total argsort b div rho g com rc im qs qs' vs ws : fb_com b = Some com -> fb_rc b = Some rc -> fb_dofs b <> [] ->
  (forall d, In d (fb_dofs b) -> is_rigid (fst d) = true) ->
  filled (fb_mesh b) -> tree_polygons (fb_mesh b) qs -> fb_immersed argsort b = Ok im -> filled (fb_mesh im) -> tree_polygons (fb_mesh im) qs' ->
  t_vertices (fb_mesh b) = Ok vs -> vs <> [] -> t_vertices (fb_mesh im) = Ok ws -> ws <> [] -> (exists v, In v ws /\ Rabs (vz v) <= / 100000000) ->
  exists h b', compute_hydrostatics argsort b div rho g = Ok (h, b').
Proof.
  intros Ec Er Nd Hr F P Ei F' P' Ev Nv Ew Nw (v & Hv & Lv). destruct (immersed_inv _ _ _ Ei) as (I1 & _ & I3 & I4 & _). rewrite Ec in I3. rewrite Er in I4.
  unfold compute_hydrostatics. rewrite Ec, Ei. cbn [bind]. rewrite Ev. cbn [bind].
  destruct (span_total (map vx vs) (map_filled _ _ Nv)) as [x1 ->]. destruct (span_total (map vy vs) (map_filled _ _ Nv)) as [x2 ->].
  destruct (span_total (map vz vs) (map_filled _ _ Nv)) as [x3 ->]. destruct (min_total (map vz vs) (map_filled _ _ Nv)) as [x4 ->]. rewrite Ew. cbn [bind].
  destruct (span_total (map vx ws) (map_filled _ _ Nw)) as [x5 ->]. destruct (span_total (map vy ws) (map_filled _ _ Nw)) as [x6 ->]. cbn [bind].
  destruct (area_total _ _ F' P') as [a ->]. cbn [bind].
  assert (exists w, at_waterline ws a = Ok w) as [w ->].
  { unfold at_waterline. destruct (Rltb _ _); [|eexists; reflexivity]. cbn zeta.
    assert (N : filter (fun v => Rleb (Rabs (vz v)) (/ 100000000)) ws <> []).
    { intros E0. assert (I0 : In v (filter (fun v => Rleb (Rabs (vz v)) (/ 100000000)) ws)) by (apply filter_In; split; [exact Hv|now apply Rleb_true]). rewrite E0 in I0. destruct I0. }
    destruct (span_total _ (map_filled vx _ N)) as [y1 ->]. destruct (span_total _ (map_filled vy _ N)) as [y2 ->]. eexists. reflexivity. }
  cbn [bind]. destruct (wet_total _ _ F' P') as [x7 ->]. destruct (volumes_total _ _ F' P') as [x8 ->]. destruct (volume_total _ _ F' P') as [x9 E9]. rewrite E9. cbn [bind].
  unfold disp_mass. rewrite E9. cbn [bind]. destruct (buoyancy_total _ _ F' P') as [y1 ->]. destruct (center_total _ _ F' P') as [y2 ->]. cbn [bind].
  destruct (radius_total _ _ F' P' vy im eq_refl) as [y3 ->]. destruct (radius_total _ _ F' P' vx im eq_refl) as [y4 ->]. cbn [bind].
  destruct (height_total _ _ F' P' vy im _ eq_refl I3) as [y5 ->]. destruct (height_total _ _ F' P' vx im _ eq_refl I3) as [y6 ->]. cbn [bind].
  assert (Nd' : fb_dofs im <> []) by (intros E0; rewrite E0 in I1; destruct (fb_dofs b); [contradiction|discriminate]).
  assert (Hr' : forall d, In d (fb_dofs im) -> is_rigid (fst d) = true).
  { intros d Hd. apply (in_map fst) in Hd. rewrite I1 in Hd. apply in_map_iff in Hd. destruct Hd as (d' & <- & Hd'). auto. }
  destruct (stiffness_total _ _ F' P' im _ div rho g _ eq_refl I3 I4 Nd' Hr') as [k ->]. cbn [bind].
  destruct (has_rigid_dof b).
  - destruct (inertia_total _ _ F P b _ rho _ eq_refl Ec Er) as [m ->]. eexists. eexists. reflexivity.
  - eexists. eexists. reflexivity.
Qed.
Lemma stack_hydrostatics argsort rho g : exists h b', compute_hydrostatics argsort (hung "s" stack 7) [] rho g = Ok (h, b').
Proof.
  destruct (stack_immersed argsort) as (im & Ei & Em & Ec & Er & _). destruct stack_surface as (F & P & _). destruct below_surface as (F' & P' & _).
  eapply (hydrostatics_total argsort (hung "s" stack 7) [] rho g _ _ im); [reflexivity|reflexivity|discriminate| |exact F|exact P|exact Ei|rewrite Em; exact F'|rewrite Em; exact P'|reflexivity|discriminate|rewrite Em; reflexivity|discriminate|].
  - intros d Hd. cbn in Hd. repeat (destruct Hd as [<-|Hd]; [reflexivity|]). destruct Hd.
  - exists (V 0 0 0). split; [now left|]. cbn. rewrite Rabs_R0. lra.
Qed.
Lemma stack_values argsort rho g h b' : compute_hydrostatics argsort (hung "s" stack 7) [] rho g = Ok (h, b') ->
  h_disp_volume h = 1 / 6 /\ h_disp_mass h = rho * (1 / 6) /\ (exists gm, h_transversal_height h = Some gm) /\ (exists gm, h_longitudinal_height h = Some gm).
Proof.
  intros E. destruct (hydrostatics_inv _ _ _ _ _ _ _ E) as (im & C). destruct (stack_immersed argsort) as (im' & Ei & Em & Ec & Er & _).
  assert (im' = im) as -> by (pose proof (c_im _ _ _ _ _ _ _ _ C); congruence).
  pose proof (c_volume _ _ _ _ _ _ _ _ C) as Ev. rewrite Em, below_volume in Ev. apply Ok_inj' in Ev. split; [symmetry; exact Ev|].
  pose proof (c_mass _ _ _ _ _ _ _ _ C) as Ed. unfold disp_mass in Ed. rewrite Em, below_volume in Ed. cbn [bind] in Ed. apply Ok_inj' in Ed. split; [symmetry; exact Ed|].
  assert (N6 : Reqb (1 / 6) 0 = false) by (apply Reqb_false; lra). destruct below_surface as (F' & P' & _).
  assert (H : forall z, exists gm, metacentric_height z im = Ok (Some gm)).
  { intros z. unfold metacentric_height. rewrite Em, Ec. unfold center_of_buoyancy. rewrite (integral3_value _ _ F' P'), below_volume. cbn [bind]. rewrite N6.
    unfold metacentric_radius, fb_centers. rewrite Em, (tree_props _ _ F' P'). cbn [bind]. destruct (waterplane_total _ _ F' P' (fun c => z c * z c)) as [x ->]. cbn [bind]. rewrite below_volume. cbn [bind].
    unfold quotient. rewrite N6. eexists. reflexivity. }
  split; [destruct (H vy) as [gm Eg]; pose proof (c_gmt _ _ _ _ _ _ _ _ C) as X|destruct (H vx) as [gm Eg]; pose proof (c_gml _ _ _ _ _ _ _ _ C) as X]; exists gm; rewrite Eg in X; now apply Ok_inj' in X.
Qed.
