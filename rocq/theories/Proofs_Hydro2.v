(** The stiffness of a computation of hydrostatics, and the metacentres of translated hulls. *)
From Coq Require Import Reals String Ascii List Bool ZArith Arith Lra Lia.
From Verif Require Import Model_Base Model_Geometry Model_Mesh Model_Quality Model_Tree Spec_Mesh Spec_Tree Spec_Clip Proofs_Geometry Proofs_Mesh Proofs_Problem Model_Integrals Spec_Integrals
  Proofs_Tree Proofs_Integrals Proofs_Integrals2 Model_Clip Model_Body Spec_Body Proofs_Body6 Model_Lid Model_Hydro Proofs_Hydro.
Import ListNotations.
Open Scope R_scope.

Lemma stiffness_diagonal b com div rho g m k n : fb_com b = Some com -> compute_hydrostatic_stiffness b div rho g = Ok m ->
  nth_error (lm_labels m) k = Some n -> is_rigid n = true ->
  lm_labels m = map fst (fb_dofs b) /\ exists x, rigid_stiffness b com rho n n = Ok x /\ coefficient m k k = Some (option_map (fun y => rho * g * y) x).
Proof.
  intros Ec Em Hk Rn. unfold compute_hydrostatic_stiffness in Em. destruct (map fst (fb_dofs b)) as [|n0 ns] eqn:En; [discriminate|].
  set (names := n0 :: ns) in *. clearbody names. step Em. apply Ok_inj' in Em. subst m. cbn [lm_labels] in *. split; [reflexivity|].
  destruct (mapM_entry _ _ _ _ _ B Hk) as (r & Hr & Er). destruct (mapM_entry _ _ _ _ _ Er Hk) as (x & Hx & Ex).
  unfold each_hydrostatic_stiffness in Ex. rewrite Rn, Ec in Ex. cbn [andb] in Ex. step Ex. apply Ok_inj' in Ex. exists a0. split; [reflexivity|].
  unfold coefficient. cbn [lm_rows]. rewrite Hr, Hx, <- Ex. reflexivity.
Qed.
Lemma stiffness_labels b div rho g m : compute_hydrostatic_stiffness b div rho g = Ok m -> lm_labels m = map fst (fb_dofs b).
Proof.
  intros Em. unfold compute_hydrostatic_stiffness in Em. destruct (map fst (fb_dofs b)) as [|n0 ns]; [discriminate|]. step Em. apply Ok_inj' in Em. now subst m.
Qed.
Section Computed.
  Variables (argsort : list R -> list nat) (b : fbody) (div : list (string * list R)) (rho g : R) (h : hydrostatics) (b' : fbody).
  Hypothesis E : compute_hydrostatics argsort b div rho g = Ok (h, b').

  Lemma computed_labels : lm_labels (h_stiffness h) = map fst (fb_dofs b).
  Proof.
    destruct (hydrostatics_inv _ _ _ _ _ _ _ E) as (im & C). rewrite (stiffness_labels _ _ _ _ _ (c_stiffness _ _ _ _ _ _ _ _ C)).
    exact (proj1 (immersed_inv _ _ _ (c_im _ _ _ _ _ _ _ _ C))).
  Qed.
  Lemma computed_heave k : nth_error (lm_labels (h_stiffness h)) k = Some "Heave"%string ->
    coefficient (h_stiffness h) k k = Some (Some (rho * g * h_waterplane_area h)).
  Proof.
    intros Hk. destruct (hydrostatics_inv _ _ _ _ _ _ _ E) as (im & C). destruct (immersed_inv _ _ _ (c_im _ _ _ _ _ _ _ _ C)) as (_ & _ & I3 & _).
    rewrite (c_com _ _ _ _ _ _ _ _ C) in I3. destruct (stiffness_diagonal im _ _ _ _ _ _ _ I3 (c_stiffness _ _ _ _ _ _ _ _ C) Hk eq_refl) as (_ & x & Ex & ->).
    assert (exists rc, infer_rotation_center im = Ok rc) as [rc Er].
    { unfold rigid_stiffness in Ex. step Ex. step Ex. eexists. reflexivity. }
    rewrite (heave_stiffness im _ rho _ rc _ _ I3 (c_volume _ _ _ _ _ _ _ _ C) Er (c_cob _ _ _ _ _ _ _ _ C) (c_area _ _ _ _ _ _ _ _ C)) in Ex.
    apply Ok_inj' in Ex. now subst x.
  Qed.
  Lemma computed_own (x : bool) rc gm k : rho <> 0 -> fb_mass b = None \/ fb_mass b = Some (h_disp_mass h) -> fb_rc b = Some rc -> own_axis x rc = 0 ->
    (if x then h_longitudinal_height h else h_transversal_height h) = Some gm ->
    nth_error (lm_labels (h_stiffness h)) k = Some (own_name x) ->
    coefficient (h_stiffness h) k k = Some (Some (rho * g * h_disp_volume h * gm)).
  Proof.
    intros Hr Hm Hrc H0 Hg Hk. destruct (hydrostatics_inv _ _ _ _ _ _ _ E) as (im & C). destruct (immersed_inv _ _ _ (c_im _ _ _ _ _ _ _ _ C)) as (_ & I2 & I3 & I4 & _).
    rewrite (c_com _ _ _ _ _ _ _ _ C) in I3. rewrite Hrc in I4.
    assert (Rn : is_rigid (own_name x) = true) by now destruct x.
    destruct (stiffness_diagonal im _ _ _ _ _ _ _ I3 (c_stiffness _ _ _ _ _ _ _ _ C) Hk Rn) as (_ & y & Ey & ->).
    assert (Er : infer_rotation_center im = Ok rc) by (unfold infer_rotation_center; now rewrite I4).
    pose proof (c_volume _ _ _ _ _ _ _ _ C) as Ev.
    assert (Em : mass_of im rho (h_disp_volume h) = rho * h_disp_volume h).
    { unfold mass_of. rewrite I2. destruct Hm as [-> | ->]; [reflexivity|]. pose proof (c_mass _ _ _ _ _ _ _ _ C) as Ed. unfold disp_mass in Ed. rewrite Ev in Ed. cbn [bind] in Ed.
      now apply Ok_inj' in Ed. }
    assert (Eg : metacentric_height (own_axis x) im = Ok (Some gm)).
    { destruct x; cbn [own_axis]; rewrite <- Hg; [exact (c_gml _ _ _ _ _ _ _ _ C)|exact (c_gmt _ _ _ _ _ _ _ _ C)]. }
    rewrite (own_stiffness x im _ rho _ rc gm I3 Hr Ev Em Er H0 Eg) in Ey. apply Ok_inj' in Ey. subst y. cbn [option_map]. do 2 f_equal. ring.
  Qed.
End Computed.

(** ** Translations along the free surface *)
Section Hull.
  Variables (t : tree) (qs ls : list polygon) (w : vec).
  Hypothesis S : proper_surface t qs.
  Hypothesis Hl : Forall horizontal_lid ls.
  Hypothesis W : watertight (qs ++ ls).
  Hypothesis Hw : vz w = 0.

  Lemma hull_area_vector : vx (vsum (map area_of qs)) = 0 /\ vy (vsum (map area_of qs)) = 0.
  Proof.
    pose proof (closed_area _ W) as C. rewrite map_app, vsum_app' in C.
    assert (Z : forall z : vec -> R, (forall u v, z (vadd u v) = z u + z v) -> z v0 = 0 -> (forall q, horizontal_lid q -> z (area_of q) = 0) -> z (vsum (map area_of qs)) = 0).
    { intros z Za Z0 Zl. apply (f_equal z) in C. rewrite Za, Z0 in C.
      assert (z (vsum (map area_of ls)) = 0).
      { rewrite Forall_forall in Hl. clear - Hl Za Z0 Zl. induction ls as [|q l IH]; [exact Z0|]. cbn [map]. change (z (vadd (area_of q) (vsum (map area_of l))) = 0).
        rewrite Za, (Zl q), IH; [ring| |apply Hl; now left]. intros q' Hq'. apply Hl. now right. }
      lra. }
    split; apply Z; try reflexivity; intros q Hq; apply (lid_flux q Hq).
  Qed.
  Lemma moved_props q : In q qs -> p_area (face_of (poly_map (fun x => vadd x w) q)) = p_area (face_of q) /\ p_normal (face_of (poly_map (fun x => vadd x w) q)) = p_normal (face_of q)
    /\ p_center (face_of (poly_map (fun x => vadd x w) q)) = vadd (p_center (face_of q)) w.
  Proof. intros Hq. destruct (translated_face w q) as (A & B & C & _); [destruct S as (_ & _ & G); now apply (proj1 (Forall_forall _ _) G)|]. auto. Qed.
  Lemma normal_sum (z : vec -> R) : (forall u v, z (vadd u v) = z u + z v) -> z v0 = 0 -> (forall k u, z (vscale k u) = k * z u) ->
    Rsum (map (fun q => z (p_normal (face_of q)) * p_area (face_of q)) qs) = z (vsum (map area_of qs)).
  Proof.
    intros Za Z0 Zs. destruct S as (_ & _ & G). rewrite Forall_forall in G. clear - Za Z0 Zs G. induction qs as [|q l IH]; [symmetry; exact Z0|].
    cbn [map]. rewrite Rsum_cons. change (vsum (area_of q :: map area_of l)) with (vadd (area_of q) (vsum (map area_of l))). rewrite Za, IH by (intros q' Hq'; apply G; now right).
    destruct (face_flux q (G q (or_introl eq_refl))) as (_ & _ & B1 & _). rewrite <- B1, Zs. ring.
  Qed.
  Lemma hull_volume_moved v : volume t = Ok v -> volume (t_translate t w) = Ok v.
  Proof.
    pose proof (translate_surface t w qs S) as S'. destruct (S) as (F & P & _). destruct (S') as (F' & P' & _). destruct hull_area_vector as [Ax Ay].
    unfold volume, volumes. rewrite (integral3_value t qs F P), (integral3_value _ _ F' P'). cbn [bind vx vy vz]. intros <-. do 3 f_equal; [f_equal|]; rewrite map_map.
    - rewrite (Rsum_ext _ (fun q => vx (vmul (p_normal (face_of q)) (p_center (face_of q))) * p_area (face_of q) + vx w * (vx (p_normal (face_of q)) * p_area (face_of q)))).
      + rewrite Rsum_plus, Rsum_scal, (normal_sum vx) by (intros; reflexivity). rewrite Ax. ring.
      + intros q Hq. destruct (moved_props q Hq) as (-> & -> & ->). cbn. ring.
    - rewrite (Rsum_ext _ (fun q => vy (vmul (p_normal (face_of q)) (p_center (face_of q))) * p_area (face_of q) + vy w * (vy (p_normal (face_of q)) * p_area (face_of q)))).
      + rewrite Rsum_plus, Rsum_scal, (normal_sum vy) by (intros; reflexivity). rewrite Ay. ring.
      + intros q Hq. destruct (moved_props q Hq) as (-> & -> & ->). cbn. ring.
    - apply Rsum_ext. intros q Hq. destruct (moved_props q Hq) as (-> & -> & ->). cbn. rewrite Hw. ring.
  Qed.
  Lemma hull_radius_moved (z : vec -> R) b b' r v A C : (forall u u', z (vadd u u') = z u + z u') -> fb_mesh b = t -> fb_mesh b' = t_translate t w ->
    volume t = Ok v -> waterplane_area t = Ok A -> waterplane_integral t (map (fun q => z (p_center (face_of q))) qs) = Ok (- (A * C)) ->
    metacentric_radius z b = Ok (Some r) -> metacentric_radius z b' = Ok (Some (r + A * (2 * C * z w + z w * z w) / v)).
  Proof.
    intros Za Eb Eb' Ev EA EC Er. pose proof (translate_surface _ w qs S) as S'. destruct (S) as (F & P & _). destruct (S') as (F' & P' & _).
    pose proof (tree_props _ _ F P) as Ep. pose proof (tree_props _ _ F' P') as Ep'.
    pose proof (hull_volume_moved v Ev) as Ev'. unfold metacentric_radius, fb_centers in *. rewrite Eb', Ep', Ev'. rewrite Eb, Ep, Ev in Er. cbn [bind] in *.
    rewrite (map_map p_center (fun c => z c * z c)) in Er. rewrite (map_map p_center (fun c => z c * z c)). rewrite (waterplane_props _ _ (fun p => z (p_center p) * z (p_center p)) Ep) in Er.
    rewrite (waterplane_props _ _ (fun p => z (p_center p) * z (p_center p)) Ep'). cbn [bind] in *. unfold quotient in *. destruct (Reqb v 0) eqn:Z0; [discriminate|].
    assert (Nz : v <> 0) by (intros ->; rewrite Reqb_refl in Z0; discriminate). apply Ok_inj' in Er. injection Er as <-. do 2 f_equal. rewrite !map_map.
    rewrite (waterplane_area_props _ _ Ep), map_map in EA. apply Ok_inj' in EA.
    rewrite <- (map_map face_of (fun p => z (p_center p))), (waterplane_props _ _ (fun p => z (p_center p)) Ep), map_map in EC. apply Ok_inj' in EC.
    rewrite (Rsum_ext _ (fun q => vz (p_normal (face_of q)) * (z (p_center (face_of q)) * z (p_center (face_of q))) * p_area (face_of q)
      + (2 * z w * (vz (p_normal (face_of q)) * z (p_center (face_of q)) * p_area (face_of q)) + z w * z w * (vz (p_normal (face_of q)) * p_area (face_of q))))).
    - rewrite Rsum_plus, Rsum_plus, !Rsum_scal, EC, <- EA. field. exact Nz.
    - intros q Hq. destruct (moved_props q Hq) as (-> & -> & ->). rewrite Za. ring.
  Qed.
  Lemma hull_buoyancy_moved c : center_of_buoyancy t = Ok (Some c) -> exists c', center_of_buoyancy (t_translate t w) = Ok (Some c') /\ vz c' = vz c.
  Proof.
    pose proof (translate_surface _ w qs S) as S'. destruct (S) as (F & P & _). destruct (S') as (F' & P' & _).
    unfold center_of_buoyancy. rewrite (integral3_value t qs F P), (integral3_value _ _ F' P'). cbn [bind]. destruct (volume t) as [v|] eqn:Ev; [|discriminate]. rewrite (hull_volume_moved v Ev). cbn [bind].
    destruct (Reqb v 0); [discriminate|]. intros E. apply Ok_inj' in E. injection E as <-. eexists. split; [reflexivity|]. cbn [vz vscale]. f_equal. rewrite map_map.
    apply Rsum_ext. intros q Hq. destruct (moved_props q Hq) as (-> & -> & ->). cbn. rewrite Hw. ring.
  Qed.
End Hull.
