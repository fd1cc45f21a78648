(** Translated hulls and a pyramid below a tetrahedron. *)
From Coq Require Import Reals String Ascii List Bool ZArith Arith Lra Lia.
From Verif Require Import Model_Base Model_Geometry Model_Mesh Model_Quality Model_Tree Spec_Mesh Spec_Tree Spec_Clip Proofs_Geometry Proofs_Mesh Proofs_Problem Model_Integrals Spec_Integrals
  Proofs_Tree Proofs_Clip5 Proofs_Integrals Proofs_Integrals2 Proofs_Integrals3 Model_Clip Model_Body Spec_Body Proofs_Body6 Model_Lid Proofs_Lid8 Model_Hydro Proofs_Hydro Proofs_Hydro2.
Import ListNotations.
Open Scope R_scope.

Lemma center_moments t qs A xc yc : filled t -> tree_polygons t qs -> waterplane_area t = Ok A -> waterplane_center t = Ok (Some (xc, yc)) ->
  waterplane_integral t (map (fun q => vx (p_center (face_of q))) qs) = Ok (- (A * xc))
  /\ waterplane_integral t (map (fun q => vy (p_center (face_of q))) qs) = Ok (- (A * yc)).
Proof.
  intros F P EA EC. unfold waterplane_center in EC. rewrite EA in EC. cbn [bind] in EC.
  destruct (Rltb (Rabs A) (/ 10000000000)) eqn:L; [discriminate|]. apply Rltb_false in L.
  assert (NA : A <> 0) by (intros ->; rewrite Rabs_R0 in L; lra).
  rewrite (integral3_value t qs F P) in EC. cbn [bind vx vy vz] in EC. apply Ok_inj' in EC.
  pose proof (tree_props t qs F P) as Ep.
  rewrite <- (map_map face_of (fun p => vx (p_center p))), <- (map_map face_of (fun p => vy (p_center p))).
  rewrite (waterplane_props t _ (fun p => vx (p_center p)) Ep), (waterplane_props t _ (fun p => vy (p_center p)) Ep), !map_map.
  cbn [vscale vx vy vz] in EC.
  match type of EC with Some (?a, ?b) = _ => assert (Ex : a = xc) by congruence; assert (Ey : b = yc) by congruence end. clear EC.
  split; f_equal; [rewrite <- Ex|rewrite <- Ey].
  - field. exact NA.
  - field. exact NA.
Qed.
Lemma radius_moved (x : bool) b qs ls w A xc yc v r : proper_surface (fb_mesh b) qs -> Forall horizontal_lid ls -> watertight (qs ++ ls) -> vz w = 0 ->
  waterplane_area (fb_mesh b) = Ok A -> waterplane_center (fb_mesh b) = Ok (Some (xc, yc)) -> volume (fb_mesh b) = Ok v ->
  metacentric_radius (own_axis x) b = Ok (Some r) ->
  metacentric_radius (own_axis x) (fb_translate b w) = Ok (Some (r + A * (2 * (if x then xc else yc) * own_axis x w + own_axis x w * own_axis x w) / v)).
Proof.
  intros S Hl W Hw EA EC Ev Er. destruct (center_moments _ qs A xc yc (proj1 S) (proj1 (proj2 S)) EA EC) as [Cx Cy].
  apply (hull_radius_moved (fb_mesh b) qs ls w S Hl W Hw (own_axis x) b); try assumption; try reflexivity; destruct x; try reflexivity; assumption.
Qed.
Lemma height_moved (x : bool) b qs ls w A xc yc v gm : proper_surface (fb_mesh b) qs -> Forall horizontal_lid ls -> watertight (qs ++ ls) -> vz w = 0 ->
  waterplane_area (fb_mesh b) = Ok A -> waterplane_center (fb_mesh b) = Ok (Some (xc, yc)) -> volume (fb_mesh b) = Ok v ->
  metacentric_height (own_axis x) b = Ok (Some gm) ->
  metacentric_height (own_axis x) (fb_translate b w) = Ok (Some (gm + A * (2 * (if x then xc else yc) * own_axis x w + own_axis x w * own_axis x w) / v)).
Proof.
  intros S Hl W Hw EA EC Ev Eg. unfold metacentric_height in *. step Eg. destruct (fb_com b) as [com|] eqn:Ec; [|discriminate]. step Eg.
  destruct a0 as [r|]; [|discriminate]. destruct a as [c|]; [|discriminate]. apply Ok_inj' in Eg. injection Eg as <-.
  destruct (hull_buoyancy_moved _ qs ls w S Hl W Hw c B) as (c' & Ec' & Ez). change (fb_mesh (fb_translate b w)) with (t_translate (fb_mesh b) w). rewrite Ec'. cbn [bind].
  assert (fb_com (fb_translate b w) = Some (vadd com w)) as -> by (unfold fb_translate; cbn; now rewrite Ec).
  rewrite (radius_moved x b qs ls w A xc yc v r S Hl W Hw EA EC Ev B0). cbn [bind vz vadd]. rewrite Hw, Ez. do 2 f_equal. ring.
Qed.

(** ** A pyramid below a tetrahedron *)
Definition hung (name : string) (t : tree) (rows : nat) : fbody :=
  FB name t None (map (fun n => (n, repeat (V 0 0 0) rows)) ["Surge"%string; "Heave"%string; "Roll"%string; "Pitch"%string]) None (Some (V 0 0 0)) (Some (V 0 0 0)) None None None.
Definition lifted : mesh := Mesh [V 0 0 1; V 1 0 1; V 0 1 1; V 0 0 2] [F 0 2 1 0; F 0 1 3 0; F 0 3 2 0; F 1 2 3 1].
Definition lifted_faces : list polygon :=
  [(V 0 0 1, V 0 1 1, V 1 0 1, V 0 0 1); (V 0 0 1, V 1 0 1, V 0 0 2, V 0 0 1); (V 0 0 1, V 0 0 2, V 0 1 1, V 0 0 1); (V 1 0 1, V 0 1 1, V 0 0 2, V 1 0 1)].
Definition stack : tree := Node Plain [Leaf pyramid; Leaf lifted].
Definition below : tree := Node Plain [Leaf pyramid].
Lemma lifted_proper : Forall proper_face lifted_faces.
Proof.
  unfold lifted_faces. constructor; [tri 1|]. constructor; [tri 1|]. constructor; [tri 1|]. constructor; [|constructor]. tri (sqrt 3).
  - apply Rle_trans with (sqrt 1); [rewrite sqrt_1; lra|apply sqrt_le_1; lra].
  - rewrite sqrt_sqrt by lra. ring.
Qed.
Lemma stack_surface : proper_surface stack (pyramid_faces ++ lifted_faces).
Proof.
  split; [|split].
  - constructor; [discriminate|]. intros x [<-|[<-|[]]]; constructor.
  - exists [pyramid_faces; lifted_faces]. split; [|reflexivity]. constructor; [|constructor; [|constructor]]; repeat constructor.
  - apply Forall_app. split; [apply pyramid_surface|apply lifted_proper].
Qed.
Lemma below_surface : proper_surface below pyramid_faces.
Proof.
  split; [|split].
  - constructor; [discriminate|]. intros x [<-|[]]; constructor.
  - exists [pyramid_faces]. split; [|reflexivity]. constructor; [|constructor]; repeat constructor.
  - apply pyramid_surface.
Qed.
Lemma stack_volume : volume stack = Ok (1 / 3).
Proof. rewrite (volume_value _ _ stack_surface). f_equal. unfold pyramid_faces, lifted_faces, Rsum, signed_volume, triple, dot, cross. cbn. field. Qed.
Lemma below_volume : volume below = Ok (1 / 6).
Proof. rewrite (volume_value _ _ below_surface). f_equal. unfold pyramid_faces, Rsum, signed_volume, triple, dot, cross. cbn. field. Qed.
Lemma pyramid_valid : valid pyramid.
Proof. apply (polygons_valid _ pyramid_faces). repeat constructor. Qed.
Lemma pyramid_used : all_used pyramid.
Proof.
  intros i Hi. cbn in Hi. destruct i as [|[|[|[|i]]]]; try lia.
  1,2,4: exists (F 1 0 3 1); split; [now left|cbn; tauto]. exists (F 2 1 3 2); split; [right; now left|cbn; tauto].
Qed.
Lemma root_3 : 1 <= sqrt 3 <= 2.
Proof. split; [rewrite <- (sqrt_square 1) at 1 by lra|rewrite <- (sqrt_square 2) by lra]; apply sqrt_le_1_alt; lra. Qed.
Lemma pyramid_sizes k a b c d : face_is pyramid k a b c d -> well_sized 3 (a, b, c, d).
Proof.
  intros (f & Hf & H). pose proof root_3 as R3.
  destruct k as [|[|[|k]]]; cbn in Hf; try (injection Hf as <-); [| | |destruct k; discriminate];
    cbn in H; destruct H as (Ha & Hb & Hc & Hd); injection Ha as <-; injection Hb as <-; injection Hc as <-; injection Hd as <-;
    unfold well_sized, tri_area, norm, area_vector, dot, cross; cbn [vx vy vz vsub vadd vscale];
    repeat match goal with |- context [sqrt ?x] =>
      first [progress replace (sqrt x) with (sqrt 3) by (f_equal; field)
            |replace (sqrt x) with (sqrt 3 / 2) by (symmetry; transitivity (sqrt (3 / (2 * 2))); [f_equal; field|rewrite sqrt_div_alt by lra; rewrite sqrt_square by lra; reflexivity])
            |replace (sqrt x) with 1 by (symmetry; transitivity (sqrt 1); [f_equal; field|exact sqrt_1])
            |replace (sqrt x) with (1 / 2) by (symmetry; transitivity (sqrt (1 / 2 * (1 / 2))); [f_equal; field|apply sqrt_square; lra])
            |replace (sqrt x) with 0 by (symmetry; transitivity (sqrt 0); [f_equal; field|exact sqrt_0])] end; lra.
Qed.
Lemma pyramid_clip argsort : clip argsort (level_plane 0) vicinity pyramid = Ok (pyramid, seq 0 3).
Proof.
  apply (clip_below argsort 0 pyramid 3); [exact pyramid_valid|exact pyramid_used|discriminate|exact pyramid_sizes|].
  intros v Hv. unfold vicinity. cbn in Hv. repeat (destruct Hv as [<-|Hv]; [cbn [vz]; first [left; rewrite Rminus_0_r, Rabs_R0; lra|right; lra]|]). destruct Hv.
Qed.
Lemma lifted_clip argsort : exists ids, clip argsort (level_plane 0) vicinity lifted = Ok (Mesh [] [], ids) /\ ids = [].
Proof.
  exists []. split; [|reflexivity]. unfold clip.
  assert (E : map (side_of vicinity) (map (distance_to_point (level_plane 0)) (m_vertices lifted)) = [Above; Above; Above; Above]).
  { cbn [lifted m_vertices map]. unfold distance_to_point, level_plane, dot, side_of, vicinity. cbn [pl_normal pl_point vx vy vz].
    repeat (rewrite (proj2 (Rltb_true _ _)) by lra). reflexivity. }
  cbn zeta. rewrite E. change (count is_above [Above; Above; Above; Above] =? nb_vertices lifted)%nat with true. cbv iota.
  unfold finish. change (remove_unused (Mesh [] [])) with (Ok (Mesh [] [])). cbn [bind]. unfold remove_degenerated. rewrite (proj2 (Rltb_true 0 (/ 100000))) by lra. reflexivity.
Qed.
Lemma stack_immersed argsort : exists b, fb_immersed argsort (hung "s" stack 7) = Ok b /\ fb_mesh b = below /\ fb_com b = Some (V 0 0 0) /\ fb_rc b = Some (V 0 0 0)
  /\ fb_mass b = None /\ map fst (fb_dofs b) = ["Surge"%string; "Heave"%string; "Roll"%string; "Pitch"%string].
Proof.
  unfold fb_immersed. change (fb_copy (hung "s" stack 7) (Some (fb_name (hung "s" stack 7)))) with (Ok (hung "s" stack 7)). cbn [bind]. unfold fb_clip.
  change (fb_check (hung "s" stack 7)) with (Ok tt). cbn [bind].
  assert (t_clip argsort (level_plane 0) (fb_mesh (hung "s" stack 7)) = Ok (below, [0; 1; 2]%nat)) as ->.
  { cbn [hung fb_mesh stack t_clip map]. rewrite pyramid_clip. destruct (lifted_clip argsort) as (ids & -> & ->). reflexivity. }
  eexists. split; [reflexivity|]. now repeat split.
Qed.
