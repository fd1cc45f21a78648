(** C31, C32, C33, C50, C52: dofs, joins, arrays, inertia and hydrostatic stiffness of bodies. *)
From Coq Require Import Reals String Ascii List Bool Arith ZArith Lra Lia.
From Coquelicot Require Import Coquelicot.
From Verif Require Import Model_Base Model_Geometry Model_Mesh Spec_Mesh Model_Quality Spec_Quality Model_Tree Spec_Tree
  Proofs_Geometry Proofs_Mesh Proofs_Mesh2 Proofs_Mesh3 Proofs_Quality Proofs_Tree Proofs_Tree2 Proofs_Symmetry
  Spec_Clip Proofs_Clip4 Proofs_Clip5 Proofs_Clip6 Proofs_Clip7 Model_Integrals Spec_Integrals Proofs_Integrals Proofs_Integrals2 Proofs_Integrals3
  Props_Geometry Props_Quality Model_Body Spec_Body Proofs_Body Proofs_Body2 Proofs_Body3 Proofs_Body4 Proofs_Body5 Proofs_Body6 Proofs_Body7.
Import ListNotations.
Open Scope R_scope.

(** ** C31 *)

(** A translation dof is the same vector, the amplitude times the direction, on all the faces; the rest of the body and the
    dofs with other names are unchanged. *)
Theorem translation_dof_is_constant :
  forall b d name amplitude,
  exists b' n rows, add_translation_dof b (Some d) name amplitude = Ok b'
  /\ (forall s, name = Some s -> n = s) /\ dget n (fb_dofs b') = Ok rows
  /\ List.length rows = fb_nb_faces b /\ (forall r, In r rows -> r = vscale amplitude d)
  /\ (forall n', n' <> n -> dget n' (fb_dofs b') = dget n' (fb_dofs b)) /\ b' = set_dofs b (fb_dofs b').
Proof.
  intros b d name amp. rewrite (add_translation_value b (Some d) name amp d eq_refl). eexists. exists (default_name b "_translation" name). eexists.
  split; [reflexivity|]. split; [intros s ->; reflexivity|]. cbn [set_dofs fb_dofs]. split; [apply dget_same|]. split; [apply repeat_length|].
  split; [intros r Hr; now apply repeat_spec in Hr|]. split; [intros n' Hn; now apply dget_other|reflexivity].
Qed.
Print Assumptions translation_dof_is_constant.
Example translation_dof_ex : fb_nb_faces (panel_body "b" 0 (-1) []) = 1%nat.
Proof. reflexivity. Qed.
(** The directions of the dofs with a standard name, whatever the case of its letters; other names need a direction. *)
Theorem named_translation_dofs :
  forall b amplitude,
  (forall name d, In (str_lower name, d) [("surge"%string, V 1 0 0); ("sway"%string, V 0 1 0); ("heave"%string, V 0 0 1)] ->
     add_translation_dof b None (Some name) amplitude = add_translation_dof b (Some d) (Some name) amplitude)
  /\ (forall name, ~ In (str_lower name) ["surge"%string; "sway"%string; "heave"%string] ->
     add_translation_dof b None (Some name) amplitude = Err ValueError)
  /\ add_translation_dof b None None amplitude = Err ValueError.
Proof.
  intros b amp. split; [|split; [|reflexivity]].
  - intros name d H. cbn [In] in H. unfold add_translation_dof, direction_of, translation_directions.
    destruct H as [E|[E|[E|[]]]]; injection E as E1 <-; rewrite <- E1; reflexivity.
  - intros name H. unfold add_translation_dof, direction_of, translation_directions. cbn [dget].
    destruct (String.eqb_spec (str_lower name) "surge") as [E|_]; [exfalso; apply H; rewrite E; cbn; tauto|].
    destruct (String.eqb_spec (str_lower name) "sway") as [E|_]; [exfalso; apply H; rewrite E; cbn; tauto|].
    destruct (String.eqb_spec (str_lower name) "heave") as [E|_]; [exfalso; apply H; rewrite E; cbn; tauto|]. reflexivity.
Qed.
Print Assumptions named_translation_dofs.
Example named_translation_ex : str_lower "HEAVE" = "heave"%string /\ str_lower "Sway" = "sway"%string.
Proof. split; reflexivity. Qed.

(** A rotation dof about an axis is the velocity field of the rotation about this axis: the derivative at 0 of the rotated
    positions of the centres of the faces, times the amplitude. *)
Theorem rotation_dof_is_rotation_velocity :
  forall b a name amplitude cs, (0 < fb_nb_faces b)%nat -> fb_centers b = Ok cs ->
  exists b' n rows, add_rotation_dof b (Some a) name amplitude = Ok b'
  /\ (forall s, name = Some s -> n = s) /\ dget n (fb_dofs b') = Ok rows /\ List.length rows = List.length cs
  /\ (forall k c, nth_error cs k = Some c -> exists r, nth_error rows k = Some r
      /\ r = vscale amplitude (cross (ax_vector a) (vsub c (ax_point a)))
      /\ forall x : vec -> R, In x [vx; vy; vz] -> is_derive (fun t => amplitude * x (rotate_point a t c)) 0 (x r))
  /\ (forall n', n' <> n -> dget n' (fb_dofs b') = dget n' (fb_dofs b)) /\ b' = set_dofs b (fb_dofs b').
Proof.
  intros b a name amp cs N Ec. rewrite (add_rotation_value b (Some a) name amp _ _ cs N Ec eq_refl). eexists. exists (default_name b "_rotation" name). eexists.
  split; [reflexivity|]. split; [intros s ->; reflexivity|]. cbn [set_dofs fb_dofs]. split; [apply dget_same|]. split; [apply map_length|].
  split; [|split; [intros n' Hn; now apply dget_other|reflexivity]].
  intros k c Hk. eexists. split; [apply map_nth_error; exact Hk|]. split; [reflexivity|].
  intros x Hx. assert (Hx' : x = vx \/ x = vy \/ x = vz) by (cbn in Hx; intuition).
  pose proof (rotation_derivative a c x Hx') as D. apply (is_derive_scal _ 0 amp) in D.
  replace (x (vscale amp (rotation_velocity (ax_point a) (ax_vector a) c))) with (amp * x (rotation_velocity (ax_point a) (ax_vector a) c)); [exact D|].
  destruct Hx' as [->|[->| ->]]; reflexivity.
Qed.
Print Assumptions rotation_dof_is_rotation_velocity.
Example rotation_dof_ex : (0 < fb_nb_faces (panel_body "b" 0 (-1) []))%nat /\ fb_centers (panel_body "b" 0 (-1) []) = Ok [V (0 + 1 / 2) (1 / 2) (-1)].
Proof. split; [cbn; lia|apply panel_centers]. Qed.

(** The six rigid dofs: unit translations along the axes, and rotations about the rotation centre of the body, or else about
    its centre of mass, its geometric centre or the origin; the rotation centre inferred from the dofs is this one. *)
Theorem rigid_dofs_and_their_center :
  forall b b', (0 < fb_nb_faces b)%nat -> filled (fb_mesh b) -> all_valid (fb_mesh b) -> add_all_rigid_body_dofs b = Ok b' ->
  let p := match fb_rc b, fb_com b, fb_gc b with
           | Some p, _, _ => p | None, Some p, _ => p | None, None, Some p => p | None, None, None => V 0 0 0 end in
  rotation_dof b' "Roll" p (V 1 0 0) /\ rotation_dof b' "Pitch" p (V 0 1 0) /\ rotation_dof b' "Yaw" p (V 0 0 1)
  /\ dget "Surge" (fb_dofs b') = Ok (repeat (V 1 0 0) (fb_nb_faces b)) /\ dget "Sway" (fb_dofs b') = Ok (repeat (V 0 1 0) (fb_nb_faces b))
  /\ dget "Heave" (fb_dofs b') = Ok (repeat (V 0 0 1) (fb_nb_faces b))
  /\ (forall n, ~ In n ["Surge"%string; "Sway"%string; "Heave"%string; "Roll"%string; "Pitch"%string; "Yaw"%string] -> dget n (fb_dofs b') = dget n (fb_dofs b))
  /\ infer_from_dofs b' = Ok p /\ infer_rotation_center b' = Ok p.
Proof.
  intros b b' N F Av E p. destruct (rigid_rotations b b' N E) as (cs & Ec & Eb & R1 & R2 & R3 & T1 & T2 & T3 & O).
  pose proof (centers_length b cs Ec F Av) as L.
  assert (I : infer_from_dofs b' = Ok p).
  { apply (infer_rotations b' _ cs); [rewrite Eb; exact Ec|intros ->; cbn in L; lia|exact R1|exact R2|exact R3]. }
  split; [exact R1|]. split; [exact R2|]. split; [exact R3|]. split; [exact T1|]. split; [exact T2|]. split; [exact T3|]. split; [exact O|]. split; [exact I|].
  unfold infer_rotation_center. rewrite I. replace (fb_rc b') with (fb_rc b) by (rewrite Eb; reflexivity). unfold p. now destruct (fb_rc b).
Qed.
Print Assumptions rigid_dofs_and_their_center.
Example rigid_dofs_ex : exists b', add_all_rigid_body_dofs (panel_body "b" 0 (-1) []) = Ok b' /\ infer_rotation_center b' = Ok (V 0 0 0).
Proof.
  assert (N : (0 < fb_nb_faces (panel_body "b" 0 (-1) []))%nat) by (cbn; lia). eexists. split; [exact (add_rigid_value _ _ N (panel_centers _ _ _ _))|].
  apply (rigid_dofs_and_their_center (panel_body "b" 0 (-1) []) _ N); [constructor|intros m [<-|[]]; apply panel_tidy|exact (add_rigid_value _ _ N (panel_centers _ _ _ _))].
Qed.

(** When the body is moved, its rotation dofs are still rotations about the moved axis (in the other direction after a mirror
    symmetry). *)
Theorem rotation_dofs_of_moved_bodies :
  forall b qs name p d, proper_surface (fb_mesh b) qs -> rotation_dof b name p d ->
  (forall v, rotation_dof (fb_translate b v) name (vadd p v) d)
  /\ (forall a th, proper_axis a -> rotation_dof (fb_rotate b a th) name (rotate_point a th p) (rotate_vector a th d))
  /\ (forall pl b', proper_plane pl -> fb_mirror b pl = Ok b' -> reversed_rotation_dof b' name (mirror_point pl p) (mirror_vector pl d)).
Proof.
  intros b qs name p d S R. split; [intros v; exact (translated_rotation b qs name p d v S R)|]. split; [intros a th U; exact (rotated_rotation b qs name p d a th U S R)|].
  intros pl b' U E. exact (mirrored_rotation b b' qs name p d pl U S R E).
Qed.
Print Assumptions rotation_dofs_of_moved_bodies.
Example rotation_dofs_moved_ex : proper_surface (fb_mesh (panel_body "b" 0 (-1) [("Roll"%string, [V 0 1 (1 / 2)])])) [panel_polygon 0 (-1)]
  /\ rotation_dof (panel_body "b" 0 (-1) [("Roll"%string, [V 0 1 (1 / 2)])]) "Roll" (V 0 0 0) (V 1 0 0).
Proof.
  split; [apply panel_surface|]. eexists. eexists. split; [reflexivity|]. split; [apply panel_centers|]. cbn [map]. f_equal. unfold rotation_velocity, cross.
  apply vec_ext; cbn; field.
Qed.
(** After a translation the centre inferred from the dofs is the translated centre. *)
Theorem translated_rotation_center :
  forall b qs p v, proper_surface (fb_mesh b) qs -> (0 < fb_nb_faces b)%nat -> fb_rc b = None ->
  rotation_dof b "Roll" p (V 1 0 0) -> rotation_dof b "Pitch" p (V 0 1 0) -> rotation_dof b "Yaw" p (V 0 0 1) ->
  infer_rotation_center (fb_translate b v) = Ok (vadd p v).
Proof.
  intros b qs p v S N Rc R1 R2 R3. unfold infer_rotation_center. cbn [fb_translate fb_rc]. rewrite Rc. cbn [option_map].
  pose proof (translate_surface _ v _ S) as S'.
  rewrite (infer_rotations (fb_translate b v) (vadd p v) _ (surface_centers (fb_translate b v) _ S')); [reflexivity| |
    exact (translated_rotation b qs _ p _ v S R1)|exact (translated_rotation b qs _ p _ v S R2)|exact (translated_rotation b qs _ p _ v S R3)].
  destruct qs as [|q qs]; [|discriminate]. destruct S as (_ & P & _). pose proof (polygons_total _ _ P) as L. unfold fb_nb_faces in N. cbn in L. lia.
Qed.
Print Assumptions translated_rotation_center.
Definition rolling_panel : fbody :=
  panel_body "b" 0 (-1) [("Roll"%string, [V 0 1 (1 / 2)]); ("Pitch"%string, [V (-1) 0 (- 1 / 2)]); ("Yaw"%string, [V (- 1 / 2) (1 / 2) 0])].
Lemma rolling_panel_dofs : rotation_dof rolling_panel "Roll" (V 0 0 0) (V 1 0 0) /\ rotation_dof rolling_panel "Pitch" (V 0 0 0) (V 0 1 0)
  /\ rotation_dof rolling_panel "Yaw" (V 0 0 0) (V 0 0 1).
Proof.
  split; [|split]; eexists; eexists; (split; [reflexivity|]); (split; [apply panel_centers|]); cbn [map]; f_equal; unfold rotation_velocity, cross; apply vec_ext; cbn; field.
Qed.
Example translated_rotation_center_ex : proper_surface (fb_mesh rolling_panel) [panel_polygon 0 (-1)] /\ (0 < fb_nb_faces rolling_panel)%nat /\ fb_rc rolling_panel = None
  /\ rotation_dof rolling_panel "Roll" (V 0 0 0) (V 1 0 0) /\ rotation_dof rolling_panel "Pitch" (V 0 0 0) (V 0 1 0) /\ rotation_dof rolling_panel "Yaw" (V 0 0 0) (V 0 0 1).
Proof. split; [apply panel_surface|]. split; [cbn; lia|]. split; [reflexivity|apply rolling_panel_dofs]. Qed.
(** Refuted: without the attribute, the rotation centre cannot be inferred after a rotation or a mirror symmetry, although
    the dofs are those of rotations about the moved centre. *)
Theorem rotated_center_refuted :
  exists b p, infer_rotation_center b = Ok p /\ infer_rotation_center (fb_rotate b Oz_axis (PI / 2)) = Err ValueError
  /\ exists b', fb_mirror b (Plane (V 0 1 0) (V 0 0 0)) = Ok b' /\ infer_rotation_center b' = Err ValueError.
Proof.
  destruct rolling_panel_dofs as (R1 & R2 & R3). exists rolling_panel, (V 0 0 0). split; [|split].
  - unfold infer_rotation_center. replace (fb_rc rolling_panel) with (@None vec) by reflexivity.
    now rewrite (infer_rotations rolling_panel (V 0 0 0) _ (panel_centers _ _ _ _)).
  - assert (U : proper_axis Oz_axis) by (unfold proper_axis, Oz_axis; cbn [ax_vector]; apply unit_dot; vring).
    pose proof (rotate_surface Oz_axis (PI / 2) U _ _ (panel_surface 0 (-1))) as S.
    assert (Hv : forall v, rotate_vector Oz_axis (PI / 2) v = V (- vy v) (vx v) (vz v)).
    { intros [v1 v2 v3]. unfold Oz_axis, e_z. rewrite rotate_vector_formula, cos_PI2, sin_PI2. cbn [ax_vector]. apply vec_ext; unfold cross; cbn; ring. }
    assert (Hc : fb_centers (fb_rotate rolling_panel Oz_axis (PI / 2)) = Ok [V (- (1 / 2)) (1 / 2) (-1)]).
    { rewrite (surface_centers (fb_rotate rolling_panel Oz_axis (PI / 2)) _ S). cbn [map]. rewrite (rotate_center Oz_axis (PI / 2) _ U).
      - rewrite panel_center, rotation_direction, cos_PI2, sin_PI2. do 2 f_equal. apply vec_ext; cbn; field.
      - destruct (panel_surface 0 (-1)) as (_ & _ & G). now inversion G. }
    unfold infer_rotation_center. replace (fb_rc (fb_rotate rolling_panel Oz_axis (PI / 2))) with (@None vec) by reflexivity.
    rewrite (infer_fails _ (V (- (1 / 2)) (1 / 2) (-1)) (V (-1) 0 (1 / 2)) (V 0 (-1) (- 1 / 2)) (V (- (1 / 2)) (- 1 / 2) 0) Hc); [reflexivity|..].
    1-3: cbn; rewrite Hv; cbn; do 2 f_equal; apply vec_ext; cbn; lra.
    unfold allclose1. apply Bool.not_true_is_false. rewrite Rleb_true. cbn [vx vy vz].
    replace (- (- 1 / 2) + - (1 / 2)) with 0 by field. rewrite Rabs_R0, Rabs_left by lra. lra.
  - pose (pl := Plane (V 0 1 0) (V 0 0 0)). assert (U : proper_plane pl) by (unfold proper_plane, pl; cbn [pl_normal]; apply unit_dot; vring).
    eexists. split; [reflexivity|].
    match goal with |- infer_rotation_center ?b = _ => set (b' := b) end.
    assert (E : t_mirror (fb_mesh rolling_panel) pl = Ok (fb_mesh b')) by reflexivity.
    pose proof (mirror_surface pl U _ _ _ E (panel_surface 0 (-1))) as S.
    assert (Hc : fb_centers b' = Ok [V (1 / 2) (- (1 / 2)) (-1)]).
    { rewrite (surface_centers b' _ S). cbn [map]. rewrite (mirror_center pl _ U).
      - rewrite panel_center. do 2 f_equal. unfold mirror_point, pl_c, pl, dot. apply vec_ext; cbn; rewrite ?Rmult_0_r, ?Rmult_0_l, ?Rplus_0_l, ?Rabs_R0; field.
      - destruct (panel_surface 0 (-1)) as (_ & _ & G). now inversion G. }
    unfold infer_rotation_center. replace (fb_rc b') with (@None vec) by reflexivity.
    rewrite (infer_fails _ (V (1 / 2) (- (1 / 2)) (-1)) (V 0 (-1) (1 / 2)) (V (-1) 0 (- 1 / 2)) (V (- 1 / 2) (- (1 / 2)) 0) Hc); [reflexivity|..].
    1-3: cbn; unfold dot; cbn; do 2 f_equal; apply vec_ext; cbn; lra.
    unfold allclose1. apply Bool.not_true_is_false. rewrite Rleb_true. cbn [vx vy vz].
    replace (- - (1 / 2) + 1 / 2) with 1 by field. replace (- 1 / 2 + 1 / 2 - 1) with (-(1)) by field. rewrite Rabs_Ropp, Rabs_R1. lra.
Qed.
Print Assumptions rotated_center_refuted.
(** Refuted: an unnamed dof may replace another dof. The body has two unnamed translation dofs, of which only the second is
    kept; the next unnamed dof takes its name. *)
Theorem unnamed_dof_refuted :
  exists b b1 b2 b3 b4 d0 d1 d2,
    add_translation_dof b (Some d0) None 1 = Ok b1 /\ add_translation_dof b1 (Some d1) None 1 = Ok b2
    /\ keep_only_dofs b2 ["dof_1_translation"%string] = Ok b3 /\ dget "dof_1_translation" (fb_dofs b3) = Ok [d1]
    /\ add_translation_dof b3 (Some d2) None 1 = Ok b4
    /\ List.length (fb_dofs b4) = 1%nat /\ dget "dof_1_translation" (fb_dofs b4) = Ok [d2] /\ d1 <> d2.
Proof.
  exists (panel_body "b" 0 (-1) []). do 4 eexists. exists (V 1 0 0), (V 0 1 0), (V 0 0 1).
  assert (E : forall d, vscale 1 d = d) by (intros [x y z]; apply vec_ext; cbn; ring).
  unfold add_translation_dof, direction_of, bind. rewrite !E. split; [reflexivity|]. split; [reflexivity|]. split; [reflexivity|]. split; [reflexivity|].
  split; [reflexivity|]. split; [reflexivity|]. split; [reflexivity|]. intros H. injection H. lra.
Qed.
Print Assumptions unnamed_dof_refuted.

(** ** C32 *)

(** Joining bodies: the dofs are those of the bodies, extended by zero to the faces of the other bodies; the polygons are those
    of the bodies in order; the mass is the sum of the masses, the inertia and stiffness are block diagonal. Missing from the
    full statement: the meshes must need no healing (see [tidy]), the names in the assembly must be distinct, and the total mass
    must not be zero. *)
Theorem joined_bodies_partial :
  forall argsort, sorts argsort -> forall heal_normals bodies name,
  bodies <> [] -> (forall b, In b bodies -> joinable b) -> NoDup (names_in_assembly bodies) ->
  (forall ms, all_set fb_mass bodies = Some ms -> Rsum ms <> 0) ->
  exists a, join_bodies argsort heal_normals bodies name = Ok a
  /\ fb_name a = match name with Some n => n | None => String.concat "+" (map fb_name bodies) end
  /\ assembled_dofs bodies (fb_dofs a)
  /\ (forall qss, Forall2 (fun b qs => tree_polygons (fb_mesh b) qs) bodies qss ->
      exists qs, tree_polygons (fb_mesh a) qs /\ Forall2 same_polygon (List.concat qss) qs)
  /\ fb_mass a = option_map Rsum (all_set fb_mass bodies) /\ fb_com a = joined_com bodies /\ fb_rc a = None
  /\ fb_inertia a = joined_matrix fb_inertia bodies /\ fb_stiffness a = joined_matrix fb_stiffness bodies.
Proof.
  intros argsort Hs hn bodies name N J D M. destruct (join_ok argsort Hs hn bodies name N J D M) as (t & lid & E & Ht & _).
  eexists. split; [exact E|]. cbn [fb_name fb_dofs fb_mesh fb_mass fb_com fb_rc fb_inertia fb_stiffness].
  split; [reflexivity|]. split; [apply flat_assembled; intros b Hb; apply (J b Hb)|]. split; [|now repeat split].
  intros qss Hq.
  assert (Hn : tree_polygons (Node Plain (map fb_mesh bodies)) (List.concat qss)).
  { clear -Hq. induction Hq as [|b qs l qss H _ (x & Fx & Ex)]; [exists []; split; [constructor|reflexivity]|]. destruct H as (y & Fy & Ey).
    exists (y ++ x). cbn [leaves map List.concat] in *. split; [now apply Forall2_app|]. rewrite List.concat_app. cbn in *. congruence. }
  refine (healed_trees (Node Plain (map fb_mesh bodies)) t _ _ Hn).
  cbn [leaves]. rewrite map_map. exact Ht.
Qed.
Print Assumptions joined_bodies_partial.
Definition two_panels : list fbody := [panel_body "left" 0 (-1) [("Heave"%string, [V 0 0 1])]; panel_body "right" 5 (-1) [("Heave"%string, [V 0 0 1]); ("Surge"%string, [V 1 0 0])]].
Example joined_bodies_ex : two_panels <> [] /\ (forall b, In b two_panels -> joinable b) /\ NoDup (names_in_assembly two_panels)
  /\ (forall ms, all_set fb_mass two_panels = Some ms -> Rsum ms <> 0).
Proof.
  split; [discriminate|]. split; [|split; [|intros ms H; discriminate H]].
  - intros b [<-|[<-|[]]]; apply panel_joinable; intros n r H; cbn in H; repeat destruct H as [H|H]; try contradiction; inversion H; reflexivity.
  - cbn. repeat constructor; cbn; intros H; repeat destruct H as [H|H]; try discriminate; assumption.
Qed.
(** Joining is associative: joining first some of the bodies gives the same body, up to the nesting of the meshes, the order
    of the vertices and the first corners of the faces, and up to the name when another name is chosen. *)
Theorem join_associative_partial :
  forall argsort, sorts argsort -> forall heal_normals before middle after, middle <> [] ->
  (forall b, In b (before ++ middle ++ after) -> joinable b /\ plain_body b) -> NoDup (names_in_assembly (before ++ middle ++ after)) ->
  (forall ms, all_set fb_mass middle = Some ms -> Rsum ms <> 0) ->
  (forall ms, all_set fb_mass (before ++ middle ++ after) = Some ms -> Rsum ms <> 0) ->
  exists x y z, join_bodies argsort heal_normals middle None = Ok x /\ join_bodies argsort heal_normals (before ++ [x] ++ after) None = Ok y
    /\ join_bodies argsort heal_normals (before ++ middle ++ after) None = Ok z /\ same_body y z.
Proof. exact join_flatten. Qed.
Print Assumptions join_associative_partial.
Example join_associative_ex : let three := [] ++ two_panels ++ [panel_body "third" 9 (-1) [("Heave"%string, [V 0 0 1])]] in
  (forall b, In b three -> joinable b /\ plain_body b) /\ NoDup (names_in_assembly three).
Proof.
  split.
  - intros b [<-|[<-|[<-|[]]]]; (split; [apply panel_joinable; intros n r H; cbn in H; repeat destruct H as [H|H]; try contradiction; inversion H; reflexivity|]);
      (split; [constructor|discriminate]).
  - cbn. repeat constructor; cbn; intros H; repeat destruct H as [H|H]; try discriminate; assumption.
Qed.
(** Refuted: two bodies with the same name; the dof of the second replaces that of the first. *)
Theorem joined_same_name_refuted :
  forall argsort, sorts argsort -> forall heal_normals, exists b1 b2 a,
    joinable b1 /\ joinable b2 /\ map fst (fb_dofs b1) = ["Heave"%string] /\ map fst (fb_dofs b2) = ["Heave"%string]
    /\ join_bodies argsort heal_normals [b1; b2] None = Ok a /\ fb_dofs a = [("buoy__Heave"%string, [V 0 0 0; V 0 0 1])].
Proof.
  intros argsort Hs hn. pose (d := [("Heave"%string, [V 0 0 1])]). assert (W : forall n r, In (n, r) d -> List.length r = 1%nat) by (intros n r [H|[]]; injection H as _ <-; reflexivity).
  exists (panel_body "buoy" 0 (-1) d), (panel_body "buoy" 5 (-1) d).
  destruct (join_built argsort Hs hn [panel_body "buoy" 0 (-1) d; panel_body "buoy" 5 (-1) d] None) as (t & lid & E & _).
  - discriminate.
  - intros b [<-|[<-|[]]]; exact (panel_joinable _ _ _ _ W).
  - intros ms H. discriminate H.
  - rewrite E. eexists. split; [now apply panel_joinable|]. split; [now apply panel_joinable|]. split; [reflexivity|]. split; [reflexivity|]. split; reflexivity.
Qed.
Print Assumptions joined_same_name_refuted.
(** Refuted: [keep_only_dofs] sorts the inertia matrix like its argument but not the dofs, and [join_bodies] then gives to the
    coefficients the names of the dofs in the other order. *)
Theorem joined_inertia_refuted :
  forall argsort, sorts argsort -> forall heal_normals, exists b b' a,
    joinable b /\ keep_only_dofs b ["Heave"%string; "Surge"%string] = Ok b' /\ map fst (fb_dofs b) = ["Surge"%string; "Heave"%string]
    /\ join_bodies argsort heal_normals [b'] None = Ok a
    /\ fb_inertia b = Some (LM ["Surge"%string; "Heave"%string] [[Some 1; Some 0]; [Some 0; Some 2]])
    /\ fb_inertia a = Some (LM ["b__Surge"%string; "b__Heave"%string] [[Some 2; Some 0]; [Some 0; Some 1]]).
Proof.
  intros argsort Hs hn. pose (d := [("Surge"%string, [V 1 0 0]); ("Heave"%string, [V 0 0 1])]).
  assert (W : forall n r, In (n, r) d -> List.length r = 1%nat) by (intros n r [H|[H|[]]]; injection H as _ <-; reflexivity).
  pose (b := set_matrices (panel_body "b" 0 (-1) d) (Some (LM ["Surge"%string; "Heave"%string] [[Some 1; Some 0]; [Some 0; Some 2]])) None).
  pose (b' := set_matrices (panel_body "b" 0 (-1) d) (Some (LM ["Heave"%string; "Surge"%string] [[Some 2; Some 0]; [Some 0; Some 1]])) None).
  destruct (join_built argsort Hs hn [b'] None) as (t & lid & E & _).
  - discriminate.
  - intros x [<-|[]]. exact (panel_joinable _ _ _ _ W).
  - intros ms H. discriminate H.
  - exists b, b'. rewrite E. eexists. split.
    { split; [constructor|]. split; [apply panel_tree|]. split; [exact W|]. split; [discriminate|]. split; [|discriminate].
      intros m H. injection H as <-. split; [reflexivity|]. split; [reflexivity|]. intros r [<-|[<-|[]]]; reflexivity. }
    split; [reflexivity|]. split; [reflexivity|]. split; [reflexivity|]. split; reflexivity.
Qed.
Print Assumptions joined_inertia_refuted.
(** Bodies whose names collide and that all have an inertia matrix cannot be joined. *)
Theorem joined_collision_with_inertia :
  forall argsort, sorts argsort -> forall heal_normals, exists b,
    joinable b /\ join_bodies argsort heal_normals [b; b] None = Err ValueError.
Proof.
  intros argsort Hs hn. pose (d := [("Heave"%string, [V 0 0 1])]). assert (W : forall n r, In (n, r) d -> List.length r = 1%nat) by (intros n r [H|[]]; injection H as _ <-; reflexivity).
  pose (b := set_matrices (panel_body "b" 0 (-1) d) (Some (LM ["Heave"%string] [[Some 2]])) None).
  destruct (join_built argsort Hs hn [b; b] None) as (t & lid & E & _).
  - discriminate.
  - intros x [<-|[<-|[]]]; exact (panel_joinable _ _ _ _ W).
  - intros ms H. discriminate H.
  - exists b. rewrite E. split; [|reflexivity]. split; [constructor|]. split; [apply panel_tree|]. split; [exact W|]. split; [discriminate|]. split; [|discriminate].
    intros m H. injection H as <-. split; [reflexivity|]. split; [reflexivity|]. intros r [<-|[]]; reflexivity.
Qed.
Print Assumptions joined_collision_with_inertia.
(** ** C33 *)

(** The array of [nx] times [ny] copies of the body: the copy in column [i] and row [j] has the faces number
    [(j * nx + i) * nf + k], which are the faces of the body translated by [(i d, j d, 0)], and its dofs are on these faces.
    Missing from the full statement: the mesh must need no healing, and the dofs must have distinct names without "__". *)
Theorem regular_array_partial :
  forall argsort, sorts argsort -> forall heal_normals b d nx ny, joinable b -> (1 <= nx)%nat -> (1 <= ny)%nat ->
  (forall i j, (i < nx)%nat -> (j < ny)%nat -> movable b (V (INR i * d) (INR j * d) 0)) ->
  NoDup (map fst (fb_dofs b)) -> (forall n r, In (n, r) (fb_dofs b) -> has_dunder n = false) -> (forall m, fb_mass b = Some m -> m <> 0) ->
  let nf := fb_nb_faces b in
  exists a, assemble_regular_array argsort heal_normals b d (Z.of_nat nx) (Z.of_nat ny) = Ok a
  /\ fb_name a = ("array_of_" ++ fb_name b)%string
  /\ map fst (fb_dofs a) = List.concat (map (fun j => List.concat (map (fun i => map (fun x => (str_nat i ++ "_" ++ str_nat j ++ "__" ++ fst x)%string) (fb_dofs b)) (seq 0 nx))) (seq 0 ny))
  /\ (forall i j name rows, (i < nx)%nat -> (j < ny)%nat -> In (name, rows) (fb_dofs b) ->
      exists rows', In ((str_nat i ++ "_" ++ str_nat j ++ "__" ++ name)%string, rows') (fb_dofs a) /\ List.length rows' = (nx * ny * nf)%nat
      /\ (forall k, (k < nf)%nat -> nth_error rows' ((j * nx + i) * nf + k) = nth_error rows k)
      /\ (forall k, (k < nx * ny * nf)%nat -> (k < (j * nx + i) * nf \/ (j * nx + i + 1) * nf <= k)%nat -> nth_error rows' k = Some (V 0 0 0)))
  /\ (forall qs, tree_polygons (fb_mesh b) qs -> exists qs', tree_polygons (fb_mesh a) qs' /\ List.length qs' = (nx * ny * nf)%nat
      /\ forall i j k q, (i < nx)%nat -> (j < ny)%nat -> nth_error qs k = Some q ->
         nth_error qs' ((j * nx + i) * nf + k) = Some (move_polygon (V (INR i * d) (INR j * d) 0) q)).
Proof. exact array_ok. Qed.
Print Assumptions regular_array_partial.
Example regular_array_ex : let b := panel_body "b" 0 (-1) [("Heave"%string, [V 0 0 1]); ("Surge"%string, [V 1 0 0])] in
  joinable b /\ (forall v, movable b v) /\ NoDup (map fst (fb_dofs b)) /\ (forall n r, In (n, r) (fb_dofs b) -> has_dunder n = false)
  /\ (forall m, fb_mass b = Some m -> m <> 0).
Proof.
  split; [apply panel_joinable; intros n r [H|[H|[]]]; inversion H; reflexivity|]. split; [intros v; split; [constructor|discriminate]|].
  split; [repeat constructor; cbn; intros H; repeat destruct H as [H|H]; try discriminate; assumption|].
  split; [intros n r [H|[H|[]]]; inversion H; reflexivity|discriminate].
Qed.
(** Refuted: when the names of the dofs contain "__", as those of joined bodies, only the dofs of the last copy are kept. *)
Theorem array_of_joined_body_refuted :
  forall argsort, sorts argsort -> forall heal_normals, exists b a, joinable b
    /\ assemble_regular_array argsort heal_normals b 5 2 1 = Ok a /\ fb_nb_faces a = 2%nat /\ fb_dofs a = [("b__Heave"%string, [V 0 0 0; V 0 0 1])].
Proof.
  intros argsort Hs hn. pose (d := [("b__Heave"%string, [V 0 0 1])]). assert (W : forall n r, In (n, r) d -> List.length r = 1%nat) by (intros n r [H|[]]; injection H as _ <-; reflexivity).
  pose (b := panel_body "b" 0 (-1) d). assert (J : joinable b) by now apply panel_joinable. exists b.
  pose (bs := [moved_copy b "0_0" (V (INR 0 * 5) (INR 0 * 5) 0); moved_copy b "1_0" (V (INR 1 * 5) (INR 0 * 5) 0)]).
  assert (Jm : forall x, In x bs -> joinable x).
  { intros x [<-|[<-|[]]]; apply moved_joinable; try exact J; (split; [constructor|discriminate]). }
  destruct (join_built argsort Hs hn bs None) as (t & lid & E & _).
  - discriminate.
  - intros x Hx. destruct (Jm x Hx) as (A & B & C & D & _). split; [exact A|]. split; [exact B|]. split; [exact C|]. split; [exact D|]. split; discriminate.
  - intros ms H. discriminate H.
  - unfold assemble_regular_array.
    replace (array_indices 2 1) with [(0%nat, 0%nat); (1%nat, 0%nat)] by reflexivity. cbn [mapM fst snd]. rewrite !(translated_ok b) by exact J. cbn [bind].
    replace (str_nat 0 ++ "_" ++ str_nat 0)%string with "0_0"%string by reflexivity. replace (str_nat 1 ++ "_" ++ str_nat 0)%string with "1_0"%string by reflexivity.
    fold bs. rewrite E. cbn [bind all_set bs moved_copy fb_translate fb_inertia fb_stiffness set_name b panel_body option_bind].
    destruct (regular_array_spec (fb_mesh b) 5 2 1 (proj1 J)) as (t' & Et & _ & Lt); [lia..|]. cbn [Z.of_nat Pos.of_succ_nat Pos.succ] in Et.
    cbn [b panel_body fb_mesh fb_name] in Et |- *. rewrite Et. cbn [bind].
    eexists. split; [exact J|]. split; [reflexivity|]. split; [|reflexivity]. unfold fb_nb_faces. cbn [set_name set_mesh fb_mesh].
    rewrite nb_faces_leaves, Lt. reflexivity.
Qed.
Print Assumptions array_of_joined_body_refuted.

(** ** C50 *)

(** The inertia matrix is symmetric, for every body, density and choice of output. *)
Theorem inertia_is_symmetric :
  forall b rho output m, compute_rigid_body_inertia b rho output = Ok m -> forall k l, coefficient m k l = coefficient m l k.
Proof. exact inertia_symmetric. Qed.
Print Assumptions inertia_is_symmetric.
(** Its block for the translations is the mass times the identity. *)
Theorem inertia_of_translations :
  forall b rho output m vol, volume (fb_mesh b) = Ok vol -> (fb_mass b <> None -> vol <> 0) -> compute_rigid_body_inertia b rho output = Ok m ->
  forall k l i j, nth_error (lm_labels m) k = Some i -> nth_error (lm_labels m) l = Some j ->
    In i ["Surge"%string; "Sway"%string; "Heave"%string] -> In j ["Surge"%string; "Sway"%string; "Heave"%string] ->
    coefficient m k l = Some (Some (if String.eqb i j then mass_of b rho vol else 0)).
Proof. exact translation_block. Qed.
Print Assumptions inertia_of_translations.
Definition tetra_body (mass : option R) (com rc : option vec) (dofs : list (string * list vec)) : fbody :=
  FB "t" (Leaf tetra) None dofs mass com rc None None None.
Lemma tetra_props : exists f1 f2 f3 f4, t_props (Leaf tetra) = Ok [f1; f2; f3; f4].
Proof. do 4 eexists. exact (tree_props _ _ (proj1 tetra_surface) (proj1 (proj2 tetra_surface))). Qed.
Example inertia_ex : exists m, compute_rigid_body_inertia (tetra_body (Some 2) (Some (V 0 0 0)) (Some (V 1 0 0)) []) 1000 RigidBodyDofs = Ok m
  /\ lm_labels m = rigid_names /\ volume (Leaf tetra) = Ok (1 / 6).
Proof.
  destruct tetra_props as (f1 & f2 & f3 & f4 & Ep). unfold compute_rigid_body_inertia, rigid_inertia, infer_rotation_center. cbn [tetra_body fb_com fb_rc bind fb_mesh].
  rewrite Ep, tetra_volume. cbn [bind]. eexists. split; [reflexivity|]. split; reflexivity.
Qed.

(** ** C52 *)

(** The hydrostatic stiffness of a freely floating body (the weight and the buoyancy are on the same vertical line and, unless
    they are on the vertical line of the rotation centre, are equal) for rigid dofs is symmetric. *)
Theorem stiffness_of_floating_body :
  forall b com rho g divergence vol cob rc m, fb_com b = Some com -> rho <> 0 -> volume (fb_mesh b) = Ok vol ->
  center_of_buoyancy (fb_mesh b) = Ok (Some cob) -> infer_rotation_center b = Ok rc ->
  mass_of b rho vol * (vx com - vx rc) = rho * vol * (vx cob - vx rc) -> mass_of b rho vol * (vy com - vy rc) = rho * vol * (vy cob - vy rc) ->
  (forall n r, In (n, r) (fb_dofs b) -> In n ["Surge"%string; "Sway"%string; "Heave"%string; "Roll"%string; "Pitch"%string; "Yaw"%string]) ->
  compute_hydrostatic_stiffness b divergence rho g = Ok m ->
  forall k l, coefficient m k l = coefficient m l k.
Proof. exact stiffness_symmetric. Qed.
Print Assumptions stiffness_of_floating_body.
Definition tetra_dofs : list (string * list vec) := [("Roll"%string, repeat (V 0 0 0) 4); ("Yaw"%string, repeat (V 0 0 0) 4)].
Lemma tetra_stiffness com : exists c d, compute_hydrostatic_stiffness (tetra_body None (Some com) (Some (V 0 0 0)) tetra_dofs) [] 1 1 = Ok (LM ["Roll"%string; "Yaw"%string] [[Some c; Some d]; [Some 0; Some 0]])
  /\ d = (vx com - 1 / 6) / 6.
Proof.
  destruct tetra_props as (f1 & f2 & f3 & f4 & Ep). unfold compute_hydrostatic_stiffness. cbn [tetra_body tetra_dofs fb_dofs map fst mapM].
  unfold each_hydrostatic_stiffness. cbn [tetra_body fb_com]. unfold rigid_stiffness, infer_rotation_center, fb_centers. cbn [tetra_body fb_mesh fb_mass fb_rc].
  rewrite tetra_volume, tetra_buoyancy, Ep. cbn [bind].
  repeat match goal with |- context [is_rigid ?n] => let v := eval vm_compute in (is_rigid n) in change (is_rigid n) with v end.
  unfold pair_in.
  repeat match goal with |- context [pair_is ?a ?b ?c ?d] => let v := eval vm_compute in (pair_is a b c d) in change (pair_is a b c d) with v end.
  cbn [andb orb]. unfold waterplane_integral, surface_integral, moment_term. rewrite Ep.
  assert (E1 : Reqb 1 0 = false) by (apply Bool.not_true_is_false; rewrite Reqb_true; lra). rewrite !E1.
  unfold product. cbn [bind map List.length Nat.eqb combine fst snd option_map]. eexists. eexists. split.
  - replace (1 * 1 * 0) with 0 by ring. reflexivity.
  - cbn [vx vy vz]. field.
Qed.
Example stiffness_ex : exists m, compute_hydrostatic_stiffness (tetra_body None (Some (V (1 / 6) (1 / 6) 0)) (Some (V 0 0 0)) tetra_dofs) [] 1 1 = Ok m
  /\ mass_of (tetra_body None (Some (V (1 / 6) (1 / 6) 0)) (Some (V 0 0 0)) tetra_dofs) 1 (1 / 6) * (1 / 6 - 0) = 1 * (1 / 6) * (1 / 6 - 0).
Proof. destruct (tetra_stiffness (V (1 / 6) (1 / 6) 0)) as (c & d & E & _). eexists. split; [exact E|]. unfold mass_of. cbn. lra. Qed.
(** Refuted in general: the coefficients for (Roll, Yaw) and (Yaw, Roll) differ when the centre of mass is not above or below
    the centre of buoyancy. *)
Theorem stiffness_symmetry_refuted :
  exists b m, compute_hydrostatic_stiffness b [] 1 1 = Ok m /\ lm_labels m = ["Roll"%string; "Yaw"%string]
  /\ coefficient m 1 0 = Some (Some 0) /\ coefficient m 0 1 = Some (Some (5 / 36)).
Proof.
  destruct (tetra_stiffness (V 1 0 0)) as (c & d & E & Ed). eexists. eexists. split; [exact E|]. split; [reflexivity|]. split; [reflexivity|].
  cbn. rewrite Ed. do 2 f_equal. cbn [vx]. field.
Qed.
Print Assumptions stiffness_symmetry_refuted.
