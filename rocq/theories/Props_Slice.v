(** Properties of sliced and minced bodies. *)
From Coq Require Import Reals String Ascii List Bool ZArith Arith Lra Lia Permutation.
From Verif Require Import Model_Base Model_Geometry Model_Mesh Model_Quality Spec_Mesh Model_Tree Spec_Tree Spec_Clip Spec_Quality Proofs_Geometry Proofs_Mesh Proofs_Tree Proofs_Clip4 Proofs_Clip5 Proofs_Clip6
  Spec_Integrals Proofs_Integrals Model_Body Spec_Body Proofs_Body2 Proofs_Body7 Proofs_Grid8 Model_Slice Spec_Slice Proofs_Slice3 Proofs_Slice4 Proofs_Slice5.
Import ListNotations.
Open Scope R_scope.

(** ** C81 *)

(** Slicing a body by a plane succeeds and gives a body with the same panels and the same lid panels, each part being on one side of the plane,
    with the same name and the same table of dofs. It has no mass, no centre of mass, no rotation centre and no matrices. *)
Theorem sliced_body_keeps_panels :
  forall argsort, sorts argsort -> forall set_order, (forall l, Permutation l (set_order l)) ->
  forall heal_normals b p, sliceable argsort heal_normals b -> (forall l, fb_lid b = Some l -> tidy_tree l) ->
  exists b', fb_sliced argsort heal_normals set_order b p = Ok b' /\ sliceable argsort heal_normals b'
  /\ same_panels (fb_mesh b) (fb_mesh b') /\ (forall m, In m (leaves (fb_mesh b')) -> on_one_side p m)
  /\ fb_name b' = fb_name b /\ fb_dofs b' = fb_dofs b
  /\ (fb_lid b = None -> fb_lid b' = None)
  /\ (forall l, fb_lid b = Some l -> exists s l', fb_lid b' = Some l' /\ same_panels l s /\ leaves l' = map lid_down (leaves s) /\ (forall m, In m (leaves s) -> on_one_side p m))
  /\ fb_mass b' = None /\ fb_com b' = None /\ fb_rc b' = None /\ fb_inertia b' = None /\ fb_stiffness b' = None.
Proof.
  intros argsort Hs so Ho hn b p Sl Lid. pose proof Sl as (_ & (qs & _ & Q & _) & _).
  destruct (body_cut argsort Hs hn so Ho b p qs Sl Q Lid) as (b' & qs' & E & B & Sl' & Q' & (q0 & P0 & F0) & S1 & _ & L0 & L1). exists b'. split; [exact E|]. split; [exact Sl'|].
  split; [exists qs, q0, qs'; auto|]. split; [intros m Hm; apply leaf_sided_spec, S1, Hm|]. split; [rewrite B; reflexivity|]. split; [rewrite B; reflexivity|]. split; [exact L0|].
  split; [|rewrite B; cbn; auto]. intros l Hl. destruct (L1 l Hl) as (s & l' & H1 & H2 & H3 & H4). exists s, l'. split; [exact H1|]. split; [exact H2|]. split; [exact H3|]. intros m Hm. apply leaf_sided_spec, H4, Hm.
Qed.
Print Assumptions sliced_body_keeps_panels.
(** A body with two panels, on the two sides of the plane. *)
Example sliced_body_keeps_panels_ex : forall argsort heal_normals, sliceable argsort heal_normals (couple_body [("Pitch"%string, pitching)]) /\ fb_lid (couple_body [("Pitch"%string, pitching)]) = None
  /\ exists q q', In q couple_polygons /\ In q' couple_polygons /\ height middle (p_center (face_of q)) < 0 < height middle (p_center (face_of q')).
Proof.
  intros argsort hn. split; [apply couple_sliceable; intros n r [[= <- <-]|[]]; reflexivity|]. split; [reflexivity|].
  destruct couple_heights as [H1 H2]. exists (panel_polygon (-3) (-1)), (panel_polygon 2 (-1)). split; [right; now left|]. split; [now left|]. lra.
Qed.
(** A dof with the same motion on all the panels, such as a translation, is the same before and after. *)
Theorem sliced_dofs_partial :
  forall argsort, sorts argsort -> forall set_order, (forall l, Permutation l (set_order l)) ->
  forall heal_normals b p b', sliceable argsort heal_normals b -> (forall l, fb_lid b = Some l -> tidy_tree l) ->
  fb_sliced argsort heal_normals set_order b p = Ok b' ->
  forall name, (forall rows r r', In (name, rows) (fb_dofs b) -> In r rows -> In r' rows -> r = r') ->
  forall q v, panel_moves b name q v <-> panel_moves b' name q v.
Proof.
  intros argsort Hs so Ho hn b p b' Sl Lid E name U q v. destruct (sliced_body_keeps_panels argsort Hs so Ho hn b p Sl Lid) as (b2 & E2 & Sl2 & Sp & _ & _ & D & _).
  rewrite E in E2. apply Ok_inj' in E2. subst b2. split.
  - apply uniform_moves; [exact Sp|exact D|apply Sl2|exact U].
  - apply uniform_moves; [apply same_panels_sym; exact Sp|now symmetry|apply Sl|]. rewrite D. exact U.
Qed.
Print Assumptions sliced_dofs_partial.
Example sliced_dofs_ex : forall argsort heal_normals, sliceable argsort heal_normals (couple_body [("Heave"%string, [V 0 0 1; V 0 0 1])])
  /\ (forall rows r r', In ("Heave"%string, rows) (fb_dofs (couple_body [("Heave"%string, [V 0 0 1; V 0 0 1])])) -> In r rows -> In r' rows -> r = r').
Proof.
  intros argsort hn. split; [apply couple_sliceable; intros n r [[= <- <-]|[]]; reflexivity|]. intros rows r r' [[= <-]|[]] [<-|[<-|[]]] [<-|[<-|[]]]; reflexivity.
Qed.
(** Refuted for rotations: the rows of the dofs are not reordered as the panels are. *)
Theorem sliced_rotation_refuted :
  exists b p, (forall argsort heal_normals, sliceable argsort heal_normals b) /\ fb_lid b = None /\ rotation_dof b "Pitch" (V 0 0 0) (V 0 1 0)
  /\ forall argsort, sorts argsort -> forall set_order, (forall l, Permutation l (set_order l)) -> forall heal_normals,
     exists b', fb_sliced argsort heal_normals set_order b p = Ok b' /\ ~ rotation_dof b' "Pitch" (V 0 0 0) (V 0 1 0).
Proof.
  exists (couple_body [("Pitch"%string, pitching)]), middle. split; [intros; apply couple_sliceable; intros n r [[= <- <-]|[]]; reflexivity|]. split; [reflexivity|]. split; [exact couple_pitch|].
  intros argsort Hs so Ho hn. destruct (sliced_body_keeps_panels argsort Hs so Ho hn (couple_body [("Pitch"%string, pitching)]) middle) as (b' & E & _ & _ & _ & _ & D & _).
  - apply couple_sliceable. intros n r [[= <- <-]|[]]; reflexivity.
  - discriminate.
  - exists b'. split; [exact E|]. exact (couple_sliced argsort hn so b' Hs Ho E D).
Qed.
Print Assumptions sliced_rotation_refuted.
(** Refuted for the mass: "the same body" has lost it. *)
Theorem sliced_mass_refuted :
  exists b p, fb_mass b = Some 5 /\ forall argsort, sorts argsort -> forall set_order, (forall l, Permutation l (set_order l)) -> forall heal_normals,
  exists b', fb_sliced argsort heal_normals set_order b p = Ok b' /\ fb_mass b' = None.
Proof.
  exists (couple_body []), middle. split; [reflexivity|]. intros argsort Hs so Ho hn. destruct (sliced_body_keeps_panels argsort Hs so Ho hn (couple_body []) middle) as (b' & E & _ & _ & _ & _ & _ & _ & _ & M & _).
  - apply couple_sliceable. intros n r [].
  - discriminate.
  - exists b'. auto.
Qed.
Print Assumptions sliced_mass_refuted.

(** ** C82 *)

(** Mincing a body without lid gives a body with the same panels. In each direction, if the extent of the mesh is divided in as many slices of the same width as the
    greatest power of two that is not above the requested number, each part has the centres of its panels in one slice. *)
Theorem minced_body_partial :
  forall argsort, sorts argsort -> forall set_order, (forall l, Permutation l (set_order l)) ->
  forall heal_normals b nb_slices, sliceable argsort heal_normals b -> symmetric (fb_mesh b) -> fb_lid b = None -> Forall (fun n => (0 < n)%nat) nb_slices ->
  exists b' vs, minced argsort heal_normals set_order b nb_slices = Ok b' /\ t_vertices (fb_mesh b) = Ok vs
  /\ same_panels (fb_mesh b) (fb_mesh b') /\ fb_dofs b' = fb_dofs b /\ fb_name b' = ("copy_of_" ++ fb_name b)%string /\ fb_lid b' = None
  /\ forall coordinate n lo hi, In (coordinate, n) (combine [vx; vy; vz] nb_slices) -> range_of coordinate vs lo hi ->
     forall m, In m (leaves (fb_mesh b')) -> in_one_slice coordinate lo hi (2 ^ Nat.log2 n) m.
Proof. intros argsort Hs so Ho hn b nb. exact (mince_ok argsort Hs hn so Ho b nb). Qed.
Print Assumptions minced_body_partial.
Example minced_body_ex : forall argsort heal_normals, sliceable argsort heal_normals (couple_body []) /\ symmetric (fb_mesh (couple_body []))
  /\ exists vs, t_vertices (fb_mesh (couple_body [])) = Ok vs /\ range_of vx vs (-3) 3.
Proof.
  intros argsort hn. split; [apply couple_sliceable; intros n r []|]. split; [apply Proofs_Body3.plain_symmetric; constructor; intros x [<-|[]]; constructor|].
  eexists. split; [reflexivity|]. split; [eexists; split; [do 4 right; left; reflexivity|reflexivity]|]. split; [eexists; split; [right; left; reflexivity|cbn; lra]|].
  intros v Hv. cbn in Hv. repeat destruct Hv as [<-|Hv]; cbn; try lra.
Qed.
(** No slice at all in some direction is refused, one slice in each direction changes nothing but the name. *)
Theorem minced_in_no_slice :
  forall argsort heal_normals set_order b nb_slices, (exists n, In n (firstn 3 nb_slices) /\ n = 0%nat) -> exists e, minced argsort heal_normals set_order b nb_slices = Err e.
Proof.
  intros argsort hn so b nb (n & Hn & ->). unfold minced. destruct (fb_copy b None) as [c|e]; [|now exists e]. cbn [bind]. unfold t_bbox. destruct (t_vertices (fb_mesh b)) as [vs|e]; [|now exists e]. cbn [bind].
  destruct (bbox (Mesh vs [])) as [[[x1 x2] [y1 y2]] [z1 z2]]. cbn [bind]. unfold directions.
  assert (G : exists e, mapM planes_in_direction (combine (combine [V 1 0 0; V 0 1 0; V 0 0 1] nb) [(x1, x2); (y1, y2); (z1, z2)]) = Err e).
  { destruct nb as [|a nb]; [destruct Hn|]. cbn [firstn In] in Hn. cbn [combine mapM]. unfold planes_in_direction at 1, slice_depth at 1. destruct a as [|a]; [eexists; reflexivity|]. cbn [bind].
    destruct Hn as [Hn|Hn]; [discriminate Hn|]. destruct nb as [|a2 nb]; [destruct Hn|]. cbn [firstn In] in Hn. cbn [combine mapM]. unfold planes_in_direction at 1, slice_depth at 1. destruct a2 as [|a2]; [eexists; reflexivity|]. cbn [bind].
    destruct Hn as [Hn|Hn]; [discriminate Hn|]. destruct nb as [|a3 nb]; [destruct Hn|]. cbn [firstn In] in Hn. cbn [combine mapM]. unfold planes_in_direction at 1, slice_depth at 1. destruct a3 as [|a3]; [eexists; reflexivity|].
    destruct Hn as [Hn|[]]. discriminate Hn. }
  destruct G as [e ->]. now exists e.
Qed.
Print Assumptions minced_in_no_slice.
Example minced_in_no_slice_ex : exists n, In n (firstn 3 [4; 0]%nat) /\ n = 0%nat.
Proof. exists 0%nat. split; [right; now left|reflexivity]. Qed.
Theorem minced_in_one_slice :
  forall argsort heal_normals set_order b nb_slices b', Forall (eq 1%nat) nb_slices -> minced argsort heal_normals set_order b nb_slices = Ok b' -> fb_copy b None = Ok b'.
Proof.
  intros argsort hn so b nb b' H1 E. unfold minced in E. destruct (fb_copy b None) as [c|e]; [|discriminate E]. cbn [bind] in E. destruct (t_bbox (fb_mesh b)) as [sizes|e]; [|discriminate E]. cbn [bind] in E.
  assert (G : forall l, (forall d n r, In (d, n, r) l -> n = 1%nat) -> mapM planes_in_direction l = Ok (map (fun _ => []) l)).
  { induction l as [|[[d n] [lo hi]] l IH]; intros H; [reflexivity|]. cbn [mapM map]. unfold planes_in_direction at 1. rewrite (H d n (lo, hi) (or_introl eq_refl)). cbn [slice_depth bind]. cbn. rewrite IH; [reflexivity|].
    intros d' n' r' H'. apply (H d' n' r'). now right. }
  rewrite G in E. 2:{ intros d n r H. apply in_combine_l in H. apply in_combine_r in H. rewrite Forall_forall in H1. symmetry. now apply H1. }
  cbn [bind] in E. assert (Z : forall A B (l : list A), concat (intermingled (map (fun _ => @nil (list B)) l)) = []).
  { intros A B l. unfold intermingled. replace (fold_right Nat.max 0%nat (map (@length (list B)) (map (fun _ => []) l))) with 0%nat; [reflexivity|]. induction l as [|a l IH]; [reflexivity|]. cbn. exact IH. }
  rewrite Z in E. exact E.
Qed.
Print Assumptions minced_in_one_slice.
Example minced_in_one_slice_ex : forall argsort, sorts argsort -> forall set_order, (forall l, Permutation l (set_order l)) -> forall heal_normals,
  exists b', minced argsort heal_normals set_order (couple_body []) [1; 1; 1]%nat = Ok b' /\ fb_mass b' = Some 5.
Proof.
  intros argsort Hs so Ho hn. destruct (minced_body_partial argsort Hs so Ho hn (couple_body []) [1; 1; 1]%nat) as (b' & vs & E & _).
  - apply couple_sliceable. intros n r [].
  - apply Proofs_Body3.plain_symmetric. constructor. intros x [<-|[]]. constructor.
  - reflexivity.
  - repeat constructor.
  - exists b'. split; [exact E|]. apply minced_in_one_slice in E; [|repeat constructor].
    assert (Es : symmetric (Node Plain [Leaf couple])) by (apply Proofs_Body3.plain_symmetric; constructor; intros x [<-|[]]; constructor).
    unfold fb_copy in E. cbn [couple_body fb_check fb_dofs forallb fb_mesh] in E. rewrite (Proofs_Symmetry.copy_ok _ Es) in E. cbn in E. injection E as <-. reflexivity.
Qed.
