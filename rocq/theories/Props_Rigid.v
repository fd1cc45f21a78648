(** C31, C50, C52: restriction to some dofs, entries of the inertia and stiffness matrices. *)
From Coq Require Import Reals String Ascii.
From Coquelicot Require Import Coquelicot.
From Coq Require Import List Bool Arith ZArith Lra Lia.
From Verif Require Import Model_Base Model_Geometry Model_Mesh Spec_Mesh Model_Tree Spec_Tree Model_Integrals Spec_Integrals
  Proofs_Geometry Proofs_Integrals Proofs_Integrals3 Proofs_Body7 Model_Body Spec_Body Proofs_Body6 Props_Body Spec_Rigid Proofs_Rigid Proofs_Rigid2.
Import ListNotations.
Open Scope R_scope.

(** ** C50: each coefficient of the inertia matrix of a rigid body with a mass distribution of uniform density is the density times
    the integral over the volume of the scalar product of the velocities of the two motions: exactly (the product is
    affine, the integral is the mass times the value at the centre of mass) unless the two motions are rotations, and then it is computed as
    the flux through the faces of a field whose divergence is this scalar product. The coefficients of other dofs are
    undefined. *)
Theorem inertia_coefficients :
  forall b rho output m, compute_rigid_body_inertia b rho output = Ok m ->
  exists com rc ps vol, fb_com b = Some com /\ infer_rotation_center b = Ok rc /\ t_props (fb_mesh b) = Ok ps /\ volume (fb_mesh b) = Ok vol
  /\ ((fb_mass b <> None -> vol <> 0) ->
      forall k l i j mi mj, nth_error (lm_labels m) k = Some i -> nth_error (lm_labels m) l = Some j ->
      In (i, mi) rigid_motions -> In (j, mj) rigid_motions ->
      (~ (rotates mi /\ rotates mj) ->
        coefficient m k l = Some (Some (mass_of b rho vol * dot (velocity mi (vsub com rc)) (velocity mj (vsub com rc)))))
      /\ (rotates mi /\ rotates mj -> exists W, (forall p, divergence W p (dot (velocity mi p) (velocity mj p)))
        /\ coefficient m k l = Some (Some (density_of b rho vol * flux ps rc W))))
  /\ (forall k l i j, nth_error (lm_labels m) k = Some i -> nth_error (lm_labels m) l = Some j ->
      ~ In i (map fst rigid_motions) \/ ~ In j (map fst rigid_motions) -> coefficient m k l = Some None).
Proof. exact inertia_entries. Qed.
Print Assumptions inertia_coefficients.
Example inertia_coefficients_ex :
  exists m, compute_rigid_body_inertia (tetra_body (Some 2) (Some (V 0 0 0)) (Some (V 1 0 0)) []) 1000 RigidBodyDofs = Ok m
  /\ nth_error (lm_labels m) 1 = Some "Sway"%string /\ nth_error (lm_labels m) 5 = Some "Yaw"%string
  /\ coefficient m 1 5 = Some (Some (2 * (0 - 1))).
Proof.
  destruct inertia_ex as (m & Em & El & Ev). exists m. split; [exact Em|]. rewrite El. split; [reflexivity|]. split; [reflexivity|].
  destruct (inertia_coefficients _ _ _ _ Em) as (com & rc & ps & vol & Ec & Er & Ep & Ev' & H & _).
  cbn in Ec, Er. injection Ec as <-. injection Er as <-. change (volume (Leaf Proofs_Integrals3.tetra) = Ok vol) in Ev'. rewrite Ev in Ev'. injection Ev' as <-.
  assert (Hv : fb_mass (tetra_body (Some 2) (Some (V 0 0 0)) (Some (V 1 0 0)) []) <> None -> 1 / 6 <> 0) by (intros _; lra).
  destruct (H Hv 1%nat 5%nat "Sway"%string "Yaw"%string (Along (V 0 1 0)) (Around (V 0 0 1))) as [H1 _].
  - now rewrite El.
  - now rewrite El.
  - cbn. tauto.
  - cbn. tauto.
  - rewrite H1 by (cbn; tauto). do 2 f_equal. unfold mass_of, dot, velocity, cross, vsub. cbn. ring.
Qed.

(** ** C52: the coefficients of the hydrostatic stiffness of two rigid motions: rho g times, first, minus the sum over the faces of the vertical component of
    the normal times the vertical velocities of the two motions (the motion of the waterplane), second, minus the vertical second-order
    displacement of the moment of the buoyancy minus that of the weight. *)
Theorem stiffness_coefficients :
  forall b com rho g divergence vol cob rc ps, fb_com b = Some com -> rho <> 0 -> volume (fb_mesh b) = Ok vol ->
  center_of_buoyancy (fb_mesh b) = Ok (Some cob) -> infer_rotation_center b = Ok rc -> t_props (fb_mesh b) = Ok ps ->
  forall i j mi mj, In (i, mi) rigid_motions -> In (j, mj) rigid_motions ->
  each_hydrostatic_stiffness b i j divergence rho g = Ok (Some (rho * g *
    (- Rsum (map (fun p => p_area p * vz (p_normal p) * vz (velocity mi (vsub (p_center p) rc)) * vz (velocity mj (vsub (p_center p) rc))) ps)
     - vz (double_turn mi mj (vsub (vscale vol (vsub cob rc)) (vscale (mass_of b rho vol / rho) (vsub com rc))))))).
Proof.
  intros b com rho g divergence vol cob rc ps Ec Hr Ev Eb Er Ep i j mi mj Hi Hj. unfold each_hydrostatic_stiffness. rewrite Ec.
  assert (Rg : forall n x, In (n, x) rigid_motions -> is_rigid n = true).
  { intros n x H. apply existsb_exists. exists n. split; [exact (motion_name _ _ H)|apply String.eqb_refl]. }
  rewrite (Rg _ _ Hi), (Rg _ _ Hj). cbn [andb].
  rewrite (stiffness_entries b com rho vol cob rc ps Hr Ev Eb Er Ep i j mi mj Hi Hj). reflexivity.
Qed.
Print Assumptions stiffness_coefficients.
Example stiffness_coefficients_ex : exists vol cob rc ps,
  let b := tetra_body None (Some (V 1 0 0)) (Some (V 0 0 0)) tetra_dofs in
  fb_com b = Some (V 1 0 0) /\ volume (fb_mesh b) = Ok vol /\ center_of_buoyancy (fb_mesh b) = Ok (Some cob)
  /\ infer_rotation_center b = Ok rc /\ t_props (fb_mesh b) = Ok ps
  /\ vz (double_turn (Around (V 1 0 0)) (Around (V 0 0 1)) (V 2 3 5)) = 2.
Proof.
  destruct tetra_props as (f1 & f2 & f3 & f4 & Ep). do 4 eexists. cbn zeta. split; [reflexivity|]. split; [exact tetra_volume|]. split; [exact tetra_buoyancy|].
  split; [reflexivity|]. split; [exact Ep|]. unfold double_turn, cross. cbn. ring.
Qed.
(** The stiffness matrix has these coefficients. *)
Theorem stiffness_matrix_coefficients :
  forall b divergence rho g m, compute_hydrostatic_stiffness b divergence rho g = Ok m ->
  lm_labels m = map fst (fb_dofs b)
  /\ forall k l i j, nth_error (lm_labels m) k = Some i -> nth_error (lm_labels m) l = Some j ->
     exists div x, each_hydrostatic_stiffness b i j div rho g = Ok x /\ coefficient m k l = Some x.
Proof.
  intros b divergence rho g m E. unfold compute_hydrostatic_stiffness in E. destruct (map fst (fb_dofs b)) as [|n0 ns] eqn:En; [discriminate|].
  set (names := n0 :: ns) in *. clearbody names. destruct (mapM _ names) as [rows|] eqn:Er; [|discriminate]. cbn [bind] in E. injection E as <-.
  split; [reflexivity|]. cbn [lm_labels]. intros k l i j Hk Hl. destruct (mapM_entry _ _ _ _ _ Er Hk) as (r & Hr & Fr).
  destruct (mapM_entry _ _ _ _ _ Fr Hl) as (x & Hx & Fx). exists (divergence_dof divergence i), x. split; [exact Fx|]. unfold coefficient. cbn [lm_rows]. now rewrite Hr.
Qed.
Print Assumptions stiffness_matrix_coefficients.
Example stiffness_matrix_ex : exists m, compute_hydrostatic_stiffness (tetra_body None (Some (V 1 0 0)) (Some (V 0 0 0)) tetra_dofs) [] 1 1 = Ok m
  /\ nth_error (lm_labels m) 1 = Some "Yaw"%string.
Proof. destruct (tetra_stiffness (V 1 0 0)) as (c & d & E & _). eexists. split; [exact E|]. reflexivity. Qed.

(** ** C31: keeping only some of the dofs keeps their values and restricts the matrices to them; nothing else changes. *)
Theorem kept_dofs :
  forall b names b', keep_only_dofs b names = Ok b' ->
  (forall n, In n names -> dget n (fb_dofs b') = dget n (fb_dofs b))
  /\ (forall n, ~ In n names -> dget n (fb_dofs b') = Err KeyError)
  /\ map fst (fb_dofs b') = filter (fun n => existsb (String.eqb n) names) (map fst (fb_dofs b))
  /\ restricts_option names (fb_inertia b) (fb_inertia b') /\ restricts_option names (fb_stiffness b) (fb_stiffness b')
  /\ b' = set_matrices (set_dofs b (fb_dofs b')) (fb_inertia b') (fb_stiffness b').
Proof. exact keep_spec. Qed.
Print Assumptions kept_dofs.
(** It succeeds when the matrices have these labels. *)
Theorem keeping_dofs_succeeds :
  forall b names, (forall m, fb_inertia b = Some m \/ fb_stiffness b = Some m -> square m /\ incl names (lm_labels m)) ->
  exists b', keep_only_dofs b names = Ok b'.
Proof. exact keep_total. Qed.
Print Assumptions keeping_dofs_succeeds.
Definition labelled_body : fbody :=
  set_matrices (tetra_body None None None tetra_dofs) (Some (LM ["Roll"%string; "Yaw"%string] [[Some 1; Some 2]; [Some 3; Some 4]]))
    (Some (LM ["Yaw"%string; "Roll"%string] [[Some 5; Some 6]; [Some 7; Some 8]])).
Example kept_dofs_ex : exists b', keep_only_dofs labelled_body ["Roll"%string] = Ok b'
  /\ fb_inertia b' = Some (LM ["Roll"%string] [[Some 1]]) /\ fb_stiffness b' = Some (LM ["Roll"%string] [[Some 8]])
  /\ forall m, fb_inertia labelled_body = Some m \/ fb_stiffness labelled_body = Some m -> square m /\ incl ["Roll"%string] (lm_labels m).
Proof.
  eexists. split; [reflexivity|]. split; [reflexivity|]. split; [reflexivity|]. intros m [H|H]; injection H as <-.
  - split; [split; [reflexivity|intros r [<-|[<-|[]]]; reflexivity]|]. intros n [<-|[]]. now left.
  - split; [split; [reflexivity|intros r [<-|[<-|[]]]; reflexivity]|]. intros n [<-|[]]. right. now left.
Qed.
