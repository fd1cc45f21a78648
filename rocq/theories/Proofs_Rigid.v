(** Entries of the inertia and stiffness matrices of rigid bodies. *)
From Coq Require Import Reals String Ascii.
From Coquelicot Require Import Coquelicot.
From Coq Require Import List Bool Arith ZArith Lra Lia.
From Verif Require Import Model_Base Model_Geometry Model_Mesh Spec_Mesh Model_Quality Spec_Quality Model_Tree Spec_Tree
  Proofs_Geometry Proofs_Mesh Proofs_Mesh2 Proofs_Mesh3 Proofs_Quality Proofs_Tree Proofs_Tree2 Proofs_Symmetry
  Spec_Clip Proofs_Clip4 Proofs_Clip5 Proofs_Clip6 Model_Integrals Spec_Integrals Proofs_Integrals Proofs_Integrals2
  Model_Body Spec_Body Proofs_Body Proofs_Body2 Proofs_Body3 Proofs_Body4 Proofs_Body5 Proofs_Body6 Spec_Rigid.
Import ListNotations.
Open Scope R_scope.

(** ** Inertia *)
(** The fields whose fluxes are computed by the code. *)
Definition field_of (d d' : vec) (p : vec) : vec :=
  let x := vx p in let y := vy p in let z := vz p in
  vadd (V ((vx d * vx d') * x * (y * y + z * z) / 3 + (vy d * vy d') * (x * x * x / 3 + x * z * z) / 3 + (vz d * vz d') * (x * x * x / 3 + x * y * y) / 3)
          ((vx d * vx d') * (y * y * y / 3 + y * z * z) / 3 + (vy d * vy d') * y * (x * x + z * z) / 3 + (vz d * vz d') * (y * x * x + y * y * y / 3) / 3)
          ((vx d * vx d') * (z * y * y + z * z * z / 3) / 3 + (vy d * vy d') * (z * x * x + z * z * z / 3) / 3 + (vz d * vz d') * z * (x * x + y * y) / 3))
       (V (- (vy d * vz d' + vz d * vy d') * x * (y * z)) (- (vz d * vx d' + vx d * vz d') * y * (z * x)) (- (vx d * vy d' + vy d * vx d') * z * (x * y))).
Lemma field_divergence d d' p : divergence (field_of d d') p (dot (cross d p) (cross d' p)).
Proof.
  unfold divergence, field_of, vadd, dot, cross. cbn [vx vy vz].
  do 3 eexists. split; [auto_derive; [exact I|reflexivity]|]. split; [auto_derive; [exact I|reflexivity]|]. split; [auto_derive; [exact I|reflexivity]|]. field.
Qed.
Lemma Rsum_lin {A} (f g : A -> R) c l : Rsum (map f l) + c * Rsum (map g l) = Rsum (map (fun x => f x + c * g x) l).
Proof. induction l as [|a l IH]; cbn [map]; rewrite ?Rsum_nil, ?Rsum_cons; [ring|]. rewrite <- IH. ring. Qed.
Lemma flux_integrals ps rc d d' :
  flux ps rc (field_of d d') =
  let I := inertia_integral ps rc in
  let xx f := vx f * vx f in let yy f := vy f * vy f in let zz f := vz f * vz f in
  let xy f := vx f * vy f in let yz f := vy f * vz f in let zx f := vz f * vx f in
  (vx d * vx d') * ((I vx yy + I vx zz + I vy yy / 3 + I vy zz + I vz yy + I vz zz / 3) / 3)
  + (vy d * vy d') * ((I vx xx / 3 + I vx zz + I vy xx + I vy zz + I vz xx + I vz zz / 3) / 3)
  + (vz d * vz d') * ((I vx xx / 3 + I vx yy + I vy xx + I vy yy / 3 + I vz xx + I vz yy) / 3)
  - (vy d * vz d' + vz d * vy d') * I vx yz - (vz d * vx d' + vx d * vz d') * I vy zx - (vx d * vy d' + vy d * vx d') * I vz xy.
Proof.
  cbn zeta. unfold flux, inertia_integral. induction ps as [|q ps IH]; cbn [map]; rewrite ?Rsum_nil, ?Rsum_cons.
  - field.
  - rewrite IH. clear IH. repeat match goal with |- context [Rsum ?x] => generalize (Rsum x); intros ? end.
    unfold field_of, dot, vadd, vsub. cbn [vx vy vz]. field.
Qed.
Lemma motion_name i mi : In (i, mi) rigid_motions -> In i rigid_names.
Proof. unfold rigid_motions, rigid_names. cbn [In]. intros [H|[H|[H|[H|[H|[H|[]]]]]]]; injection H as <- _; tauto. Qed.
Lemma inertia_table b rho o m : compute_rigid_body_inertia b rho o = Ok m ->
  exists com rc ps vol, fb_com b = Some com /\ infer_rotation_center b = Ok rc /\ t_props (fb_mesh b) = Ok ps /\ volume (fb_mesh b) = Ok vol
  /\ exists names, m = LM names (map (fun i => map (inertia_entry
      (map (map (fun x => option_map (fun d => d * x) (inertia_density rho (fb_mass b) vol))) (volumic_inertia ps rc com vol)) i) names) names).
Proof.
  unfold compute_rigid_body_inertia. destruct (rigid_inertia b rho) as [x|] eqn:E; [|discriminate]. cbn [bind]. intros Em.
  unfold rigid_inertia in E. destruct (fb_com b) as [com|]; [|discriminate]. destruct (infer_rotation_center b) as [rc|]; [|discriminate].
  destruct (t_props (fb_mesh b)) as [ps|]; [|discriminate]. destruct (volume (fb_mesh b)) as [vol|]; [|discriminate]. cbn [bind] in E. apply Ok_inj' in E.
  exists com, rc, ps, vol. do 4 (split; [reflexivity|]). rewrite E. destruct o; try discriminate; apply Ok_inj' in Em; subst m; eexists; reflexivity.
Qed.
Lemma table_entry names (f : string -> string -> option R) k l i j : nth_error names k = Some i -> nth_error names l = Some j ->
  coefficient (LM names (map (fun i => map (f i) names) names)) k l = Some (f i j).
Proof. intros Hk Hl. unfold coefficient. cbn [lm_rows]. rewrite nth_error_map, Hk. cbn [option_map]. now rewrite nth_error_map, Hl. Qed.
Lemma inertia_entries b rho o m : compute_rigid_body_inertia b rho o = Ok m ->
  exists com rc ps vol, fb_com b = Some com /\ infer_rotation_center b = Ok rc /\ t_props (fb_mesh b) = Ok ps /\ volume (fb_mesh b) = Ok vol
  /\ ((fb_mass b <> None -> vol <> 0) ->
      forall k l i j mi mj, nth_error (lm_labels m) k = Some i -> nth_error (lm_labels m) l = Some j ->
      In (i, mi) rigid_motions -> In (j, mj) rigid_motions ->
      (~ (rotates mi /\ rotates mj) ->
        coefficient m k l = Some (Some (mass_of b rho vol * dot (velocity mi (vsub com rc)) (velocity mj (vsub com rc)))))
      /\ (rotates mi /\ rotates mj -> exists W, (forall p, divergence W p (dot (velocity mi p) (velocity mj p)))
        /\ coefficient m k l = Some (Some (density_of b rho vol * flux ps rc W))))
  /\ (forall k l i j, nth_error (lm_labels m) k = Some i -> nth_error (lm_labels m) l = Some j ->
      ~ In i (map fst rigid_motions) \/ ~ In j (map fst rigid_motions) -> coefficient m k l = Some None).
Proof.
  intros Em. destruct (inertia_table _ _ _ _ Em) as (com & rc & ps & vol & Ec & Er & Ep & Ev & names & ->). clear Em.
  exists com, rc, ps, vol. do 4 (split; [assumption|]). split.
  - intros Hv k l i j mi mj Hk Hl Hi Hj. cbn [lm_labels] in Hk, Hl. rewrite (table_entry _ _ _ _ _ _ Hk Hl).
    assert (exists dn, inertia_density rho (fb_mass b) vol = Some dn /\ dn * vol = mass_of b rho vol /\ dn = density_of b rho vol) as (dn & -> & Ed & Ed').
    { unfold inertia_density, mass_of, density_of. destruct (fb_mass b) as [ms|]; [|eexists; split; [reflexivity|split; reflexivity]].
      assert (vol <> 0) by (apply Hv; discriminate). destruct (Reqb vol 0) eqn:E; [apply Reqb_true in E; contradiction|]. eexists. split; [reflexivity|].
      split; [field; assumption|reflexivity]. }
    rewrite <- Ed, <- Ed'. clear - Hi Hj. split.
    + unfold rigid_motions in Hi, Hj. cbn [In] in Hi, Hj. intros Hn.
      destruct Hi as [H|[H|[H|[H|[H|[H|[]]]]]]]; injection H as <- <-; destruct Hj as [H|[H|[H|[H|[H|[H|[]]]]]]]; injection H as <- <-;
        cbn [rotates] in Hn; try (exfalso; apply Hn; split; exact I); unfold inertia_entry, volumic_inertia; cbn [label_position rigid_names String.eqb Ascii.eqb Bool.eqb bind nth_error map option_map];
        do 2 f_equal; unfold velocity, dot, cross, vsub; cbn [vx vy vz]; ring.
    + unfold rigid_motions in Hi, Hj. cbn [In] in Hi, Hj. intros [Ri Rj].
      destruct Hi as [H|[H|[H|[H|[H|[H|[]]]]]]]; injection H as <- <-; try contradiction; (destruct Hj as [H|[H|[H|[H|[H|[H|[]]]]]]]; injection H as <- <-; try contradiction);
        match goal with |- context [velocity (Around ?d) _] => match goal with |- context [dot (velocity (Around d) _) (velocity (Around ?d') _)] => exists (field_of d d') end end;
        (split; [intros p; apply field_divergence|]);
        unfold inertia_entry, volumic_inertia; cbn [label_position rigid_names String.eqb Ascii.eqb Bool.eqb bind nth_error map option_map];
        do 2 f_equal; rewrite flux_integrals; cbn [vx vy vz]; cbn zeta; f_equal; field.
  - intros k l i j Hk Hl H. cbn [lm_labels] in Hk, Hl. rewrite (table_entry _ _ _ _ _ _ Hk Hl). f_equal. unfold inertia_entry.
    assert (N : forall s n, label_position s rigid_names = Ok n -> In s (map fst rigid_motions)).
    { clear. intros s n. change (map fst rigid_motions) with rigid_names. revert n. generalize rigid_names. intros L. induction L as [|x L IH]; intros n E; [discriminate|]. cbn in E.
      destruct (String.eqb_spec s x) as [->|]; [now left|]. right. destruct (label_position s L) as [u|] eqn:Es; [|discriminate]. exact (IH u eq_refl). }
    destruct (label_position i rigid_names) as [ki|] eqn:Ei; [|reflexivity]. destruct (label_position j rigid_names) as [kj|] eqn:Ej; [|reflexivity].
    exfalso. destruct H as [H|H]; apply H; eapply N; eassumption.
Qed.

(** ** Stiffness *)
Lemma product_maps {A} (f g : A -> R) l : product (map f l) (map g l) = Ok (map (fun x => f x * g x) l).
Proof.
  unfold product. rewrite !map_length, Nat.eqb_refl. f_equal. induction l as [|a l IH]; [reflexivity|]. cbn. now rewrite IH.
Qed.
Lemma waterplane_sum t ps (w : vec -> R) : t_props t = Ok ps ->
  waterplane_integral t (map w (map p_center ps)) = Ok (Rsum (map (fun p => vz (p_normal p) * w (p_center p) * p_area p) ps)).
Proof.
  intros E. unfold waterplane_integral, surface_integral. rewrite E. cbn [bind]. rewrite map_map, (product_maps _ (fun x => w (p_center x))). cbn [bind].
  now rewrite product_maps.
Qed.
Lemma waterplane_one t ps : t_props t = Ok ps -> waterplane_area t = Ok (- Rsum (map (fun p => vz (p_normal p) * p_area p) ps)).
Proof.
  intros E. unfold waterplane_area, waterplane_integral, surface_integral. rewrite E. cbn [bind].
  assert (H : product (map (fun p => vz (p_normal p)) ps) [1] = Ok (map (fun p => vz (p_normal p)) ps)).
  { unfold product. destruct ps as [|p [|q ps]]; [reflexivity| |].
    - cbn. now rewrite Rmult_1_r.
    - cbn [map length Nat.eqb]. f_equal. cbn. f_equal; [ring|]. f_equal; [ring|]. rewrite map_map. apply map_ext. intros x. ring. }
  rewrite H. cbn [bind]. rewrite product_maps. reflexivity.
Qed.
Definition upward (ps : list fprops) (rc : vec) (mi mj : motion) : R :=
  Rsum (map (fun p => p_area p * vz (p_normal p) * vz (velocity mi (vsub (p_center p) rc)) * vz (velocity mj (vsub (p_center p) rc))) ps).
Lemma stiffness_entries b com rho vol cob rc ps : rho <> 0 -> volume (fb_mesh b) = Ok vol ->
  center_of_buoyancy (fb_mesh b) = Ok (Some cob) -> infer_rotation_center b = Ok rc -> t_props (fb_mesh b) = Ok ps ->
  forall i j mi mj, In (i, mi) rigid_motions -> In (j, mj) rigid_motions ->
  rigid_stiffness b com rho i j = Ok (Some (- upward ps rc mi mj
     - vz (double_turn mi mj (vsub (vscale vol (vsub cob rc)) (vscale (mass_of b rho vol / rho) (vsub com rc)))))).
Proof.
  intros Hr Ev Ec Er Ep i j mi mj Hi Hj.
  unfold rigid_stiffness, fb_centers. rewrite Ev, Er, Ec, Ep. cbn [bind]. fold (mass_of b rho vol). unfold moment_term.
  destruct (Reqb rho 0) eqn:E0; [apply Reqb_true in E0; contradiction|]. generalize (mass_of b rho vol). intros ms. clear E0 Ev Er Ec Hr.
  unfold rigid_motions in Hi, Hj. cbn [In] in Hi, Hj. unfold pair_in.
  destruct Hi as [H|[H|[H|[H|[H|[H|[]]]]]]]; injection H as <- <-; (destruct Hj as [H|[H|[H|[H|[H|[H|[]]]]]]]; injection H as <- <-);
    repeat match goal with |- context [pair_is ?a ?b ?c ?d] => let v := eval vm_compute in (pair_is a b c d) in change (pair_is a b c d) with v end;
    cbv iota; cbn [orb]; rewrite ?(waterplane_sum _ _ _ Ep), ?(waterplane_one _ _ Ep); cbn [bind option_map]; do 2 f_equal;
    unfold upward, double_turn, velocity, cross, vsub, vscale; cbn [vx vy vz]; clear Ep;
    try (induction ps as [|p ps IH]; cbn [map]; rewrite ?Rsum_nil, ?Rsum_cons in *; lra).
Qed.
