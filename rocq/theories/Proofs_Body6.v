(** Inertia and hydrostatic stiffness of bodies. *)
From Coq Require Import Reals String Ascii List Bool Arith ZArith Lra Lia.
From Verif Require Import Model_Base Model_Geometry Model_Mesh Spec_Mesh Model_Quality Spec_Quality Model_Tree Spec_Tree
  Proofs_Geometry Proofs_Mesh Proofs_Mesh2 Proofs_Mesh3 Proofs_Quality Proofs_Tree Proofs_Tree2 Proofs_Symmetry
  Spec_Clip Proofs_Clip4 Proofs_Clip5 Proofs_Clip6 Model_Integrals Spec_Integrals Proofs_Integrals Proofs_Integrals2
  Model_Body Spec_Body Proofs_Body Proofs_Body2 Proofs_Body3 Proofs_Body4 Proofs_Body5.
Import ListNotations.
Open Scope R_scope.

(** ** Inertia *)
Definition symmetric_rows {A} (m : list (list A)) : Prop :=
  forall k l r r', nth_error m k = Some r -> nth_error m l = Some r' -> nth_error r l = nth_error r' k.
Lemma volumic_symmetric ps rc com vol : symmetric_rows (volumic_inertia ps rc com vol).
Proof.
  unfold symmetric_rows, volumic_inertia. intros k l r r' Hk Hl.
  destruct k as [|[|[|[|[|[|k]]]]]]; try (destruct k; discriminate); cbn [nth_error] in Hk; injection Hk as <-;
  (destruct l as [|[|[|[|[|[|l]]]]]]; try (destruct l; discriminate); cbn [nth_error] in Hl; injection Hl as <-; reflexivity).
Qed.
Lemma map_symmetric {A B} (f : A -> B) m : symmetric_rows m -> symmetric_rows (map (map f) m).
Proof.
  intros S k l r r' Hk Hl. rewrite nth_error_map in Hk, Hl. destruct (nth_error m k) as [a|] eqn:Ek; [|discriminate]. destruct (nth_error m l) as [a'|] eqn:El; [|discriminate].
  cbn in Hk, Hl. injection Hk as <-. injection Hl as <-. rewrite !nth_error_map. f_equal. exact (S k l a a' Ek El).
Qed.
Definition six (m : list (list (option R))) : Prop := List.length m = 6%nat /\ forall r, In r m -> List.length r = 6%nat.
Lemma entry_symmetric m i j : symmetric_rows m -> six m -> inertia_entry m i j = inertia_entry m j i.
Proof.
  intros S [L6 R6]. unfold inertia_entry. destruct (label_position i rigid_names) as [k|] eqn:Ei; [|destruct (label_position j rigid_names); reflexivity].
  destruct (label_position j rigid_names) as [l|] eqn:Ej; [|reflexivity].
  assert (B : forall s n, label_position s rigid_names = Ok n -> (n < 6)%nat).
  { clear. intros s n. unfold rigid_names. cbn [label_position]. repeat (destruct (String.eqb s _); cbn [bind]; [intros H; injection H as <-; lia|]). discriminate. }
  pose proof (B _ _ Ei) as Hk. pose proof (B _ _ Ej) as Hl.
  destruct (nth_error m k) as [r|] eqn:Ek; [|apply nth_error_None in Ek; lia]. destruct (nth_error m l) as [r'|] eqn:El; [|apply nth_error_None in El; lia].
  now rewrite (S k l r r' Ek El).
Qed.
Lemma table_symmetric (f : string -> string -> option R) names : (forall i j, f i j = f j i) ->
  symmetric_rows (map (fun i => map (f i) names) names).
Proof.
  intros H k l r r' Hk Hl. rewrite nth_error_map in Hk, Hl. destruct (nth_error names k) as [i|] eqn:Ei; [|discriminate]. destruct (nth_error names l) as [j|] eqn:Ej; [|discriminate].
  cbn in Hk, Hl. injection Hk as <-. injection Hl as <-. rewrite !nth_error_map, Ei, Ej. cbn. now rewrite H.
Qed.
Lemma rigid_inertia_shape b rho m : rigid_inertia b rho = Ok m -> symmetric_rows m /\ six m.
Proof.
  unfold rigid_inertia. destruct (fb_com b) as [com|]; [|discriminate]. destruct (infer_rotation_center b) as [rc|]; [|discriminate].
  destruct (t_props (fb_mesh b)) as [ps|]; [|discriminate]. destruct (volume (fb_mesh b)) as [vol|]; [|discriminate]. cbn [bind]. intros E.
  assert (m = map (map (fun x => option_map (fun d => d * x) (inertia_density rho (fb_mass b) vol))) (volumic_inertia ps rc com vol)) as -> by congruence.
  split; [apply map_symmetric, volumic_symmetric|]. split; [reflexivity|]. intros r Hr. apply in_map_iff in Hr. destruct Hr as (r0 & <- & Hr). rewrite map_length.
  unfold volumic_inertia in Hr. cbn [In] in Hr. destruct Hr as [<-|[<-|[<-|[<-|[<-|[<-|[]]]]]]]; reflexivity.
Qed.
Lemma inertia_symmetric b rho o m : compute_rigid_body_inertia b rho o = Ok m ->
  forall k l, coefficient m k l = coefficient m l k.
Proof.
  unfold compute_rigid_body_inertia. destruct (rigid_inertia b rho) as [x|] eqn:E; [|discriminate]. cbn [bind]. destruct (rigid_inertia_shape _ _ _ E) as [S S6].
  intros Em k l.
  assert (exists names, m = LM names (map (fun i => map (inertia_entry x i) names) names)) as [names ->].
  { destruct o; try discriminate; apply Ok_inj' in Em; subst m; eexists; reflexivity. }
  unfold coefficient. cbn [lm_rows]. rewrite !nth_error_map. destruct (nth_error names k) as [i|] eqn:Ei; cbn [option_map].
  - rewrite nth_error_map. destruct (nth_error names l) as [j|] eqn:Ej; cbn [option_map]; [|reflexivity]. rewrite nth_error_map, Ei. cbn. f_equal. apply entry_symmetric; assumption.
  - destruct (nth_error names l) as [j|] eqn:Ej; cbn [option_map]; [|reflexivity]. now rewrite nth_error_map, Ei.
Qed.
Lemma translation_block b rho o m vol : volume (fb_mesh b) = Ok vol -> (fb_mass b <> None -> vol <> 0) -> compute_rigid_body_inertia b rho o = Ok m ->
  forall k l i j, nth_error (lm_labels m) k = Some i -> nth_error (lm_labels m) l = Some j ->
    In i ["Surge"%string; "Sway"%string; "Heave"%string] -> In j ["Surge"%string; "Sway"%string; "Heave"%string] ->
    coefficient m k l = Some (Some (if String.eqb i j then mass_of b rho vol else 0)).
Proof.
  intros Ev Hv Em k l i j Hk Hl Hi Hj. unfold compute_rigid_body_inertia in Em. destruct (rigid_inertia b rho) as [x|] eqn:E; [|discriminate]. cbn [bind] in Em.
  assert (exists names, m = LM names (map (fun i => map (inertia_entry x i) names) names)) as [names ->].
  { destruct o; try discriminate; apply Ok_inj' in Em; subst m; eexists; reflexivity. }
  cbn [lm_labels] in Hk, Hl. unfold coefficient. cbn [lm_rows]. rewrite nth_error_map, Hk. cbn [option_map]. rewrite nth_error_map, Hl. cbn [option_map]. f_equal.
  unfold rigid_inertia in E. destruct (fb_com b) as [com|]; [|discriminate]. destruct (infer_rotation_center b) as [rc|]; [|discriminate].
  destruct (t_props (fb_mesh b)) as [ps|]; [|discriminate]. rewrite Ev in E. cbn [bind] in E.
  assert (x = map (map (fun y => option_map (fun d => d * y) (inertia_density rho (fb_mass b) vol))) (volumic_inertia ps rc com vol)) as -> by congruence.
  assert (exists dn, inertia_density rho (fb_mass b) vol = Some dn /\ dn * vol = mass_of b rho vol) as (dn & -> & Ed).
  { unfold inertia_density, mass_of. destruct (fb_mass b) as [ms|]; [|eexists; split; reflexivity].
    assert (vol <> 0) by (apply Hv; discriminate). destruct (Reqb vol 0) eqn:Er; [apply Reqb_true in Er; contradiction|]. eexists. split; [reflexivity|]. field. assumption. }
  cbn [In] in Hi, Hj. destruct Hi as [<-|[<-|[<-|[]]]]; destruct Hj as [<-|[<-|[<-|[]]]]; cbn; f_equal; rewrite ?Ed; ring.
Qed.

(** ** Hydrostatic stiffness *)
Lemma rigid_stiffness_symmetric b com rho vol cob rc : rho <> 0 -> volume (fb_mesh b) = Ok vol -> center_of_buoyancy (fb_mesh b) = Ok (Some cob) ->
  infer_rotation_center b = Ok rc ->
  mass_of b rho vol * (vx com - vx rc) = rho * vol * (vx cob - vx rc) -> mass_of b rho vol * (vy com - vy rc) = rho * vol * (vy cob - vy rc) ->
  forall i j, is_rigid i = true -> is_rigid j = true -> rigid_stiffness b com rho i j = rigid_stiffness b com rho j i.
Proof.
  intros Hr Ev Ec Er Ex Ey.
  assert (M : forall x : vec -> R, mass_of b rho vol * (x com - x rc) = rho * vol * (x cob - x rc) ->
     moment_term vol (Some cob) (mass_of b rho vol) rho com rc x = Some 0).
  { intros x H. unfold moment_term. destruct (Reqb rho 0) eqn:E; [apply Reqb_true in E; contradiction|]. f_equal.
    replace (mass_of b rho vol / rho * (x com - x rc)) with (mass_of b rho vol * (x com - x rc) / rho) by (field; assumption). rewrite H. field. assumption. }
  pose proof (M vx Ex) as Mx. pose proof (M vy Ey) as My. clear M.
  assert (Rg : forall i, is_rigid i = true -> In i rigid_names).
  { intros i H. unfold is_rigid in H. apply existsb_exists in H. destruct H as (n & Hn & E). apply String.eqb_eq in E. now subst. }
  intros i j Hi Hj. apply Rg in Hi, Hj. unfold rigid_stiffness. rewrite Ev, Er, Ec. cbn [bind]. fold (mass_of b rho vol).
  destruct (fb_centers b) as [cs|]; [|reflexivity]. cbn [bind]. unfold rigid_names in Hi, Hj. cbn [In] in Hi, Hj. unfold pair_in.
  destruct Hi as [<-|[<-|[<-|[<-|[<-|[<-|[]]]]]]]; destruct Hj as [<-|[<-|[<-|[<-|[<-|[<-|[]]]]]]];
    repeat match goal with |- context [pair_is ?a ?b ?c ?d] => let v := eval vm_compute in (pair_is a b c d) in change (pair_is a b c d) with v end;
    cbv iota; cbn [orb]; rewrite ?Mx, ?My; cbn [option_map]; rewrite ?Ropp_0; reflexivity.
Qed.
Lemma mapM_entry {A B} (f : A -> result B) l r k x : mapM f l = Ok r -> nth_error l k = Some x -> exists y, nth_error r k = Some y /\ f x = Ok y.
Proof.
  intros H. revert r k x H. induction l as [|a l IH]; intros r k x H E; [now destruct k|]. cbn in H. destruct (f a) as [y|] eqn:Ef; [|discriminate]. cbn in H.
  destruct (mapM f l) as [ys|] eqn:Em; [|discriminate]. cbn in H. injection H as <-. destruct k as [|k]; cbn in E.
  - injection E as <-. exists y. auto.
  - exact (IH ys k x eq_refl E).
Qed.
Lemma stiffness_symmetric b com rho g div vol cob rc m : fb_com b = Some com -> rho <> 0 -> volume (fb_mesh b) = Ok vol ->
  center_of_buoyancy (fb_mesh b) = Ok (Some cob) -> infer_rotation_center b = Ok rc ->
  mass_of b rho vol * (vx com - vx rc) = rho * vol * (vx cob - vx rc) -> mass_of b rho vol * (vy com - vy rc) = rho * vol * (vy cob - vy rc) ->
  (forall n r, In (n, r) (fb_dofs b) -> In n rigid_names) -> compute_hydrostatic_stiffness b div rho g = Ok m ->
  forall k l, coefficient m k l = coefficient m l k.
Proof.
  intros Ec Hr Ev Eb Er Ex Ey Hn Em k l. unfold compute_hydrostatic_stiffness in Em.
  assert (Rg : forall n, In n (map fst (fb_dofs b)) -> is_rigid n = true).
  { intros n H. apply in_map_iff in H. destruct H as ([n' r] & <- & H). apply existsb_exists. exists n'. split; [exact (Hn n' r H)|apply String.eqb_refl]. }
  destruct (map fst (fb_dofs b)) as [|n0 ns] eqn:En; [discriminate|]. set (names := n0 :: ns) in *. clearbody names.
  destruct (mapM _ names) as [rows|] eqn:Er'; [|discriminate]. cbn [bind] in Em. apply Ok_inj' in Em. subst m.
  unfold coefficient. cbn [lm_rows].
  destruct (nth_error names k) as [i|] eqn:Ek; destruct (nth_error names l) as [j|] eqn:El.
  - destruct (mapM_entry _ _ _ _ _ Er' Ek) as (r & Hrk & Erk). destruct (mapM_entry _ _ _ _ _ Er' El) as (r' & Hrl & Erl). rewrite Hrk, Hrl.
    destruct (mapM_entry _ _ _ _ _ Erk El) as (x & Hx & Fx). destruct (mapM_entry _ _ _ _ _ Erl Ek) as (y & Hy & Fy). rewrite Hx, Hy. f_equal.
    assert (Ri : is_rigid i = true) by (apply Rg; eapply nth_error_In; eassumption). assert (Rj : is_rigid j = true) by (apply Rg; eapply nth_error_In; eassumption).
    unfold each_hydrostatic_stiffness in Fx, Fy. rewrite Ri, Rj, Ec in Fx, Fy. cbn [andb] in Fx, Fy.
    rewrite (rigid_stiffness_symmetric b com rho vol cob rc Hr Ev Eb Er Ex Ey i j Ri Rj) in Fx. congruence.
  - destruct (mapM_entry _ _ _ _ _ Er' Ek) as (r & Hrk & Erk). rewrite Hrk. apply mapM_length in Er', Erk.
    assert (length names <= l)%nat by (now apply nth_error_None). rewrite (proj2 (nth_error_None r l)) by lia. rewrite (proj2 (nth_error_None rows l)) by lia. reflexivity.
  - destruct (mapM_entry _ _ _ _ _ Er' El) as (r & Hrk & Erk). rewrite Hrk. apply mapM_length in Er', Erk.
    assert (length names <= k)%nat by (now apply nth_error_None). rewrite (proj2 (nth_error_None r k)) by lia. rewrite (proj2 (nth_error_None rows k)) by lia. reflexivity.
  - apply mapM_length in Er'. apply nth_error_None in Ek, El. rewrite (proj2 (nth_error_None rows k)) by lia. rewrite (proj2 (nth_error_None rows l)) by lia. reflexivity.
Qed.
