(** [fill_dataset]: the statements used in Props_Fill.v, and the acceptance of the test matrices. *)
From Coq Require Import Reals.
From Coquelicot Require Import Complex.
From Coq Require Import String Ascii List Bool ZArith Lra Lia Permutation.
From Verif Require Import Model_Base Model_Mesh Model_Symbolic Model_Problem Spec_Problem Model_Results Model_Solver Spec_Solver Proofs_Problem Proofs_Problem3
  Proofs_Solver Proofs_Solver2 Model_TestMatrix Spec_TestMatrix Proofs_TestMatrix Model_Dataset Spec_Dataset Proofs_Dataset Proofs_Dataset2 Proofs_Dataset3
  Proofs_Bemio Model_Fill Spec_Fill Proofs_Fill Proofs_Fill2.
Import ListNotations.
Open Scope R_scope.

Section Keep.
  Variable st : Type.
  Variable build : st -> bkey -> st * result (matrix * matrix).
  Variable linsolve : st -> matrix -> list C -> st * result (list C).
  Variable gradient_x : body -> ext -> ext -> freq -> list C -> result (list C).
  Variable min_wavelength : body -> result ext.
  Variable irregular : body -> R -> result ext.
  Notation solve := (solve st build linsolve gradient_x min_wavelength irregular).

  (** Keeping the details does not change the forces. *)
  Definition same_forces (a b : result pres) : Prop :=
    match a, b with
    | Ok r, Ok r' => r_problem r = r_problem r' /\ r_forces r = r_forces r'
    | Err e, Err e' => e = e'
    | _, _ => False
    end.
  Lemma package_keep p b so po pr k k' : same_forces (package k p b so po pr) (package k' p b so po pr).
  Proof. unfold package, make_results. destruct (pb_kind p), k, k'; cbn; auto. Qed.
  Lemma solve_keep direct k k' check s p : same_forces (snd (solve direct k check s p)) (snd (solve direct k' check s p)).
  Proof.
    unfold Model_Solver.solve. destruct (if check then _ else _); [|reflexivity]. cbv zeta.
    destruct (direct && _); [reflexivity|]. destruct (p_body (pb_data p)) as [b|]; [|reflexivity].
    unfold andthen. destruct (build s _) as [s1 [SK|]]; [|reflexivity].
    destruct (p_bc (pb_data p)) as [bc|]; [|reflexivity]. destruct direct.
    - destruct (solve_system _ _ _ _ _ _) as [s2 [po|]]; [|reflexivity]. destruct (sv_pressure _ _ _); [|reflexivity]. apply package_keep.
    - destruct (solve_system _ _ _ _ _ _) as [s2 [so|]]; [|reflexivity]. destruct (sv_pressure _ _ _); [|reflexivity].
      destruct (negb _); [|apply package_keep]. destruct (make_results _ _); [|reflexivity].
      destruct (gradient_x _ _ _ _ _); [|reflexivity]. apply package_keep.
  Qed.
  Lemma alone_keep direct k k' s p : r_forces (result_or_failure p (snd (solve direct k false s p))) = r_forces (result_or_failure p (snd (solve direct k' false s p))).
  Proof.
    pose proof (solve_keep direct k k' false s p) as H. unfold same_forces in H.
    destruct (snd (solve direct k false s p)), (snd (solve direct k' false s p)); cbn [result_or_failure]; try contradiction; [apply H|reflexivity].
  Qed.
End Keep.

(** ** The body of a problem *)
Section Body.
  Variable newton : ext -> ext -> result ext.
  Variable immersed : body -> ext -> ext -> result body.
  Notation built := (built_as newton immersed).
  Lemma generic_body_eq q p : generic_problem newton immersed (call q) None = Ok p -> check_body immersed (Fin 0) (q_depth q) (Some (q_body q)) = Ok (p_body p).
  Proof.
    unfold generic_problem. cbn [i_fs i_water_depth i_sea_bottom i_omega i_period i_wavenumber i_wavelength i_speed i_rho i_g i_dir i_body call].
    intros H.
    destruct (get_water_depth (Fin 0) (Some (q_depth q)) None PInf) as [d|] eqn:Ed; cbn [bind] in H; [|discriminate].
    assert (d = q_depth q) as ->.
    { cbn [get_water_depth] in Ed. destruct (ext_leb (q_depth q) (Fin 0)); congruence. }
    match type of H with bind ?X _ = _ => destruct X as [f|] eqn:Ef; cbn [bind] in H; [|discriminate] end.
    match type of H with bind ?X _ = _ => destruct X as [ob|] eqn:Eb; cbn [bind] in H; [|discriminate] end.
    match type of H with bind ?X _ = _ => destruct X as [ed|] eqn:Ee; cbn [bind] in H; [|discriminate] end.
    injection H as <-. cbn [p_body]. unfold check_data in Eb.
    destruct (negb _) in Eb; [discriminate|]. destruct (_ && _) in Eb; [discriminate|]. destruct (ext_ltb _ _) in Eb; [discriminate|].
    destruct (_ && _) in Eb; [discriminate|].
    destruct (check_body _ _ _ _) as [ob'|]; cbn [bind check_bc] in Eb; [congruence|discriminate].
  Qed.
  Lemma built_generic q p : built q p -> exists p0, generic_problem newton immersed (call q) None = Ok p0 /\ p_body (pb_data p) = p_body p0.
  Proof.
    unfold built_as. destruct (q_dof q) as [dof|]; intros (d & Hd & ->); cbn [pb_data].
    - unfold radiation_problem in Hd. destruct (generic_problem newton immersed (call q) None) as [p0|]; cbn [bind] in Hd; [|discriminate].
      exists p0. split; [reflexivity|]. destruct (p_body p0) as [b|] eqn:Eb; [|now injection Hd as <-].
      destruct (b_dofs b) as [|[first z] l] eqn:El; [discriminate|]. cbv zeta beta iota in Hd.
      destruct (assoc dof _) as [d'|]; [|discriminate].
      destruct (dof_dot_n d' b); cbn [bind] in Hd; [|discriminate].
      destruct (motion_bc _ _); cbn [bind] in Hd; [|discriminate].
      match type of Hd with bind ?X _ = _ => destruct X; cbn [bind] in Hd; [|discriminate] end.
      destruct (append_lid _ _); cbn [bind] in Hd; [|discriminate].
      injection Hd as <-. exact Eb.
    - unfold diffraction_problem in Hd. destruct (generic_problem newton immersed (call q) None) as [p0|]; cbn [bind] in Hd; [|discriminate].
      exists p0. split; [reflexivity|]. destruct (is_limit _); [discriminate|]. destruct (p_body p0) as [b|] eqn:Eb; [|now injection Hd as <-; rewrite Eb].
      destruct (wave_of p0); [|discriminate]. injection Hd as <-. exact Eb.
  Qed.
  (** Problems with the same body and depth keep the same part of the body. *)
  Lemma built_same_body q q' p p' : built q p -> built q' p' -> q_body q = q_body q' -> q_depth q = q_depth q' -> p_body (pb_data p) = p_body (pb_data p').
  Proof.
    intros B B' E1 E2. destruct (built_generic q p B) as (p0 & G & E). destruct (built_generic q' p' B') as (p0' & G' & E').
    apply generic_body_eq in G. apply generic_body_eq in G'. rewrite E1, E2 in G. congruence.
  Qed.
  (** Radiation problems have dofs. *)
  Lemma built_dofs q p dof : q_dof q = Some dof -> built q p -> exists b, p_body (pb_data p) = Some b /\ b_dofs b <> [].
  Proof.
    intros E B. destruct (built_body newton immersed q p B) as [b Eb]. exists b. split; [assumption|]. intros N.
    destruct (built_generic q p B) as (p0 & G & E0). unfold built_as in B. rewrite E in B. destruct B as (d & Hd & ->). unfold radiation_problem in Hd.
    rewrite G in Hd. cbn [bind] in Hd. rewrite <- E0, Eb, N in Hd. discriminate.
  Qed.
  (** The wave of the diffraction problems. *)
  Lemma built_wave q p : q_dof q = None -> built q p -> exists w, wave_of (pb_data p) = Some w.
  Proof.
    intros E B. destruct (built_body newton immersed q p B) as [b Eb]. destruct (built_generic q p B) as (p0 & G & E0).
    unfold built_as in B. rewrite E in B. destruct B as (d & Hd & ->). unfold diffraction_problem in Hd.
    rewrite G in Hd. cbn [bind] in Hd. destruct (is_limit _); [discriminate|]. rewrite <- E0, Eb in Hd.
    destruct (wave_of p0) as [w|] eqn:Ew; [|discriminate]. injection Hd as <-. exists w. exact Ew.
  Qed.
  (** The boundary condition of the radiation problems. *)
  Lemma built_radiation_bc q p dof : q_dof q = Some dof -> built q p -> exists c om, p_bc (pb_data p) = Some c /\ f_omega (p_enc (pb_data p)) = om
    /\ match om with
       | FVal (Fin _) => sv_symbols (sv_of_bc c) = []
       | FVal _ => False
       | _ => sv_symbols (sv_of_bc c) = limit_symbol om \/ sv_symbols (sv_of_bc c) = []
       end.
  Proof.
    intros E B. destruct (built_body newton immersed q p B) as [b Eb]. destruct (built_generic q p B) as (p0 & G & E0).
    unfold built_as in B. rewrite E in B. destruct B as (d & Hd & ->). unfold radiation_problem in Hd.
    rewrite G in Hd. cbn [bind pb_data] in *. rewrite <- E0, Eb in Hd.
    destruct (b_dofs b) as [|[first z] l] eqn:El; [discriminate|]. cbv zeta beta iota in Hd.
    destruct (assoc dof _) as [d'|]; [|discriminate].
    destruct (dof_dot_n d' b) as [dn|]; cbn [bind] in Hd; [|discriminate].
    destruct (motion_bc _ _) as [c1|] eqn:E1; cbn [bind] in Hd; [|discriminate].
    match type of Hd with bind ?X _ = _ => destruct X as [c2|] eqn:E2; cbn [bind] in Hd; [|discriminate] end.
    destruct (append_lid _ _) as [c3|] eqn:E3; cbn [bind] in Hd; [|discriminate].
    injection Hd as <-. exists c3, (f_omega (p_enc p0)). split; [reflexivity|]. split; [reflexivity|].
    assert (S3 : sv_symbols (sv_of_bc c3) = sv_symbols (sv_of_bc c2)).
    { unfold append_lid in E3. destruct (b_lid b), c2; try discriminate; injection E3 as <-; reflexivity. }
    rewrite S3. clear S3 E3.
    assert (S2 : sv_symbols (sv_of_bc c2) = sv_symbols (sv_of_bc c1) \/ sv_symbols (sv_of_bc c2) = []).
    { destruct (Reqb _ _); [left; congruence|]. destruct (ddofdx_dot_n _ _); cbn [bind] in E2; [|discriminate].
      destruct c1 as [?|[| |?] ?]; cbn [add_bc] in E2; try discriminate; injection E2 as <-; auto. }
    destruct (f_omega (p_enc p0)) as [| |[x| | |]]; cbn [motion_bc] in E1; try discriminate; injection E1 as <-; cbn in S2 |- *; tauto.
  Qed.
End Body.

(** ** Reading the results succeeds *)
Section Read.
  Variable newton : ext -> ext -> result ext.
  Variable immersed : body -> ext -> ext -> result body.
  Notation built := (built_as newton immersed).
  Variable st : Type.
  Variable build : st -> bkey -> st * result (matrix * matrix).
  Variable linsolve : st -> matrix -> list C -> st * result (list C).
  Variable gradient_x : body -> ext -> ext -> freq -> list C -> result (list C).
  Variable min_wavelength : body -> result ext.
  Variable irregular : body -> R -> result ext.
  Notation solve := (solve st build linsolve gradient_x min_wavelength irregular).

  Lemma known_all b pr : all_known (forces_of b pr) (map fst (b_dofs b)) = true.
  Proof.
    unfold all_known. apply forallb_forall. intros d Hd. apply existsb_exists. exists d. split; [|apply String.eqb_refl].
    unfold forces_of, integrate_pressure. now rewrite !map_map.
  Qed.
  Lemma known_nan (b : body) : all_known (map (fun n => (n, ForceNaN)) (map fst (b_dofs b))) (map fst (b_dofs b)) = true.
  Proof.
    unfold all_known. apply forallb_forall. intros d Hd. apply existsb_exists. exists d. split; [|apply String.eqb_refl].
    now rewrite map_map, map_id.
  Qed.
  Lemma mapM_forces {A} (g : force -> result A) l : (forall n f, In (n, f) l -> exists x, g f = Ok x) ->
    exists l' : list (string * A), mapM (fun nf => bind (g (snd nf)) (fun x => Ok (fst nf, x))) l = Ok l'.
  Proof.
    induction l as [|[n f] l IH]; intros H; [cbn; eauto|]. destruct (H n f) as [x Hx]; [now left|].
    destruct IH as [l' Hl]; [intros; eapply H; right; eauto|]. cbn [mapM fst snd]. rewrite Hx. cbn [bind]. rewrite Hl. cbn. eauto.
  Qed.

  (** A force with the symbols of the pressure. *)
  Definition symbols_ok (om : freq) (sy : list symb) : Prop :=
    match om with FVal (Fin x) => x <> 0 /\ sy = [] | FVal _ => False | _ => sy = limit_symbol om ++ limit_symbol om \/ sy = limit_symbol om \/ sy = [] end.
  Lemma one_not_zero : 1 * 1 <> 0. Proof. lra. Qed.
  Lemma mass_total om sy c : symbols_ok om sy -> exists x, mass_entry om (Force (cnum_of sy c)) = Ok x.
  Proof.
    unfold mass_entry, added_mass. destruct om as [| |[x| | |]]; cbn [symbols_ok limit_symbol app]; try easy.
    1, 2: intros [->|[->| ->]]; cbn; unfold ext_div; repeat (destruct (Req_EM_T _ _) as [E|E]; [lra|]); cbn; eauto.
    intros [N ->]. cbn. unfold ext_div. destruct (Req_EM_T (x * x) 0) as [E|E]; [|cbn; eauto]. apply Rmult_integral in E. tauto.
  Qed.
  Lemma damping_total om sy c U : symbols_ok om sy -> exists x, damping_entry om U (Force (cnum_of sy c)) = Ok x.
  Proof.
    unfold damping_entry, radiation_damping. destruct (_ && _); [eauto|].
    destruct om as [| |[x| | |]]; cbn [symbols_ok limit_symbol app]; try easy.
    1, 2: intros [->|[->| ->]]; cbn; unfold ext_div; repeat (destruct (Req_EM_T _ _) as [E|E]; [lra|]); cbn; eauto.
    intros [N ->]. cbn. unfold ext_div. destruct (Req_EM_T x 0) as [E|E]; [contradiction|cbn; eauto].
  Qed.
  Lemma nan_total om U : match om with FVal (Fin x) => x <> 0 | FVal _ => False | _ => True end ->
    (exists x, mass_entry om ForceNaN = Ok x) /\ (exists x, damping_entry om U ForceNaN = Ok x).
  Proof.
    unfold mass_entry, damping_entry. destruct om as [| |[x| | |]]; try easy; intros N; cbn [freq_num num_mul leaf_mul leaf_op bind]; cbn; unfold ext_div.
    1, 2: destruct (Req_EM_T (1 * 1) 0); [lra|]; destruct (Req_EM_T 1 0); [lra|]; split; [cbn; eauto|]; match goal with |- context [if ?b then _ else _] => destruct b end; cbn; eauto.
    destruct (Req_EM_T (x * x) 0) as [E|E]; [apply Rmult_integral in E; tauto|]. destruct (Req_EM_T x 0); [contradiction|]. split; [cbn; eauto|]. match goal with |- context [if ?b then _ else _] => destruct b end; cbn; eauto.
  Qed.
End Read.
