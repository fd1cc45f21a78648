(** C69: the far field coefficients. *)
From Coq Require Import Reals.
From Coquelicot Require Import Complex.
From Coq Require Import String Ascii List Bool ZArith Lra Lia Permutation.
From Verif Require Import Model_Base Model_Mesh Model_Symbolic Model_Problem Spec_Problem Model_Results Model_Solver Spec_Solver Proofs_Problem Proofs_Problem3
  Proofs_Solver Proofs_Solver2 Props_Solver Model_TestMatrix Spec_TestMatrix Proofs_TestMatrix Props_TestMatrix Model_Dataset
  Model_Fill Spec_Fill Proofs_Fill Proofs_Fill2 Proofs_Fill3 Proofs_Fill4 Proofs_Fill5 Proofs_Kochin Props_Fill.
Import ListNotations.
Open Scope R_scope.

(** The coefficient in each direction is the sum over the panels of the hull of the sources, weighted by the areas and by the
    conjugate of the pressure of the incident wave of this direction. *)
Theorem kochin_values : forall r thetas ref hs w, compute_kochin r thetas ref = Ok hs ->
  wave_of (pb_data (r_problem r)) = Some w -> w_omega w <> 0 -> w_g w <> 0 -> w_rho w <> 0 ->
  exists s b, r_sources r = Some s /\ p_body (pb_data (r_problem r)) = Some b /\ List.length (sv_values s) = nb_faces b
    /\ hs = map (far_field w b (sv_values s) ref) thetas.
Proof.
  intros r thetas ref hs w H Ew Ho Hg Hr. apply kochin_ok in H. destruct H as (s & b & w' & E1 & E2 & E3 & E4 & ->).
  replace w' with w in * by congruence. exists s, b. split; [assumption|]. split; [assumption|]. split; [assumption|].
  apply map_ext. intros x. now apply kochin_far.
Qed.
Print Assumptions kochin_values.
(** Another point of reference only changes the phases. *)
Theorem kochin_reference_point : forall r thetas ref ref' hs w, compute_kochin r thetas ref = Ok hs -> wave_of (pb_data (r_problem r)) = Some w ->
  compute_kochin r thetas ref' = Ok (map2 (fun x h =>
    Cmult (cexp (w_k w * ((fst ref' - fst ref) * cos x + (snd ref' - snd ref) * sin x))) h) thetas hs).
Proof.
  intros r thetas ref ref' hs w H Ew. apply kochin_ok in H. destruct H as (s & b & w' & E1 & E2 & E3 & E4 & ->). replace w' with w in * by congruence.
  apply kochin_ok. exists s, b, w. repeat (split; [assumption|]). clear. induction thetas as [|x l IH]; [reflexivity|]. cbn [map map2]. rewrite <- IH. f_equal. symmetry. apply kochin_moved.
Qed.
Print Assumptions kochin_reference_point.
(** The coefficients of a superposition. *)
Theorem kochin_superposition : forall r r1 r2 s s1 s2 u v thetas ref h1 h2,
  r_problem r1 = r_problem r -> r_problem r2 = r_problem r ->
  r_sources r = Some s -> r_sources r1 = Some s1 -> r_sources r2 = Some s2 ->
  sv_values s = map2 (fun p q => Cplus (Cmult u p) (Cmult v q)) (sv_values s1) (sv_values s2) ->
  compute_kochin r1 thetas ref = Ok h1 -> compute_kochin r2 thetas ref = Ok h2 ->
  compute_kochin r thetas ref = Ok (map2 (fun p q => Cplus (Cmult u p) (Cmult v q)) h1 h2).
Proof.
  intros r r1 r2 s s1 s2 u v thetas ref h1 h2 P1 P2 S0 S1 S2 E H1 H2.
  apply kochin_ok in H1, H2. destruct H1 as (s1' & b & w & A1 & A2 & A3 & A4 & ->). destruct H2 as (s2' & b' & w' & B1 & B2 & B3 & B4 & ->).
  replace s1' with s1 in * by congruence. replace s2' with s2 in * by congruence. rewrite P1 in *. rewrite P2 in *.
  replace b' with b in * by congruence. replace w' with w in * by congruence.
  apply kochin_ok. exists s, b, w. split; [assumption|]. split; [assumption|]. split; [assumption|]. split.
  - rewrite E, map2_length'. lia.
  - rewrite E. clear - A4 B4. induction thetas as [|x l IH]; [reflexivity|]. cbn [map map2]. rewrite IH. f_equal. symmetry. apply kochin_superposed. congruence.
Qed.
Print Assumptions kochin_superposition.

(** A solved problem: the hypotheses are met. *)
Example kochin_ex : forall newton immersed gx mw ir, exists p r s w h, 
  diffraction_problem newton immersed (deep_args (one_panel 0 "a" (-1) None) 1 0) = Ok p
  /\ solve unit toy_build toy_solve gx mw ir false true false tt (Pb Diffraction p None) = (tt, Ok r) /\ r_sources r = Some s
  /\ wave_of (pb_data (r_problem r)) = Some w /\ w_omega w = 1 /\ w_g w = 10 /\ w_rho w = 1000
  /\ compute_kochin r [0; PI / 2] (1, 2) = Ok h.
Proof.
  intros. unfold diffraction_problem. rewrite deep_generic by lra. cbn [bind p_freqs f_omega ffloat].
  unfold is_limit. cbn [ext_eqb]. rewrite (Reqb_false 1 0) by lra. cbn [orb p_body].
  eexists _, _, _, _, _. split; [reflexivity|]. split.
  { unfold solve. cbn [pb_data with_bc p_speed p_body p_bc andb]. rewrite Reqb_refl. reflexivity. }
  repeat split.
Qed.

Section Filled.
  Variable newton : ext -> ext -> result ext.
  Variable immersed_part : body -> ext -> ext -> result body.
  Variable st : Type.
  Variable build : st -> bkey -> st * result (matrix * matrix).
  Variable linsolve : st -> matrix -> list C -> st * result (list C).
  Variable gradient_x : body -> ext -> ext -> freq -> list C -> result (list C).
  Variable min_wavelength : body -> result ext.
  Variable irregular : body -> R -> result ext.
  Variable arrange : column -> list value -> list value.
  Notation fill := (fill_dataset newton immersed_part st build linsolve gradient_x min_wavelength irregular arrange).
  Definition details (direct : bool) (s : st) (p : pb) : pres :=
    result_or_failure p (snd (solve st build linsolve gradient_x min_wavelength irregular direct true false s p)).

  (** The coefficients recorded by [fill_dataset]: one for each problem and each angle. *)
  Theorem kochin_dataset : forall direct check joblib env n_jobs kwargs s m thetas bodies s' f,
    setting newton immersed_part st build linsolve arrange s m bodies n_jobs ->
    fill direct check joblib env n_jobs kwargs s m (Some thetas) bodies = (s', Ok f) ->
    exists k, fd_kochin f = Some k /\ forall r theta h, In (r, theta, h) k <->
      exists q p, wanted m bodies q /\ built_as newton immersed_part q p /\ r = details direct s p /\ In theta thetas
        /\ compute_kochin r [theta] (0, 0) = Ok [h].
  Proof.
    intros direct check joblib env n_jobs kwargs s m thetas bodies s' f (N1 & N2 & (used & N3 & N4) & N5) H.
    exact (fill_records newton immersed_part N1 st build linsolve gradient_x min_wavelength irregular arrange s used N3 m bodies N4
      direct check joblib env n_jobs kwargs thetas N5 s' f H).
  Qed.
  (** REFUTED: the failures of single problems do not all leave the other ones alone. With angles in the test matrix, nothing is
      returned when one resolution fails. *)
  Theorem kochin_failure_refuted : forall direct check joblib env n_jobs kwargs s m thetas bodies s' f q p e,
    setting newton immersed_part st build linsolve arrange s m bodies n_jobs ->
    wanted m bodies q -> built_as newton immersed_part q p ->
    snd (solve st build linsolve gradient_x min_wavelength irregular direct true false s p) = Err e ->
    fill direct check joblib env n_jobs kwargs s m (Some thetas) bodies <> (s', Ok f).
  Proof.
    intros direct check joblib env n_jobs kwargs s m thetas bodies s' f q p e (N1 & N2 & (used & N3 & N4) & N5) W B E H.
    destruct (fill_kochin newton immersed_part N1 st build linsolve gradient_x min_wavelength irregular arrange s used N3 m bodies N4
      direct check joblib env n_jobs kwargs thetas N5 s' f q p H W B) as [hs Hh].
    unfold alone in Hh. rewrite E in Hh. discriminate Hh.
  Qed.
  (** REFUTED: nor with the direct method, whatever the problems, *)
  Theorem kochin_direct_refuted : forall check joblib env n_jobs kwargs s m thetas bodies s' f q,
    setting newton immersed_part st build linsolve arrange s m bodies n_jobs -> wanted m bodies q ->
    fill true check joblib env n_jobs kwargs s m (Some thetas) bodies <> (s', Ok f).
  Proof.
    intros check joblib env n_jobs kwargs s m thetas bodies s' f q (N1 & N2 & (used & N3 & N4) & N5) W H.
    destruct (fill_inv newton immersed_part N1 st build linsolve gradient_x min_wavelength irregular arrange s used N3 m bodies N4
      true check joblib env n_jobs kwargs (Some thetas) N5 s' f H) as (ps & _ & _ & Ep & _).
    destruct (proj2 (problems_both newton immersed_part m bodies ps Ep) q W) as (p & B & _).
    destruct (fill_kochin newton immersed_part N1 st build linsolve gradient_x min_wavelength irregular arrange s used N3 m bodies N4
      true check joblib env n_jobs kwargs thetas N5 s' f q p H W B) as [hs Hh].
    unfold alone in Hh. rewrite direct_kochin in Hh. discriminate Hh.
  Qed.
  (** nor with a lid against the irregular frequencies: the sources on the lid are not expected. *)
  Theorem kochin_lid_refuted : forall direct check joblib env n_jobs kwargs s m thetas bodies s' f q p b n,
    setting newton immersed_part st build linsolve arrange s m bodies n_jobs ->
    wanted m bodies q -> built_as newton immersed_part q p -> p_body (pb_data p) = Some b ->
    List.length (b_normals b) = nb_faces b -> b_lid b = Some (S n) ->
    fill direct check joblib env n_jobs kwargs s m (Some thetas) bodies <> (s', Ok f).
  Proof.
    intros direct check joblib env n_jobs kwargs s m thetas bodies s' f q p b n (N1 & N2 & (used & N3 & N4) & N5) W B Eb Ln Lid H.
    destruct (fill_kochin newton immersed_part N1 st build linsolve gradient_x min_wavelength irregular arrange s used N3 m bodies N4
      direct check joblib env n_jobs kwargs thetas N5 s' f q p H W B) as [hs Hh].
    unfold alone in Hh. destruct direct; [rewrite direct_kochin in Hh; discriminate Hh|].
    destruct (solve st build linsolve gradient_x min_wavelength irregular false true false s p) as [s1 [r|e]] eqn:E; [|discriminate Hh]. cbn [snd result_or_failure] in Hh.
    destruct (built_lid newton immersed_part q p b (S n) B Eb Ln Lid) as (bc & Ebc & L).
    assert (Ew : exists w, wave_of (pb_data p) = Some w).
    { apply kochin_ok in Hh. destruct Hh as (_ & _ & w & _ & _ & Ew & _). exists w.
      destruct (solve_indirect _ _ _ _ _ _ _ _ _ _ _ _ E) as (b' & bc' & MS & K & s2 & x & po & pr & _ & _ & Hs). cbv zeta in Hs.
      destruct Hs as (_ & _ & _ & _ & _ & _ & Ep & _). now rewrite <- Ep. }
    destruct Ew as [w Ew].
    rewrite (lid_kochin st build linsolve gradient_x min_wavelength irregular s p b bc n w thetas (0, 0) s1 r E Eb Ebc L Ew) in Hh. discriminate Hh.
  Qed.
  (** nor at the frequencies zero and infinity, where the radiation problems are defined. *)
  Theorem kochin_limit_refuted : forall direct check joblib env n_jobs kwargs s m thetas bodies s' f q p,
    setting newton immersed_part st build linsolve arrange s m bodies n_jobs ->
    wanted m bodies q -> built_as newton immersed_part q p -> f_omega (p_freqs (pb_data p)) = FZero \/ f_omega (p_freqs (pb_data p)) = FInf ->
    fill direct check joblib env n_jobs kwargs s m (Some thetas) bodies <> (s', Ok f).
  Proof.
    intros direct check joblib env n_jobs kwargs s m thetas bodies s' f q p (N1 & N2 & (used & N3 & N4) & N5) W B Lim H.
    destruct (fill_kochin newton immersed_part N1 st build linsolve gradient_x min_wavelength irregular arrange s used N3 m bodies N4
      direct check joblib env n_jobs kwargs thetas N5 s' f q p H W B) as [hs Hh].
    apply kochin_ok in Hh. destruct Hh as (_ & _ & w & _ & _ & Ew & _). unfold alone in Ew. rewrite alone_problem in Ew.
    unfold wave_of in Ew. destruct Lim as [E|E]; rewrite E in Ew; discriminate Ew.
  Qed.
End Filled.
Print Assumptions kochin_dataset.
Print Assumptions kochin_failure_refuted.
Print Assumptions kochin_direct_refuted.
Print Assumptions kochin_lid_refuted.
Print Assumptions kochin_limit_refuted.

(** ** The hypotheses are met: one frequency, one direction, a buoy with or without a lid. *)
Definition one_matrix : test_matrix :=
  {| tm_freqs := [(Omega, [Fin 1])]; tm_depth := None; tm_rho := None; tm_g := Some [10]; tm_speed := None;
     tm_dirs := Some [0]; tm_dofs := None; tm_names := None |}.
Definition one_request lid := Request None Omega (Fin 1) 0 PInf (one_panel 1 "buoy" (-1) lid) 0 1000 10.
Lemma one_wanted lid q : wanted one_matrix [one_panel 1 "buoy" (-1) lid] q <-> q = one_request lid.
Proof.
  split.
  - destruct q as [o t f dir h b u rho g]. unfold wanted. cbn [q_dof q_type q_freq q_dir q_depth q_body q_speed q_rho q_g].
    intros ((l & [E|[]] & HF) & HD & HR & HG & HU & HB & HN & HK). injection E as <- <-. cbn in HD, HR, HG, HU, HB. subst h rho u.
    destruct HG as [<-|[]]. destruct HB as [<-|[]]. destruct HF as [<-|[]]. destruct o as [dof|].
    + destruct HK as [(dofs & E & _) _]. discriminate E.
    + destruct HK as (dirs & E & Hd & _). injection E as <-. destruct Hd as [<-|[]]. reflexivity.
  - intros ->. unfold wanted, one_request, one_matrix, frequency_wanted.
    cbn [q_dof q_type q_freq q_dir q_depth q_body q_speed q_rho q_g tm_freqs tm_depth tm_rho tm_g tm_speed tm_dirs tm_dofs tm_names in_range].
    split; [exists [Fin 1]; cbn; auto|]. split; [reflexivity|]. split; [reflexivity|]. split; [now left|]. split; [reflexivity|].
    split; [now left|]. split; [discriminate|]. eexists. split; [reflexivity|]. split; [now left|]. split; [intros [=]; lra|discriminate].
Qed.
Lemma one_built newton immersed lid : exists d w l, built_as newton immersed (one_request lid) (Pb Diffraction d None)
  /\ p_body d = Some (one_panel 1 "buoy" (-1) lid) /\ p_bc d = Some (BC l) /\ p_speed d = 0 /\ wave_of d = Some w
  /\ f_omega (p_freqs d) = FVal (Fin 1) /\ f_omega (p_enc d) = FVal (Fin 1) /\ List.length l = nb_faces_with_lid (one_panel 1 "buoy" (-1) lid).
Proof.
  assert (C1 : generic_problem newton immersed (call (one_request lid)) None = generic_problem newton immersed (deep_args (one_panel 1 "buoy" (-1) lid) 1 0) None) by reflexivity.
  assert (E : exists d w l, diffraction_problem newton immersed (call (one_request lid)) = Ok d /\ p_body d = Some (one_panel 1 "buoy" (-1) lid)
    /\ p_bc d = Some (BC l) /\ p_speed d = 0 /\ wave_of d = Some w /\ f_omega (p_freqs d) = FVal (Fin 1) /\ f_omega (p_enc d) = FVal (Fin 1)
    /\ List.length l = nb_faces_with_lid (one_panel 1 "buoy" (-1) lid)).
  { unfold diffraction_problem. rewrite C1, deep_generic by lra. cbn [bind p_freqs f_omega ffloat].
    unfold is_limit. cbn [ext_eqb]. rewrite (Reqb_false 1 0) by lra. cbn [orb p_body]. eexists _, _, _. split; [reflexivity|].
    repeat (split; [reflexivity|]). unfold lid_zeros, nb_faces_with_lid. destruct lid; cbn; [now rewrite repeat_length|reflexivity]. }
  destruct E as (d & w & l & E & F). exists d, w, l. split; [|exact F]. exists d. auto.
Qed.
Lemma one_setting newton immersed lid : keeps_names immersed ->
  setting newton immersed unit toy_build toy_solve (fun _ l => l) tt one_matrix [one_panel 1 "buoy" (-1) lid] 1.
Proof.
  intros N. split; [assumption|]. split; [reflexivity|]. split; [exists (fun _ => True); split; [apply toy_transparent|auto]|]. intros E. contradiction.
Qed.
Example kochin_dataset_ex : forall newton immersed gx mw ir, keeps_names immersed -> exists s' f,
  setting newton immersed unit toy_build toy_solve (fun _ l => l) tt one_matrix [one_panel 1 "buoy" (-1) None] 1
  /\ fill_dataset newton immersed unit toy_build toy_solve gx mw ir (fun _ l => l) false false false None 1 [] tt one_matrix (Some [0; PI])
    [one_panel 1 "buoy" (-1) None] = (s', Ok f).
Proof.
  intros newton immersed gx mw ir N. destruct (one_built newton immersed None) as (d & w & l & B & Eb & Ebc & Es & Ew & Eo & Ee & L).
  assert (Made : exists ps, problems_from_dataset newton immersed one_matrix [one_panel 1 "buoy" (-1) None] = Ok ps).
  { apply test_matrix_accepted.
    - cbn. repeat constructor; cbn; intuition discriminate.
    - right. discriminate.
    - cbn. lia.
    - discriminate.
    - intros q W. apply one_wanted in W. subst q. eauto.
    - intros _ t l0 [E|[]] . injection E as <- <-. split; intros [E|[]]; [injection E; lra|discriminate]. }
  destruct Made as [ps Ep].
  destruct (fill_total newton immersed N unit toy_build toy_solve gx mw ir (fun _ l => l) (fun _ l => Permutation_refl l) tt (fun _ => True) (toy_transparent _)
    one_matrix [one_panel 1 "buoy" (-1) None] (fun _ _ _ _ _ _ => I) false false false None 1%Z [] (Some [0; PI])) with (ps := ps) (b0 := true) as (s' & f & E); auto.
  - exists (one_request None). now apply one_wanted.
  - intros q p W B'. apply one_wanted in W. subst q. rewrite (built_unique newton immersed _ p _ B' B). cbn [pb_data]. rewrite Ee. intros E. injection E. lra.
  - discriminate.
  - intros th E q p W B'. injection E as <-. apply one_wanted in W. subst q. rewrite (built_unique newton immersed _ p _ B' B).
    destruct l as [|x [|y l]]; [discriminate L| |discriminate L].
    assert (S : snd (solve unit toy_build toy_solve gx mw ir false true false tt (Pb Diffraction d None))
      = Ok (Pres (Pb Diffraction d None) (forces_of (one_panel 1 "buoy" (-1) None) (SV [] (map (fun c => (Ci * RtoC 1 * RtoC (p_rho d) * c)%C) (mat_vec [[RtoC 1]] [Cdiv x (RtoC 2)]))))
           (Some (SV [] [Cdiv x (RtoC 2)])) (Some (SV [] (mat_vec [[RtoC 1]] [Cdiv x (RtoC 2)])))
           (Some (SV [] (map (fun c => (Ci * RtoC 1 * RtoC (p_rho d) * c)%C) (mat_vec [[RtoC 1]] [Cdiv x (RtoC 2)])))) None)).
    { unfold solve. cbn [pb_data andb]. cbv zeta. rewrite Es, Reqb_refl, Eb, Ebc. cbn [negb andb]. rewrite Eo. reflexivity. }
    eexists. apply kochin_ok. unfold alone. rewrite S. cbn [result_or_failure r_sources r_problem pb_data]. eexists _, _, _.
    split; [reflexivity|]. split; [exact Eb|]. split; [exact Ew|]. split; [reflexivity|]. reflexivity.
  - exists s', f. split; [now apply one_setting|exact E].
Qed.
Example kochin_refuted_ex : forall newton immersed, keeps_names immersed ->
  (exists p, setting newton immersed unit toy_build toy_solve (fun _ l => l) tt one_matrix [one_panel 1 "buoy" (-1) (Some 1%nat)] 1
    /\ wanted one_matrix [one_panel 1 "buoy" (-1) (Some 1%nat)] (one_request (Some 1%nat)) /\ built_as newton immersed (one_request (Some 1%nat)) p
    /\ p_body (pb_data p) = Some (one_panel 1 "buoy" (-1) (Some 1%nat)))
  /\ wanted ex_matrix ex_bodies ex_q2 /\ exists p, built_as newton immersed ex_q2 p /\ f_omega (p_freqs (pb_data p)) = FZero.
Proof.
  intros newton immersed N. split.
  - destruct (one_built newton immersed (Some 1%nat)) as (d & w & l & B & Eb & _). exists (Pb Diffraction d None).
    split; [now apply one_setting|]. split; [now apply one_wanted|]. auto.
  - split; [apply (test_matrix_not_vacuous newton immersed)|].
    assert (C0 : generic_problem newton immersed (call ex_q2) None = generic_problem newton immersed (limit_args (one_panel 1 "buoy" (-1) None)) None) by reflexivity.
    assert (E : exists d, radiation_problem newton immersed (call ex_q2) (Some "Surge"%string) = Ok d /\ f_omega (p_freqs (fst d)) = FZero).
    { unfold radiation_problem. rewrite C0. destruct (limit_generic newton immersed 1 "buoy" None) as (p & G & E1 & E2 & E3).
      assert (F : f_omega (p_freqs p) = FZero) by (rewrite <- (generic_encounter newton immersed _ p G E3), E2; reflexivity).
      rewrite G. cbn [bind]. rewrite E1, E2, E3, Reqb_refl. cbn. eexists. split; [reflexivity|]. exact F. }
    destruct E as (d & E & F). exists (Pb Radiation (fst d) (snd d)). split; [|exact F]. exists d. auto.
Qed.
