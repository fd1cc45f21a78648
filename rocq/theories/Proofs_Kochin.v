(** Far field coefficients. *)
From Coq Require Import Reals.
From Coquelicot Require Import Complex.
From Coq Require Import String Ascii List Bool ZArith Lra Lia Permutation.
From Verif Require Import Model_Base Model_Mesh Model_Symbolic Model_Problem Spec_Problem Model_Results Model_Solver Spec_Solver Proofs_Problem Proofs_Problem3
  Proofs_Solver Proofs_Solver2 Model_TestMatrix Spec_TestMatrix Proofs_TestMatrix Model_Dataset Model_Fill Spec_Fill Proofs_Fill Proofs_Fill2 Proofs_Fill3.
Import ListNotations.
Open Scope R_scope.

Lemma kochin_ok r thetas ref hs : compute_kochin r thetas ref = Ok hs <-> exists s b w, r_sources r = Some s /\ p_body (pb_data (r_problem r)) = Some b
  /\ wave_of (pb_data (r_problem r)) = Some w /\ List.length (sv_values s) = nb_faces b /\ hs = map (kochin_at w b ref (sv_values s)) thetas.
Proof.
  unfold compute_kochin. split.
  - destruct (r_sources r) as [s|]; [|discriminate]. cbv zeta. destruct (p_body _) as [b|]; [|discriminate]. destruct (wave_of _) as [w|]; [|discriminate].
    destruct (Nat.eqb_spec (List.length (sv_values s)) (nb_faces b)); [|discriminate]. intros E. injection E as <-. exists s, b, w. auto.
  - intros (s & b & w & -> & E1 & E2 & E3 & ->). cbv zeta. rewrite E1, E2, E3, Nat.eqb_refl. reflexivity.
Qed.
Lemma Csum_scal c l : Csum (map (Cmult c) l) = Cmult c (Csum l).
Proof. induction l as [|x l IH]; cbn [map Csum fold_right]; [now rewrite Cmult_0_r|]. unfold Csum in IH. rewrite IH. ring. Qed.
Lemma term_pressure w ref theta c : w_omega w <> 0 -> w_g w <> 0 -> w_rho w <> 0 ->
  kochin_term w ref theta c = Cmult (RtoC (/ (w_rho w * w_g w))) (Cconj (airy_pressure (turned w theta) (V (vx c - fst ref) (vy c - snd ref) (vz c)))).
Proof.
  intros Ho Hg Hr. unfold kochin_term, airy_pressure, airy_potential, wbar, turned, cexp, Cconj, cih, shallow. cbn [w_k w_omega w_g w_rho w_h w_enc_dir w_dir vx vy vz].
  set (x := match w_h w with Fin _ => _ | _ => _ end). set (y := w_k w * _).
  rewrite cos_neg, sin_neg. apply injective_projections; cbn; field; auto.
Qed.
Lemma kochin_far w b ref sources theta : w_omega w <> 0 -> w_g w <> 0 -> w_rho w <> 0 ->
  kochin_at w b ref sources theta = far_field w b sources ref theta.
Proof.
  intros Ho Hg Hr. unfold kochin_at, far_field. unfold Cdiv. rewrite <- RtoC_inv by (pose proof PI_RGT_0; lra). rewrite Cmult_comm. f_equal.
  generalize (b_centers b) as cs, (b_areas b) as areas, sources as l. clear sources b.
  induction cs as [|c cs IH]; intros [|a areas] [|s l]; try reflexivity. cbn [map2 combine map Csum fold_right]. unfold Csum in IH. rewrite IH.
  f_equal. rewrite <- term_pressure by assumption. ring.
Qed.
Lemma kochin_moved w b ref ref' sources theta :
  kochin_at w b ref' sources theta = Cmult (cexp (w_k w * ((fst ref' - fst ref) * cos theta + (snd ref' - snd ref) * sin theta))) (kochin_at w b ref sources theta).
Proof.
  unfold kochin_at. unfold Cdiv. rewrite Cmult_assoc. f_equal.
  generalize (b_centers b) as cs, (b_areas b) as areas, sources as l. clear sources b.
  induction cs as [|c cs IH]; intros [|a areas] [|s l]; cbn [map2 Csum fold_right]; try (now rewrite Cmult_0_r). unfold Csum in IH. rewrite IH.
  rewrite Cmult_plus_distr_l. f_equal. unfold kochin_term.
  assert (E : cexp (- (w_k w * ((vx c - fst ref') * cos theta + (vy c - snd ref') * sin theta)))
    = Cmult (cexp (w_k w * ((fst ref' - fst ref) * cos theta + (snd ref' - snd ref) * sin theta))) (cexp (- (w_k w * ((vx c - fst ref) * cos theta + (vy c - snd ref) * sin theta))))).
  { set (y := w_k w * ((fst ref' - fst ref) * cos theta + (snd ref' - snd ref) * sin theta)).
    set (x := - (w_k w * ((vx c - fst ref) * cos theta + (vy c - snd ref) * sin theta))).
    replace (- (w_k w * ((vx c - fst ref') * cos theta + (vy c - snd ref') * sin theta))) with (y + x) by (unfold x, y; ring).
    unfold cexp. rewrite cos_plus, sin_plus. apply injective_projections; cbn; ring. }
  rewrite E. ring.
Qed.
Lemma kochin_superposed w b ref u v x y theta : List.length x = List.length y ->
  kochin_at w b ref (map2 (fun p q => Cplus (Cmult u p) (Cmult v q)) x y) theta = Cplus (Cmult u (kochin_at w b ref x theta)) (Cmult v (kochin_at w b ref y theta)).
Proof.
  unfold kochin_at, Cdiv. intros L. rewrite !Cmult_assoc, <- Cmult_plus_distr_r. f_equal.
  generalize (map2 (fun c a => Cmult (kochin_term w ref theta c) (RtoC a)) (b_centers b) (b_areas b)) as zs.
  revert y L. induction x as [|p x IH]; intros [|q y] L zs; try discriminate.
  - cbn [map2]. destruct zs; cbn [map2 Csum fold_right]; ring.
  - destruct zs as [|z zs]; cbn [map2 Csum fold_right]; [ring|]. injection L as L. specialize (IH y L zs). unfold Csum in IH. rewrite IH. ring.
Qed.

(** ** Failures *)
Section Failures.
  Variable st : Type.
  Variable build : st -> bkey -> st * result (matrix * matrix).
  Variable linsolve : st -> matrix -> list C -> st * result (list C).
  Variable gradient_x : body -> ext -> ext -> freq -> list C -> result (list C).
  Variable min_wavelength : body -> result ext.
  Variable irregular : body -> R -> result ext.
  Notation solve := (solve st build linsolve gradient_x min_wavelength irregular).

  Lemma direct_kochin keep s p thetas ref : 
    compute_kochin (result_or_failure p (snd (solve true keep false s p))) thetas ref = Err OtherException.
  Proof.
    destruct (solve true keep false s p) as [s' [r|e]] eqn:E; cbn [snd result_or_failure]; [|reflexivity].
    assert (N : r_sources r = None); [|unfold compute_kochin; now rewrite N].
    destruct keep.
    - destruct (solve_direct _ _ _ _ _ _ _ _ _ _ _ _ E) as (b & bc & MS & D & s1 & x & pr & H). apply H. reflexivity.
    - revert E. unfold Model_Solver.solve. cbv zeta.
      destruct (true && _); [discriminate|]. destruct (p_body (pb_data p)) as [b|]; [|discriminate].
      unfold andthen. destruct (build s _) as [s1 [SK|]]; [|discriminate].
      destruct (p_bc (pb_data p)) as [bc|]; [|discriminate].
      destruct (solve_system _ _ _ _ _ _) as [s2 [po|]]; [|discriminate]. destruct (sv_pressure _ _ _); [|discriminate].
      unfold package, make_results. destruct (pb_kind p); [discriminate| |]; intros H; injection H as _ <-; reflexivity.
  Qed.
  (** The sources of the lid are not expected. *)
  Lemma lid_kochin s p b bc n w thetas ref s' r : solve false true false s p = (s', Ok r) -> p_body (pb_data p) = Some b -> p_bc (pb_data p) = Some bc ->
    List.length (sv_values (sv_of_bc bc)) = (nb_faces b + S n)%nat -> wave_of (pb_data p) = Some w -> compute_kochin r thetas ref = Err ValueError.
  Proof.
    intros E Eb Ebc L W. destruct (solve_indirect _ _ _ _ _ _ _ _ _ _ _ _ E) as (b' & bc' & MS & K & s1 & x & po & pr & E1 & E2 & H). cbv zeta in H.
    destruct H as (_ & _ & Lx & _ & _ & _ & Ep & _ & _ & Hk). destruct (Hk eq_refl) as (Es & _).
    unfold compute_kochin. rewrite Es, Ep. cbv zeta. rewrite Eb, W. cbn [sv_values].
    assert (bc' = bc) as -> by congruence.
    replace (Nat.eqb _ _) with false; [reflexivity|]. symmetry. apply Nat.eqb_neq. lia.
  Qed.
End Failures.

(** The boundary condition covers the hull and the lid. *)
Lemma map2_length' {A B D} (f : A -> B -> D) x y : List.length (map2 f x y) = Nat.min (List.length x) (List.length y).
Proof. revert y. induction x as [|a x IH]; intros [|b y]; cbn [map2 List.length Nat.min]; auto. Qed.
Lemma shape_rows n d : dof_shape_ok n d = true -> List.length d = n.
Proof. unfold dof_shape_ok. intros H. apply andb_true_iff in H. now apply Nat.eqb_eq. Qed.
Section Lid.
  Variable newton : ext -> ext -> result ext.
  Variable immersed : body -> ext -> ext -> result body.
  Lemma built_lid q p b n : built_as newton immersed q p -> p_body (pb_data p) = Some b -> List.length (b_normals b) = nb_faces b -> b_lid b = Some n ->
    exists bc, p_bc (pb_data p) = Some bc /\ List.length (sv_values (sv_of_bc bc)) = (nb_faces b + n)%nat.
  Proof.
    intros B Eb Ln Lid. destruct (built_generic newton immersed q p B) as (p0 & G & E0). unfold nb_faces in *. unfold built_as in B.
    destruct (q_dof q) as [dof|]; destruct B as (d & Hd & ->); cbn [pb_data] in *.
    - unfold radiation_problem in Hd. rewrite G in Hd. cbn [bind] in Hd. rewrite <- E0, Eb in Hd.
      destruct (b_dofs b) as [|[first z] l] eqn:El; [discriminate|]. cbv zeta beta iota in Hd.
      destruct (assoc dof _) as [d'|]; [|discriminate].
      unfold dof_dot_n in Hd. destruct (dof_shape_ok _ d') eqn:Sh; cbn [bind] in Hd; [|discriminate]. apply shape_rows in Sh.
      set (dn := map2 _ d' _) in Hd. assert (Ld : List.length dn = List.length (b_centers b)) by (unfold dn; rewrite map2_length', Sh, Nat.min_id; exact Ln). clearbody dn.
      destruct (motion_bc _ _) as [c1|] eqn:E1; cbn [bind] in Hd; [|discriminate].
      match type of Hd with bind ?X _ = _ => destruct X as [c2|] eqn:E2; cbn [bind] in Hd; [|discriminate] end.
      destruct (append_lid _ _) as [c3|] eqn:E3; cbn [bind] in Hd; [|discriminate].
      injection Hd as <-. exists c3. split; [reflexivity|].
      assert (L1 : List.length (sv_values (sv_of_bc c1)) = List.length (b_centers b)).
      { destruct (f_omega (p_enc p0)) as [| |[x| | |]]; cbn [motion_bc] in E1; try discriminate; injection E1 as <-; cbn; now rewrite map_length. }
      assert (L2 : List.length (sv_values (sv_of_bc c2)) = List.length (b_centers b)).
      { destruct (Reqb _ _); [congruence|]. destruct (ddofdx_dot_n dof b) as [dx|] eqn:Ex; cbn [bind] in E2; [|discriminate].
        assert (Lx : List.length dx = List.length (b_centers b)).
        { unfold ddofdx_dot_n in Ex. cbv zeta in Ex. destruct (String.eqb _ _); [|destruct (String.eqb _ _); [|destruct (existsb _ _); [|discriminate]]]; injection Ex as <-; now rewrite map_length. }
        destruct c1 as [?|[| |?] ?]; cbn [add_bc sv_of_bc sv_values] in *; try discriminate; injection E2 as <-; cbn [sv_of_bc sv_values]; rewrite map2_length', map_length, Lx, L1; apply Nat.min_id. }
      unfold append_lid in E3. rewrite Lid in E3. destruct c2; [|discriminate]. injection E3 as <-. cbn [sv_of_bc sv_values] in *. rewrite app_length, repeat_length, L2. reflexivity.
    - unfold diffraction_problem in Hd. rewrite G in Hd. cbn [bind] in Hd. destruct (is_limit _); [discriminate|]. rewrite <- E0, Eb in Hd.
      destruct (wave_of p0) as [w|]; [|discriminate]. injection Hd as <-. eexists. split; [reflexivity|]. cbn [sv_of_bc sv_values].
      unfold lid_zeros. rewrite Lid, app_length, repeat_length, map2_length', Ln, Nat.min_id. reflexivity.
  Qed.
End Lid.

(** A coefficient that cannot be computed stops everything. *)
Section Stops.
  Variable newton : ext -> ext -> result ext.
  Variable immersed : body -> ext -> ext -> result body.
  Hypothesis names : keeps_names immersed.
  Variable st : Type.
  Variable build : st -> bkey -> st * result (matrix * matrix).
  Variable linsolve : st -> matrix -> list C -> st * result (list C).
  Variable gradient_x : body -> ext -> ext -> freq -> list C -> result (list C).
  Variable min_wavelength : body -> result ext.
  Variable irregular : body -> R -> result ext.
  Variable arrange : column -> list value -> list value.
  Variable s0 : st.
  Variable used : body -> Prop.
  Hypothesis clear : transparent st build linsolve s0 used.
  Variable m : test_matrix.
  Variable bodies : list body.
  Notation built := (built_as newton immersed).
  Hypothesis known : forall q p b, wanted m bodies q -> built q p -> p_body (pb_data p) = Some b -> used b.
  Notation alone := (alone st build linsolve gradient_x min_wavelength irregular s0).
  Variables (direct check joblib : bool) (env : option string) (n_jobs : Z) (kwargs : list string) (thetas : list R).
  Notation fill := (fill_dataset newton immersed st build linsolve gradient_x min_wavelength irregular arrange direct check joblib env n_jobs kwargs s0 m (Some thetas) bodies).
  Hypothesis numbers : n_jobs <> 1%Z -> forall q p, wanted m bodies q -> built q p -> p_depth (pb_data p) <> NaN /\ ffloat (f_omega (p_freqs (pb_data p))) <> NaN.

  Lemma fill_kochin s' f q p : fill = (s', Ok f) -> wanted m bodies q -> built q p -> exists hs, compute_kochin (alone direct true p) thetas (0, 0) = Ok hs.
  Proof.
    intros H W B. destruct (fill_inv newton immersed names st build linsolve gradient_x min_wavelength irregular arrange s0 used clear m bodies known direct check joblib env n_jobs kwargs (Some thetas) numbers s' f H)
      as (ps & rs & results & Ep & P & _ & _ & _ & k & Ek & _).
    destruct (proj2 (problems_both newton immersed m bodies ps Ep) q W) as (p' & B' & Hp'). rewrite <- (built_unique newton immersed q p p' B B') in Hp'.
    assert (Hr : In (alone direct (keep (Some thetas)) p) rs) by (apply (Permutation_in _ (Permutation_sym P)); now apply in_map).
    unfold kochin_records in Ek. destruct (mapM _ rs) as [l|] eqn:El; [|discriminate].
    destruct (Proofs_Bemio.mapM_out _ _ _ _ El Hr) as (y & Ey & _). cbn [keep] in Ey. destruct (compute_kochin _ _ _) as [hs|]; [eauto|discriminate].
  Qed.
  Lemma combine_map {A B} (g : A -> B) l : combine l (map g l) = map (fun x => (x, g x)) l.
  Proof. induction l; cbn; congruence. Qed.
  Lemma kochin_one r th hs : compute_kochin r th (0, 0) = Ok hs -> forall x h, In (x, h) (combine th hs) <-> In x th /\ compute_kochin r [x] (0, 0) = Ok [h].
  Proof.
    intros H x h. apply kochin_ok in H. destruct H as (s & b & w & E1 & E2 & E3 & E4 & ->). rewrite combine_map. split.
    - intros Hi. apply in_map_iff in Hi. destruct Hi as (y & Hy & Hi). injection Hy as -> <-. split; [assumption|]. apply kochin_ok. exists s, b, w. auto.
    - intros [Hi Hk]. apply kochin_ok in Hk. destruct Hk as (s' & b' & w' & F1 & F2 & F3 & _ & F5). apply in_map_iff. exists x. split; [|assumption].
      cbn [map] in F5. f_equal. congruence.
  Qed.
  (** The records. *)
  Lemma fill_records s' f : fill = (s', Ok f) -> exists k, fd_kochin f = Some k /\
    forall r x h, In (r, x, h) k <-> exists q p, wanted m bodies q /\ built q p /\ r = alone direct true p /\ In x thetas /\ compute_kochin r [x] (0, 0) = Ok [h].
  Proof.
    intros H. destruct (fill_inv newton immersed names st build linsolve gradient_x min_wavelength irregular arrange s0 used clear m bodies known direct check joblib env n_jobs kwargs (Some thetas) numbers s' f H)
      as (ps & rs & results & Ep & P & _ & _ & _ & k & Ek & Ef). exists k. split; [assumption|].
    destruct (problems_both newton immersed m bodies ps Ep) as [PB1 PB2]. cbn [keep] in P.
    unfold kochin_records in Ek. destruct (mapM _ rs) as [l|] eqn:El; [|discriminate]. injection Ek as <-.
    intros r x h. split.
    - intros Hi. apply in_concat in Hi. destruct Hi as (y & Hy & Hi). destruct (Proofs_Bemio.mapM_in _ _ _ _ El Hy) as (r1 & Hr1 & E1).
      destruct (compute_kochin r1 thetas (0, 0)) as [hs|] eqn:Eh; [|discriminate]. injection E1 as <-.
      apply in_map_iff in Hi. destruct Hi as ([x1 h1] & E2 & Hi). injection E2 as -> -> ->. 
      apply (kochin_one r thetas hs Eh) in Hi. apply (Permutation_in _ P) in Hr1. apply in_map_iff in Hr1. destruct Hr1 as (p & <- & Hp).
      destruct (PB1 p Hp) as (q & W & B). exists q, p. tauto.
    - intros (q & p & W & B & -> & Hx & Hh). destruct (PB2 q W) as (p' & B' & Hp'). rewrite <- (built_unique newton immersed q p p' B B') in Hp'.
      assert (Hr : In (alone direct true p) rs) by (apply (Permutation_in _ (Permutation_sym P)); now apply in_map).
      destruct (Proofs_Bemio.mapM_out _ _ _ _ El Hr) as (y & Ey & Hy). destruct (compute_kochin (alone direct true p) thetas (0, 0)) as [hs|] eqn:Eh; [|discriminate]. injection Ey as <-.
      apply in_concat. eexists. split; [exact Hy|]. apply in_map_iff. exists (x, h). split; [reflexivity|]. now apply (kochin_one _ _ _ Eh).
  Qed.
End Stops.
