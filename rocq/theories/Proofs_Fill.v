(** Proofs about [fill_dataset]. *)
From Coq Require Import Reals.
From Coquelicot Require Import Complex.
From Coq Require Import String Ascii List Bool ZArith Lra Lia Permutation.
From Verif Require Import Model_Base Model_Mesh Model_Symbolic Model_Problem Spec_Problem Model_Results Model_Solver Spec_Solver Proofs_Problem Proofs_Problem3
  Proofs_Solver Proofs_Solver2 Model_TestMatrix Spec_TestMatrix Proofs_TestMatrix Model_Dataset Spec_Dataset Proofs_Dataset Proofs_Dataset2 Proofs_Dataset3
  Model_Fill Spec_Fill.
Import ListNotations.
Open Scope R_scope.

(** ** The parameters of a problem are those of the request *)
Section Columns.
  Variable newton : ext -> ext -> result ext.
  Variable immersed : body -> ext -> ext -> result body.
  Hypothesis names : keeps_names immersed.

  Lemma ext_eqb_eq x y : ext_eqb x y = true -> x = y.
  Proof.
    destruct x, y; cbn; try discriminate; auto. intros H.
    apply Reqb_true in H. now subst.
  Qed.

  Lemma frequencies_kept depth g t x f : frequencies_from newton depth g t x = Ok f ->
    f_type f = t /\ ffloat (match t with Omega => f_omega f | Period => f_period f | Wavenumber => f_wavenumber f | Wavelength => f_wavelength f end) = x.
  Proof.
    unfold frequencies_from. intros H.
    destruct (ext_eqb x (Fin 0)) eqn:E0; destruct (ext_eqb x PInf) eqn:E1;
      try (apply ext_eqb_eq in E0); try (apply ext_eqb_eq in E1); subst;
      try discriminate; destruct t; cbn [is_omega_k negb andb orb] in H;
      try (injection H as <-; cbn; auto; fail).
    all: try (match type of H with bind ?X _ = _ => destruct X; cbn [bind] in H end; [|discriminate]; injection H as <-; cbn; auto).
  Qed.

  Lemma generic_columns q p : generic_problem newton immersed (call q) None = Ok p ->
    f_type (p_freqs p) = q_type q /\ ffloat (match q_type q with Omega => f_omega (p_freqs p) | Period => f_period (p_freqs p) | Wavenumber => f_wavenumber (p_freqs p) | Wavelength => f_wavelength (p_freqs p) end) = q_freq q
    /\ p_fs p = Fin 0 /\ p_depth p = q_depth q /\ p_speed p = q_speed q /\ p_rho p = q_rho q /\ p_g p = q_g q /\ p_dir p = q_dir q
    /\ exists b, p_body p = Some b /\ b_name b = b_name (q_body q).
  Proof.
    unfold generic_problem. cbn [i_fs i_water_depth i_sea_bottom i_omega i_period i_wavenumber i_wavelength i_speed i_rho i_g i_dir i_body call].
    intros H.
    destruct (get_water_depth (Fin 0) (Some (q_depth q)) None PInf) as [d|] eqn:Ed; cbn [bind] in H; [|discriminate].
    assert (d = q_depth q) as ->.
    { cbn [get_water_depth] in Ed. destruct (ext_leb (q_depth q) (Fin 0)); congruence. }
    clear Ed.
    match type of H with bind ?X _ = _ => destruct X as [f|] eqn:Ef; cbn [bind] in H; [|discriminate] end.
    assert (Hf : frequencies_from newton (q_depth q) (q_g q) (q_type q) (q_freq q) = Ok f).
    { unfold get_frequencies in Ef. destruct (q_type q); cbn [provided app] in Ef; exact Ef. }
    apply frequencies_kept in Hf.
    match type of H with bind ?X _ = _ => destruct X as [ob|] eqn:Eb; cbn [bind] in H; [|discriminate] end.
    match type of H with bind ?X _ = _ => destruct X as [ed|] eqn:Ee; cbn [bind] in H; [|discriminate] end.
    injection H as <-. cbn. split; [apply Hf|]. split; [apply Hf|]. do 6 (split; [reflexivity|]).
    unfold check_data in Eb.
    destruct (negb _) in Eb; [discriminate|]. destruct (_ && _) in Eb; [discriminate|]. destruct (ext_ltb _ _) in Eb; [discriminate|].
    destruct (_ && _) in Eb; [discriminate|]. cbn [check_body] in Eb.
    destruct (Nat.eqb _ _) in Eb; [discriminate|].
    destruct (check_dofs (q_body q)) in Eb; cbn [bind] in Eb; [|discriminate].
    destruct (_ || _) in Eb.
    - destruct (immersed (q_body q) (Fin 0) (q_depth q)) as [b'|] eqn:E; cbn [bind check_bc] in Eb; [|discriminate].
      injection Eb as <-. exists b'. split; [reflexivity|]. exact (names _ _ _ _ E).
    - cbn [bind check_bc] in Eb. injection Eb as <-. eauto.
  Qed.

  Lemma with_bc_same p c : p_freqs (with_bc p c) = p_freqs p /\ p_fs (with_bc p c) = p_fs p /\ p_depth (with_bc p c) = p_depth p
    /\ p_speed (with_bc p c) = p_speed p /\ p_rho (with_bc p c) = p_rho p /\ p_g (with_bc p c) = p_g p /\ p_dir (with_bc p c) = p_dir p
    /\ p_body (with_bc p c) = p_body p.
  Proof. repeat split. Qed.

  Definition class_of (q : request) : pkind := match q_dof q with Some _ => Radiation | None => Diffraction end.

  Lemma built_columns q p : built_as newton immersed q p ->
    pb_kind p = class_of q /\ pb_dof p = q_dof q
    /\ f_type (p_freqs (pb_data p)) = q_type q
    /\ ffloat (match q_type q with Omega => f_omega (p_freqs (pb_data p)) | Period => f_period (p_freqs (pb_data p)) | Wavenumber => f_wavenumber (p_freqs (pb_data p)) | Wavelength => f_wavelength (p_freqs (pb_data p)) end) = q_freq q
    /\ p_fs (pb_data p) = Fin 0 /\ p_depth (pb_data p) = q_depth q /\ p_speed (pb_data p) = q_speed q /\ p_rho (pb_data p) = q_rho q /\ p_g (pb_data p) = q_g q
    /\ p_dir (pb_data p) = q_dir q
    /\ exists b, p_body (pb_data p) = Some b /\ b_name b = b_name (q_body q).
  Proof.
    unfold built_as, class_of. destruct (q_dof q) as [dof|].
    - intros (d & Hd & ->). cbn. destruct d as [p o]. cbn.
      unfold radiation_problem in Hd.
      destruct (generic_problem newton immersed (call q) None) as [p0|] eqn:E; cbn [bind] in Hd; [|discriminate].
      apply generic_columns in E. destruct (E) as (_ & _ & _ & _ & _ & _ & _ & _ & b & Eb & _). rewrite Eb in Hd.
      destruct (b_dofs b) as [|[first z] l] eqn:El; [discriminate|]. cbv zeta beta iota in Hd.
      destruct (assoc dof _) as [d|]; [|discriminate].
      destruct (dof_dot_n d b); cbn [bind] in Hd; [|discriminate].
      destruct (motion_bc _ _); cbn [bind] in Hd; [|discriminate].
      match type of Hd with bind ?X _ = _ => destruct X; cbn [bind] in Hd; [|discriminate] end.
      destruct (append_lid _ _); cbn [bind] in Hd; [|discriminate].
      injection Hd as <- <-. split; [reflexivity|]. split; [reflexivity|]. exact E.
    - intros (d & Hd & ->). cbn. unfold diffraction_problem in Hd.
      destruct (generic_problem newton immersed (call q) None) as [p0|] eqn:E; cbn [bind] in Hd; [|discriminate].
      apply generic_columns in E. destruct (E) as (_ & _ & _ & _ & _ & _ & _ & _ & b & Eb & _). rewrite Eb in Hd.
      destruct (is_limit _); [discriminate|]. destruct (wave_of p0); [|discriminate].
      injection Hd as <-. split; [reflexivity|]. split; [reflexivity|]. exact E.
  Qed.

  (** A result of the problem is found in the dataset with the labels of the request. *)
  Lemma row_label q p (s : res entry) i c : built_as newton immersed q p -> s_problem _ s = pb_data p -> s_dof _ s = pb_dof p ->
    In c (main_dims (class_of q) (q_type q) ++ other_dims (class_of q)) -> column_of _ (s, i) c = label q i c.
  Proof.
    intros B Hs Hd Hc. apply built_columns in B.
    destruct B as (K & D & T & F & FS & Dp & Sp & Rh & Gr & Dr & b & Eb & Nb).
    rewrite D in Hd. unfold class_of in *. unfold column_of. cbn [fst snd]. rewrite Hs.
    unfold main_dims, other_dims in Hc.
    destruct c; cbn [label]; try (rewrite ?Eb, ?Dp, ?Sp, ?Rh, ?Gr, ?Dr, ?Hd, ?Nb; reflexivity).
    all: destruct (q_type q), (q_dof q); cbn in Hc; try (rewrite F; reflexivity); exfalso; clear - Hc; intuition discriminate.
  Qed.

  Lemma built_unique q p p' : built_as newton immersed q p -> built_as newton immersed q p' -> p = p'.
  Proof.
    unfold built_as. destruct (q_dof q).
    - intros (d & H & ->) (d' & H' & ->). congruence.
    - intros (d & H & ->) (d' & H' & ->). congruence.
  Qed.
End Columns.

(** ** The requests are identified by their labels *)
Lemma problems_inv newton immersed m bodies ps : problems_from_dataset newton immersed m bodies = Ok ps ->
  NoDup (map b_name bodies) /\ exists tf, freq_range m = Ok tf.
Proof.
  unfold problems_from_dataset. intros H. destruct (all_different (map b_name bodies)) eqn:E; cbn [negb] in H; [|discriminate].
  split; [now apply all_different_iff|].
  destruct (tm_dofs m), (tm_dirs m); try discriminate; destruct (freq_range m) as [tf|]; try discriminate; eauto.
Qed.

Lemma nodup_names (l : list body) b b' : NoDup (map b_name l) -> In b l -> In b' l -> b_name b = b_name b' -> b = b'.
Proof.
  induction l as [|x l IH]; [easy|]. cbn [map]. intros N Hb Hb' E. inversion N as [|? ? Hn N']; subst.
  destruct Hb as [->|Hb], Hb' as [->|Hb']; auto.
  - exfalso. apply Hn. rewrite E. now apply in_map.
  - exfalso. apply Hn. rewrite <- E. now apply in_map.
Qed.

Lemma labels_identify newton immersed m bodies ps q q' i i' :
  problems_from_dataset newton immersed m bodies = Ok ps -> wanted m bodies q -> wanted m bodies q' -> class_of q = class_of q' ->
  (forall c, In c (main_dims (class_of q) (q_type q) ++ other_dims (class_of q)) -> label q i c = label q' i' c) -> q = q' /\ i = i'.
Proof.
  intros Hp W W' K L. apply problems_inv in Hp. destruct Hp as [N [tf Htf]].
  destruct W as (F & _ & _ & _ & _ & B & _). destruct W' as (F' & _ & _ & _ & _ & B' & _).
  apply (freq_range_ok newton m tf Htf) in F. apply (freq_range_ok newton m tf Htf) in F'. destruct F as [F _], F' as [F' _].
  assert (Ll : forall c, In c [InfluencedDof; Gravity; Rho; BodyName; WaterDepth; ForwardSpeed; WaveDirection;
     match q_type q with Omega => COmega | Period => CPeriod | Wavenumber => CWavenumber | Wavelength => CWavelength end] -> label q i c = label q' i' c).
  { intros c Hc. apply L. apply in_or_app. unfold class_of, main_dims, other_dims. destruct (q_dof q); cbn in *; intuition. }
  assert (Lr : q_dof q = q_dof q').
  { unfold class_of in *. destruct (q_dof q) as [d|] eqn:E, (q_dof q') as [d'|] eqn:E'; try discriminate; [|reflexivity].
    specialize (L RadiatingDof). cbn [label] in L. rewrite E, E' in L.
    assert (Name d = Name d') by (apply L; unfold main_dims; cbn; auto). congruence. }
  assert (L1 := Ll InfluencedDof ltac:(cbn; tauto)). assert (L2 := Ll Gravity ltac:(cbn; tauto)). assert (L3 := Ll Rho ltac:(cbn; tauto)).
  assert (L4 := Ll BodyName ltac:(cbn; tauto)). assert (L5 := Ll WaterDepth ltac:(cbn; tauto)). assert (L6 := Ll ForwardSpeed ltac:(cbn; tauto)).
  assert (L7 := Ll WaveDirection ltac:(cbn; tauto)).
  assert (L8 : q_freq q = q_freq q').
  { assert (X := Ll _ ltac:(cbn; do 7 right; left; reflexivity)). destruct (q_type q); cbn [label] in X; congruence. }
  cbn [label] in L1, L2, L3, L4, L5, L6, L7.
  assert (q_body q = q_body q') by (apply (nodup_names bodies); auto; congruence).
  split; [|congruence]. destruct q, q'; cbn in *. congruence.
Qed.

(** ** Reading a result *)
Lemma read_kind r s : read_result r = Ok s -> s_kind _ s = pb_kind (r_problem r) /\ s_problem _ s = pb_data (r_problem r)
  /\ (s_dof _ s = match pb_kind (r_problem r) with Radiation => pb_dof (r_problem r) | _ => None end).
Proof.
  unfold read_result. destruct (pb_kind (r_problem r)); [discriminate| |].
  - destruct (froude_krylov_force _); cbn [bind]; [|discriminate]. destruct (all_known _ _); [|discriminate]. intros E. injection E as <-. auto.
  - destruct (mapM _ _); cbn [bind]; [|discriminate]. destruct (mapM _ _); cbn [bind]; [|discriminate].
    destruct (all_known _ _); [|discriminate]. intros E. injection E as <-. auto.
Qed.
Lemma known_assoc {A} (l : list (string * A)) dofs d : all_known l dofs = true -> In d dofs -> exists x, assoc d l = Some x.
Proof.
  unfold all_known. rewrite forallb_forall. intros H Hd. apply H in Hd. clear H. induction l as [|[n x] l IH]; [discriminate|].
  cbn in Hd |- *. destruct (String.eqb d n); eauto.
Qed.
Lemma assoc_mapM {A B} (f : A -> result B) (l : list (string * A)) l' d x :
  mapM (fun nf => bind (f (snd nf)) (fun y => Ok (fst nf, y))) l = Ok l' -> assoc d l = Some x ->
  exists y, f x = Ok y /\ assoc d l' = Some y.
Proof.
  revert l'. induction l as [|[n z] l IH]; [discriminate|]. intros l' H Hd. cbn [mapM fst snd] in H.
  destruct (f z) as [y|] eqn:Ey; cbn [bind] in H; [|discriminate].
  destruct (mapM _ l) as [l''|] eqn:E; cbn [bind] in H; [|discriminate]. injection H as <-.
  cbn [assoc] in Hd |- *. destruct (String.eqb d n).
  - injection Hd as <-. eauto.
  - eauto.
Qed.
Lemma nan_div b r x : leaf_rdiv (Scal NaN) b = Ok r -> num_float r = Ok x -> x = NaN.
Proof.
  revert r x. induction b as [[y|l]|s v IH]; intros r x; cbn [leaf_rdiv].
  - unfold leaf_div, leaf_op, ext_div. destruct y as [y| | |]; try destruct (Req_EM_T y 0); cbn [bind]; intros E; try discriminate; injection E as <-;
      cbn; intros E; injection E as <-; reflexivity.
  - unfold leaf_div, leaf_op. destruct (map_result _ _); cbn [bind]; [|discriminate]. intros E. injection E as <-. discriminate.
  - destruct s; try discriminate; destruct (leaf_rdiv (Scal NaN) v) as [r'|]; cbn [bind]; try discriminate;
      intros E; injection E as <-; cbn [num_float]; destruct (num_float r') as [x'|] eqn:E'; cbn [bind]; try discriminate;
      rewrite (IH _ _ eq_refl E'); intros E; injection E as <-; reflexivity.
Qed.
Lemma nan_coefficients p mass damping : mass_entry (f_omega (p_enc p)) ForceNaN = Ok mass ->
  damping_entry (f_omega (p_enc p)) (p_speed p) ForceNaN = Ok damping -> coefficients p ForceNaN mass damping.
Proof.
  intros M D. split.
  - unfold mass_entry in M. destruct (num_mul _ _) as [o|]; cbn [bind] in M; [|discriminate].
    change (num_div (Fl (Scal NaN)) o) with (leaf_rdiv (Scal NaN) o) in M.
    destruct (leaf_rdiv _ _) as [r|] eqn:E; cbn [bind] in M; [|discriminate]. exact (nan_div _ _ _ E M).
  - unfold damping_entry in D. destruct (_ && _); [congruence|].
    change (num_div (Fl (Scal NaN)) (freq_num (f_omega (p_enc p)))) with (leaf_rdiv (Scal NaN) (freq_num (f_omega (p_enc p)))) in D.
    destruct (leaf_rdiv _ _) as [r|] eqn:E; cbn [bind] in D; [|discriminate]. exact (nan_div _ _ _ E D).
Qed.

Lemma read_radiation r s dof : read_result r = Ok s -> pb_kind (r_problem r) = Radiation -> 
  (exists b, p_body (pb_data (r_problem r)) = Some b /\ In dof (map fst (b_dofs b))) ->
  exists f mass damping, assoc dof (r_forces r) = Some f /\ coefficients (pb_data (r_problem r)) f mass damping
    /\ s_cell _ s AddedMass dof = Real mass /\ s_cell _ s RadiationDamping dof = Real damping.
Proof.
  unfold read_result. intros H K (b & Eb & Hd). rewrite K, Eb in H.
  destruct (mapM _ (r_forces r)) as [ms|] eqn:E1 in H; cbn [bind] in H; [|discriminate].
  destruct (mapM _ (r_forces r)) as [ds|] eqn:E2 in H; cbn [bind] in H; [|discriminate].
  destruct (all_known _ _) eqn:Ek; [|discriminate]. injection H as <-.
  destruct (known_assoc _ _ _ Ek Hd) as [f Hf].
  destruct (assoc_mapM _ _ _ _ _ E1 Hf) as (mass & Em & Am). destruct (assoc_mapM _ _ _ _ _ E2 Hf) as (damp & Ed & Ad).
  exists f, mass, damp. split; [assumption|]. split.
  - destruct f as [c|]; [split; assumption|]. now apply nan_coefficients.
  - cbn [s_cell]. unfold entry_of. now rewrite Am, Ad.
Qed.
Lemma assoc_integrate b pr dof x : assoc dof (integrate_pressure b pr) = Some x -> exists d, assoc dof (b_dofs b) = Some d /\ x = integrate_dof b d pr.
Proof.
  unfold integrate_pressure. induction (b_dofs b) as [|[n d] l IH]; [discriminate|]. cbn [map assoc fst snd].
  destruct (String.eqb dof n); [|auto]. intros E. injection E as <-. eauto.
Qed.
Lemma in_assoc {A} (l : list (string * A)) d : In d (map fst l) -> exists x, assoc d l = Some x.
Proof.
  induction l as [|[n x] l IH]; [easy|]. cbn [map fst assoc]. intros [->|H].
  - rewrite String.eqb_refl. eauto.
  - destruct (String.eqb d n); eauto.
Qed.
Lemma read_diffraction r s dof : read_result r = Ok s -> pb_kind (r_problem r) = Diffraction ->
  (exists b, p_body (pb_data (r_problem r)) = Some b /\ In dof (map fst (b_dofs b))) ->
  exists f fk, assoc dof (r_forces r) = Some f /\ incident_force (pb_data (r_problem r)) dof fk
    /\ s_cell _ s DiffractionForce dof = force_entry f /\ s_cell _ s FroudeKrylovForce dof = Complex (CFl fk).
Proof.
  unfold read_result. intros H K (b & Eb & Hd). rewrite K in H.
  destruct (froude_krylov_force _) as [fks|] eqn:E1; cbn [bind] in H; [|discriminate].
  destruct (all_known _ _) eqn:Ek; [|discriminate]. injection H as <-. rewrite Eb in Ek.
  destruct (known_assoc _ _ _ Ek Hd) as [f Hf].
  unfold froude_krylov_force in E1. rewrite Eb in E1. destruct (wave_of _) as [w|] eqn:Ew; [|discriminate].
  injection E1 as <-.
  destruct (in_assoc (integrate_pressure b (map (airy_pressure w) (b_centers b))) dof) as [fk Hk].
  { unfold integrate_pressure. rewrite map_map. exact Hd. }
  exists f, fk. split; [assumption|]. split.
  - destruct (assoc_integrate _ _ _ _ Hk) as (d & Ad & ->). exists b, w, d. auto.
  - cbn [s_cell]. unfold entry_of. now rewrite Hf, Hk.
Qed.
