(** Vocabulary about assembled datasets. *)
From Coq Require Import Reals String List Bool Arith.
From Verif Require Import Model_Base Model_Problem Spec_Problem Model_Solver Model_Dataset.
Import ListNotations.

Section Spec.
  Variable cell : Type.
  (** The rows of the results of one class with a free surface: one for each influenced dof. *)
  Definition is_finite_kind (k : pkind) (s : res cell) : Prop := s_kind _ s = k /\ p_fs (s_problem _ s) = Fin 0.
  Inductive rows_of (k : pkind) : list (res cell) -> list (row cell) -> Prop :=
  | rows_nil : rows_of k [] []
  | rows_use s l rs b : is_finite_kind k s -> p_body (s_problem _ s) = Some b -> rows_of k l rs ->
      rows_of k (s :: l) (map (fun nd => (s, fst nd)) (b_dofs b) ++ rs)
  | rows_bodiless s l rs : p_body (s_problem _ s) = None -> rows_of k l rs -> rows_of k (s :: l) rs
  | rows_skip s l rs : ~ is_finite_kind k s -> rows_of k l rs -> rows_of k (s :: l) rs.
  (** The row has these parameters. *)
  Definition agrees (dims : list column) (s : column -> value) (r : row cell) : Prop := forall c, In c dims -> column_of _ r c = s c.
  Definition first_such (P : row cell -> Prop) (l : list (row cell)) (r : row cell) : Prop :=
    exists l1 l2, l = l1 ++ r :: l2 /\ P r /\ forall r', In r' l1 -> ~ P r'.
  (** The parameter takes several values. *)
  Definition varying (l : list (row cell)) (c : column) : Prop :=
    exists r r', In r l /\ In r' l /\ column_of _ r c <> column_of _ r' c.
  Definition labelled {V X} (ds : dset V X) (c : column) (v : value) : Prop := exists l, In (c, l) (d_coords _ _ ds) /\ In v l.
  (** The parameters identifying the rows of each class. *)
  Definition main_dims (k : pkind) (t : freq_type) : list column :=
    let m := match t with Omega => COmega | Period => CPeriod | Wavenumber => CWavenumber | Wavelength => CWavelength end in
    match k with Diffraction => [m; WaveDirection; InfluencedDof] | _ => [m; RadiatingDof; InfluencedDof] end.
  Definition other_dims (k : pkind) : list column :=
    [Gravity; Rho; BodyName; WaterDepth; ForwardSpeed] ++ match k with Diffraction => [] | _ => [WaveDirection] end.
  Definition dims_for (k : pkind) (t : freq_type) (rows : list (row cell)) (dims : list column) : Prop :=
    forall c, In c dims <-> In c (main_dims k t) \/ (In c (other_dims k) /\ varying rows c).
  (** A parameter has one value in the radiation results and another one in the diffraction results. *)
  Definition conflict (rr dr : list (row cell)) : Prop :=
    exists c r r', In c [Gravity; Rho; BodyName; WaterDepth; ForwardSpeed] /\ ~ varying rr c /\ ~ varying dr c
      /\ In r rr /\ In r' dr /\ column_of _ r c <> column_of _ r' c.
  (** A row of the dataset. *)
  Definition recorded (results : list (res cell)) (r : row cell) : Prop := exists k rows, k <> Generic /\ rows_of k results rows /\ In r rows.
End Spec.

(** The wave of a problem. *)
Definition travelling (p : problem) : Prop := exists w T k L t,
    p_freqs p = Freqs (FVal (Fin w)) (FVal (Fin T)) (FVal (Fin k)) (FVal (Fin L)) t
    /\ (0 < p_g p)%R /\ pos_depth (p_depth p) /\ same_wave (p_depth p) (p_g p) w T k L
    /\ let s := (w - k * p_speed p * cos (p_dir p))%R in
       ffloat (f_omega (p_enc p)) = Fin (Rabs s) /\ ((0 <= s)%R -> p_enc_dir p = p_dir p) /\ ((s < 0)%R -> p_enc_dir p = (p_dir p + PI)%R).
