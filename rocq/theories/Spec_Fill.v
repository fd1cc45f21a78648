(** Vocabulary of the properties of [fill_dataset] and of the far field coefficients. *)
From Coq Require Import Reals.
From Coquelicot Require Import Complex.
From Coq Require Import String Ascii List Bool.
From Verif Require Import Model_Base Model_Problem Model_Results Model_Solver Model_Dataset Spec_TestMatrix Model_Fill.
Import ListNotations.
Open Scope R_scope.

(** The labels of the values of a problem of the test matrix in the dataset; [dof] is the influenced dof. *)
Definition label (q : request) (dof : string) (c : column) : value :=
  match c with
  | BodyName => Name (b_name (q_body q))
  | WaterDepth => Num (q_depth q)
  | ForwardSpeed => Num (Fin (q_speed q))
  | WaveDirection => Num (Fin (q_dir q))
  | Rho => Num (Fin (q_rho q))
  | Gravity => Num (Fin (q_g q))
  | RadiatingDof => match q_dof q with Some d => Name d | None => Missing end
  | InfluencedDof => Name dof
  | COmega | CPeriod | CWavelength | CWavenumber => Num (q_freq q)
  | _ => Missing
  end.
(** The added mass and the damping of a force; those of a failed resolution are nan, except the damping at the frequencies zero
    and infinity. *)
Definition coefficients (p : problem) (f : force) (mass damping : ext) : Prop :=
  match f with
  | Force c => added_mass (f_omega (p_enc p)) c = Ok mass /\ radiation_damping (f_omega (p_enc p)) (p_speed p) c = Ok damping
  | ForceNaN => mass = NaN /\ damping = if is_limit (ffloat (f_omega (p_enc p))) && Reqb (p_speed p) 0 then Fin 0 else NaN
  end.
(** The pressure of the incident wave integrated over the body. *)
Definition incident_force (p : problem) (dof : string) (c : C) : Prop :=
  exists b w d, p_body p = Some b /\ wave_of p = Some w /\ assoc dof (b_dofs b) = Some d
    /\ c = integrate_dof b d (map (airy_pressure w) (b_centers b)).
(** Clipping a body does not change its name. *)
Definition keeps_names (immersed_part : body -> ext -> ext -> result body) : Prop :=
  forall b fs h b', immersed_part b fs h = Ok b' -> b_name b' = b_name b.
(** The same wave coming from another direction. *)
Definition turned (w : wave) (theta : R) : wave := Wave (w_k w) (w_omega w) (w_g w) (w_rho w) (w_h w) theta theta.
(** The far field coefficient in a direction: the sources weighted by the conjugate of the pressure of the wave of this direction,
    with a unit pressure on the free surface at the point of reference. *)
Definition far_field (w : wave) (b : body) (sources : list C) (ref : R * R) (theta : R) : C :=
  Cmult (RtoC (/ (4 * PI))) (Csum (map (fun cas : vec * R * C =>
    let '(c, a, s) := cas in
    Cmult (Cmult (RtoC a) s) (Cmult (RtoC (/ (w_rho w * w_g w))) (Cconj (airy_pressure (turned w theta) (V (vx c - fst ref) (vy c - snd ref) (vz c))))))
    (combine (combine (b_centers b) (b_areas b)) sources))).
