From Coq Require Import Reals.
From Coquelicot Require Import Coquelicot.
From Coq Require Import Lra Bool.
From Verif Require Import Model_Base Model_Problem Spec_Problem Spec_Airy Proofs_Problem.
Open Scope R_scope.

Ltac req := match goal with |- ?a = ?b => change (@eq R a b) end.

Lemma is_derive_cosh x : is_derive cosh x (sinh x).
Proof.
  unfold cosh, sinh. auto_derive; [exact I|]. field.
Qed.
Lemma is_derive_sinh x : is_derive sinh x (cosh x).
Proof.
  unfold cosh, sinh. auto_derive; [exact I|]. field.
Qed.

Lemma is_derive_cih w z : is_derive (cih w) z (w_k w * sih w z).
Proof.
  unfold cih, sih.
  assert (E : forall z, is_derive (fun z => exp (w_k w * z)) z (w_k w * exp (w_k w * z))).
  { intros t. auto_derive; [exact I|]. ring. }
  destruct (w_h w) as [h| | |]; try apply E. destruct (shallow w); [|apply E].
  replace (w_k w * (sinh (w_k w * (z + h)) / cosh (w_k w * h)))
    with (/ cosh (w_k w * h) * (w_k w * sinh (w_k w * (z + h)))) by (unfold Rdiv; ring).
  apply is_derive_ext with (f := fun t => / cosh (w_k w * h) * cosh (w_k w * (t + h))).
  { intros t. unfold Rdiv. apply Rmult_comm. }
  apply is_derive_scal.
  apply (is_derive_comp cosh (fun t => w_k w * (t + h)) z (sinh (w_k w * (z + h))) (w_k w)).
  - apply is_derive_cosh.
  - auto_derive; [exact I|]. ring.
Qed.
Lemma is_derive_sih w z : is_derive (sih w) z (w_k w * cih w z).
Proof.
  unfold cih, sih.
  assert (E : forall z, is_derive (fun z => exp (w_k w * z)) z (w_k w * exp (w_k w * z))).
  { intros t. auto_derive; [exact I|]. ring. }
  destruct (w_h w) as [h| | |]; try apply E. destruct (shallow w); [|apply E].
  replace (w_k w * (cosh (w_k w * (z + h)) / cosh (w_k w * h)))
    with (/ cosh (w_k w * h) * (w_k w * cosh (w_k w * (z + h)))) by (unfold Rdiv; ring).
  apply is_derive_ext with (f := fun t => / cosh (w_k w * h) * sinh (w_k w * (t + h))).
  { intros t. unfold Rdiv. apply Rmult_comm. }
  apply is_derive_scal.
  apply (is_derive_comp sinh (fun t => w_k w * (t + h)) z (cosh (w_k w * (z + h))) (w_k w)).
  - apply is_derive_sinh.
  - auto_derive; [exact I|]. ring.
Qed.

(** Real and imaginary parts. *)
Definition phase (w : wave) (p : vec) : R := w_k w * wbar w p.
Lemma pot_re w p : fst (airy_potential w p) = w_g w / w_omega w * cih w (vz p) * sin (phase w p).
Proof. unfold airy_potential, Cmult, Copp, Ci, RtoC, cexp, phase. cbn. ring. Qed.
Lemma pot_im w p : snd (airy_potential w p) = - (w_g w / w_omega w) * cih w (vz p) * cos (phase w p).
Proof. unfold airy_potential, Cmult, Copp, Ci, RtoC, cexp, phase. cbn. ring. Qed.

Lemma vel_x w p : fst (fst (airy_velocity w p)) =
  let a := w_g w * w_k w / w_omega w * cos (w_dir w) * cih w (vz p) in (a * cos (phase w p), a * sin (phase w p)).
Proof. unfold airy_velocity, Cmult, RtoC, cexp, phase. cbn. f_equal; ring. Qed.
Lemma vel_y w p : snd (fst (airy_velocity w p)) =
  let a := w_g w * w_k w / w_omega w * sin (w_dir w) * cih w (vz p) in (a * cos (phase w p), a * sin (phase w p)).
Proof. unfold airy_velocity, Cmult, RtoC, cexp, phase. cbn. f_equal; ring. Qed.
Lemma vel_z w p : snd (airy_velocity w p) =
  let a := w_g w * w_k w / w_omega w * sih w (vz p) in (a * sin (phase w p), - a * cos (phase w p)).
Proof. unfold airy_velocity, Cmult, Copp, Ci, RtoC, cexp, phase. cbn. f_equal; ring. Qed.

Lemma derive_x_phase (F dF : R -> R) A B w x y z : (forall t, is_derive F t (dF t)) ->
  B = A * (w_k w * cos (w_enc_dir w)) * dF (phase w (V x y z)) ->
  is_derive (fun t => A * F (phase w (V t y z))) x B.
Proof.
  intros HF ->. rewrite Rmult_assoc. apply is_derive_scal.
  apply (is_derive_comp F (fun t => phase w (V t y z)) x (dF (phase w (V x y z))) (w_k w * cos (w_enc_dir w))).
  - apply HF.
  - unfold phase, wbar. cbn. auto_derive; [exact I|]. ring.
Qed.
Lemma derive_y_phase (F dF : R -> R) A B w x y z : (forall t, is_derive F t (dF t)) ->
  B = A * (w_k w * sin (w_enc_dir w)) * dF (phase w (V x y z)) ->
  is_derive (fun t => A * F (phase w (V x t z))) y B.
Proof.
  intros HF ->. rewrite Rmult_assoc. apply is_derive_scal.
  apply (is_derive_comp F (fun t => phase w (V x t z)) y (dF (phase w (V x y z))) (w_k w * sin (w_enc_dir w))).
  - apply HF.
  - unfold phase, wbar. cbn. auto_derive; [exact I|]. ring.
Qed.
Lemma derive_z_fun (F dF : R -> R) A B z : (forall t, is_derive F t (dF t)) -> B = A * dF z ->
  is_derive (fun t => A * F t) z B.
Proof. intros HF ->. apply is_derive_scal. apply HF. Qed.

Lemma dsin t : is_derive sin t (cos t). Proof. apply is_derive_sin. Qed.
Lemma dcos t : is_derive cos t (- sin t). Proof. apply is_derive_cos. Qed.

Lemma phase_z w x y z z' : phase w (V x y z) = phase w (V x y z').
Proof. reflexivity. Qed.

(** The gradient of the potential. *)
Lemma potential_partials w p : w_omega w <> 0 ->
  let a := w_g w * w_k w / w_omega w * cih w (vz p) in
  let c := w_g w * w_k w / w_omega w * sih w (vz p) in
  partial_x (airy_potential w) p (a * cos (w_enc_dir w) * cos (phase w p), a * cos (w_enc_dir w) * sin (phase w p))
  /\ partial_y (airy_potential w) p (a * sin (w_enc_dir w) * cos (phase w p), a * sin (w_enc_dir w) * sin (phase w p))
  /\ partial_z (airy_potential w) p (c * sin (phase w p), - c * cos (phase w p)).
Proof.
  intros Ho a c. destruct p as [x y z]. unfold partial_x, partial_y, partial_z, c_derive. cbn [vx vy vz fst snd].
  split; [|split]; split.
  - apply is_derive_ext with (f := fun t => (w_g w / w_omega w * cih w z) * sin (phase w (V t y z))).
    { intros t. rewrite pot_re. reflexivity. }
    apply (derive_x_phase sin cos); [apply dsin|]. unfold a. cbn. field. exact Ho.
  - apply is_derive_ext with (f := fun t => (- (w_g w / w_omega w) * cih w z) * cos (phase w (V t y z))).
    { intros t. rewrite pot_im. reflexivity. }
    apply (derive_x_phase cos (fun t => - sin t)); [apply dcos|]. unfold a. cbn. field. exact Ho.
  - apply is_derive_ext with (f := fun t => (w_g w / w_omega w * cih w z) * sin (phase w (V x t z))).
    { intros t. rewrite pot_re. reflexivity. }
    apply (derive_y_phase sin cos); [apply dsin|]. unfold a. cbn. field. exact Ho.
  - apply is_derive_ext with (f := fun t => (- (w_g w / w_omega w) * cih w z) * cos (phase w (V x t z))).
    { intros t. rewrite pot_im. reflexivity. }
    apply (derive_y_phase cos (fun t => - sin t)); [apply dcos|]. unfold a. cbn. field. exact Ho.
  - apply is_derive_ext with (f := fun t => (w_g w / w_omega w * sin (phase w (V x y z))) * cih w t).
    { intros t. rewrite pot_re. cbn [vz]. rewrite (phase_z w x y t z). req. ring. }
    apply (derive_z_fun (cih w) (fun t => w_k w * sih w t)); [apply is_derive_cih|]. unfold c. cbn. field. exact Ho.
  - apply is_derive_ext with (f := fun t => (- (w_g w / w_omega w) * cos (phase w (V x y z))) * cih w t).
    { intros t. rewrite pot_im. cbn [vz]. rewrite (phase_z w x y t z). req. ring. }
    apply (derive_z_fun (cih w) (fun t => w_k w * sih w t)); [apply is_derive_cih|]. unfold c. cbn. field. exact Ho.
Qed.

Lemma triple_eta {A B D} (v : A * B * D) : v = (fst (fst v), snd (fst v), snd v).
Proof. destruct v as [[a b] c]. reflexivity. Qed.

Lemma velocity_is_gradient w p : w_omega w <> 0 -> cos (w_enc_dir w) = cos (w_dir w) ->
  sin (w_enc_dir w) = sin (w_dir w) -> is_gradient (airy_potential w) p (airy_velocity w p).
Proof.
  intros Ho Hc Hs. rewrite (triple_eta (airy_velocity w p)), vel_x, vel_y, vel_z. cbn zeta.
  destruct (potential_partials w p Ho) as [P1 [P2 P3]]. unfold is_gradient. split; [|split].
  - replace (_, _) with (w_g w * w_k w / w_omega w * cih w (vz p) * cos (w_enc_dir w) * cos (phase w p),
      w_g w * w_k w / w_omega w * cih w (vz p) * cos (w_enc_dir w) * sin (phase w p)); [exact P1|].
    rewrite Hc. f_equal; ring.
  - replace (_, _) with (w_g w * w_k w / w_omega w * cih w (vz p) * sin (w_enc_dir w) * cos (phase w p),
      w_g w * w_k w / w_omega w * cih w (vz p) * sin (w_enc_dir w) * sin (phase w p)); [exact P2|].
    rewrite Hs. f_equal; ring.
  - exact P3.
Qed.

(** Divergence of the velocity, in general. *)
Lemma velocity_divergence w p : w_omega w <> 0 ->
  has_divergence (airy_velocity w) p
    (let a := w_g w * w_k w * w_k w / w_omega w * cih w (vz p) * (1 - cos (w_enc_dir w - w_dir w)) in
     (a * sin (phase w p), - a * cos (phase w p))).
Proof.
  intros Ho. destruct p as [x y z]. unfold has_divergence, partial_x, partial_y, partial_z, c_derive.
  set (A := w_g w * w_k w / w_omega w). cbn [vx vy vz].
  exists (- A * cos (w_dir w) * cih w z * w_k w * cos (w_enc_dir w) * sin (phase w (V x y z)),
          A * cos (w_dir w) * cih w z * w_k w * cos (w_enc_dir w) * cos (phase w (V x y z))),
         (- A * sin (w_dir w) * cih w z * w_k w * sin (w_enc_dir w) * sin (phase w (V x y z)),
          A * sin (w_dir w) * cih w z * w_k w * sin (w_enc_dir w) * cos (phase w (V x y z))),
         (A * w_k w * cih w z * sin (phase w (V x y z)), - A * w_k w * cih w z * cos (phase w (V x y z))).
  cbn [fst snd]. split; [split|split; [split|split; [split|]]].
  - apply is_derive_ext with (f := fun t => (A * cos (w_dir w) * cih w z) * cos (phase w (V t y z))).
    { intros t. rewrite vel_x. reflexivity. }
    apply (derive_x_phase cos (fun t => - sin t)); [apply dcos|]. ring.
  - apply is_derive_ext with (f := fun t => (A * cos (w_dir w) * cih w z) * sin (phase w (V t y z))).
    { intros t. rewrite vel_x. reflexivity. }
    apply (derive_x_phase sin cos); [apply dsin|]. ring.
  - apply is_derive_ext with (f := fun t => (A * sin (w_dir w) * cih w z) * cos (phase w (V x t z))).
    { intros t. rewrite vel_y. reflexivity. }
    apply (derive_y_phase cos (fun t => - sin t)); [apply dcos|]. ring.
  - apply is_derive_ext with (f := fun t => (A * sin (w_dir w) * cih w z) * sin (phase w (V x t z))).
    { intros t. rewrite vel_y. reflexivity. }
    apply (derive_y_phase sin cos); [apply dsin|]. ring.
  - apply is_derive_ext with (f := fun t => (A * sin (phase w (V x y z))) * sih w t).
    { intros t. rewrite vel_z. cbn [fst vz]. rewrite (phase_z w x y t z). fold A. req. ring. }
    apply (derive_z_fun (sih w) (fun t => w_k w * cih w t)); [apply is_derive_sih|]. ring.
  - apply is_derive_ext with (f := fun t => (- A * cos (phase w (V x y z))) * sih w t).
    { intros t. rewrite vel_z. cbn [snd vz]. rewrite (phase_z w x y t z). fold A. req. ring. }
    apply (derive_z_fun (sih w) (fun t => w_k w * cih w t)); [apply is_derive_sih|]. ring.
  - cbn zeta. rewrite cos_minus. unfold Cplus. cbn. unfold A. f_equal; field; exact Ho.
Qed.

Lemma velocity_divergence_free w p : w_omega w <> 0 -> w_enc_dir w = w_dir w ->
  has_divergence (airy_velocity w) p (RtoC 0).
Proof.
  intros Ho E. pose proof (velocity_divergence w p Ho) as H. cbn zeta in H.
  rewrite E, Rminus_eq_0, cos_0 in H.
  replace (RtoC 0) with (w_g w * w_k w * w_k w / w_omega w * cih w (vz p) * (1 - 1) * sin (phase w p),
    - (w_g w * w_k w * w_k w / w_omega w * cih w (vz p) * (1 - 1)) * cos (phase w p)); [exact H|].
  unfold RtoC. f_equal; ring.
Qed.

(** Laplace's equation for the potential. *)
Lemma potential_laplace w p : w_omega w <> 0 ->
  exists (gx gy gz : vec -> C) dxx dyy dzz,
    (forall q, partial_x (airy_potential w) q (gx q) /\ partial_y (airy_potential w) q (gy q)
               /\ partial_z (airy_potential w) q (gz q))
    /\ partial_x gx p dxx /\ partial_y gy p dyy /\ partial_z gz p dzz
    /\ Cplus (Cplus dxx dyy) dzz = RtoC 0.
Proof.
  intros Ho. set (w' := Wave (w_k w) (w_omega w) (w_g w) (w_rho w) (w_h w) (w_enc_dir w) (w_enc_dir w)).
  destruct (velocity_divergence_free w' p Ho eq_refl) as [dxx [dyy [dzz [H1 [H2 [H3 H4]]]]]].
  exists (fun q => fst (fst (airy_velocity w' q))), (fun q => snd (fst (airy_velocity w' q))),
    (fun q => snd (airy_velocity w' q)), dxx, dyy, dzz.
  split; [|auto]. intros q. pose proof (velocity_is_gradient w' q Ho eq_refl eq_refl) as G.
  rewrite (triple_eta (airy_velocity w' q)) in G. exact G.
Qed.

(** Free surface: [g * dphi/dz = omega^2 phi] at [z = 0]. *)
Lemma free_surface_condition w x y : w_omega w <> 0 ->
  (shallow w = true \/ w_h w = PInf) -> dispersion (w_h w) (w_g w) (w_omega w) (w_k w) ->
  exists dz, partial_z (airy_potential w) (V x y 0) dz
    /\ (RtoC (w_g w) * dz = RtoC (w_omega w * w_omega w) * airy_potential w (V x y 0))%C.
Proof.
  intros Ho Hs D. destruct (potential_partials w (V x y 0) Ho) as [_ [_ P]]. eexists. split; [exact P|].
  assert (E : w_g w * w_k w * sih w 0 = w_omega w * w_omega w * cih w 0).
  { unfold cih, sih. unfold dispersion in D. destruct (w_h w) as [h| | |] eqn:Eh; try contradiction.
    - destruct Hs as [Hs|Hs]; [|discriminate]. rewrite Hs, D. rewrite !Rplus_0_l. unfold tanh. field.
      pose proof (cosh_pos (w_k w * h)). lra.
    - rewrite D. reflexivity. }
  rewrite (surjective_pairing (airy_potential w (V x y 0))), pot_re, pot_im. cbn [vz].
  unfold Cmult, RtoC. cbn [fst snd].
  f_equal.
  - replace (w_g w * (w_g w * w_k w / w_omega w * sih w 0 * sin (phase w (V x y 0))) - 0 * (- (w_g w * w_k w / w_omega w * sih w 0) * cos (phase w (V x y 0))))
      with (w_g w / w_omega w * (w_g w * w_k w * sih w 0) * sin (phase w (V x y 0))) by (field; exact Ho).
    rewrite E. field. exact Ho.
  - replace (w_g w * (- (w_g w * w_k w / w_omega w * sih w 0) * cos (phase w (V x y 0))) + 0 * (w_g w * w_k w / w_omega w * sih w 0 * sin (phase w (V x y 0))))
      with (- (w_g w / w_omega w) * (w_g w * w_k w * sih w 0) * cos (phase w (V x y 0))) by (field; exact Ho).
    rewrite E. field. exact Ho.
Qed.

(** Sea bottom. *)
Lemma sea_bottom_condition w h x y : w_h w = Fin h -> shallow w = true ->
  snd (airy_velocity w (V x y (- h))) = RtoC 0.
Proof.
  intros Eh Hs. rewrite vel_z. cbn [vz]. unfold sih. rewrite Eh, Hs.
  replace (- h + h) with 0 by ring. rewrite Rmult_0_r, sinh_0. unfold Rdiv, RtoC. cbn zeta. f_equal; ring.
Qed.
(** When [k*h >= 20] the vertical velocity at the bottom is only small. *)
Lemma sea_bottom_deep w h x y : w_h w = Fin h -> 20 <= w_k w * h -> 0 < w_g w -> 0 < w_k w -> 0 < w_omega w ->
  Cmod (snd (airy_velocity w (V x y (- h)))) = w_g w * w_k w / w_omega w * exp (- (w_k w * h))
  /\ exp (- (w_k w * h)) <= exp (-20).
Proof.
  intros Eh Hs Hg Hk Ho. rewrite vel_z. cbn [vz]. unfold sih, shallow. rewrite Eh. cbn [ext_mul ext_leb ext_ltb].
  assert (F : Rltb (w_k w * h) 20 = false) by (unfold Rltb; destruct (Rlt_dec (w_k w * h) 20); [lra|reflexivity]).
  rewrite F, andb_false_r. cbn zeta. split.
  - replace (w_k w * - h) with (- (w_k w * h)) by ring.
    unfold Cmod. cbn [fst snd]. set (a := w_g w * w_k w / w_omega w * exp (- (w_k w * h))).
    assert (Ha : 0 <= a).
    { unfold a. apply Rmult_le_pos; [|left; apply exp_pos]. apply Rlt_le, Rdiv_lt_0_compat; auto.
      apply Rmult_lt_0_compat; auto. }
    set (t := phase w _).
    replace ((a * sin t) ^ 2 + (- a * cos t) ^ 2) with (Rsqr a).
    + apply sqrt_Rsqr. exact Ha.
    + unfold Rsqr. replace ((a * sin t) ^ 2 + (- a * cos t) ^ 2) with (a * a * ((sin t)² + (cos t)²)) by (unfold Rsqr; ring).
      rewrite sin2_cos2. ring.
  - destruct (Req_dec (w_k w * h) 20) as [->|]; [right; f_equal; lra|]. left. apply exp_increasing. lra.
Qed.

(** Pressure, elevation: kinematic/dynamic relations. *)
Lemma elevation_unit w x y : w_omega w <> 0 -> w_g w <> 0 ->
  (w_h w = PInf \/ exists h, w_h w = Fin h) ->
  airy_elevation w (V x y 0) = cexp (w_k w * wbar w (V x y 0)).
Proof.
  intros Ho Hg Hh. unfold airy_elevation, airy_potential. cbn [vz].
  assert (E : cih w 0 = 1).
  { unfold cih. destruct Hh as [->|[h ->]]; [rewrite Rmult_0_r, exp_0; reflexivity|].
    destruct (shallow w); [|rewrite Rmult_0_r, exp_0; reflexivity].
    rewrite Rplus_0_l. field. pose proof (cosh_pos (w_k w * h)). lra. }
  rewrite E. unfold Cdiv, Cmult, Cinv, Copp, Ci, RtoC, cexp. cbn [fst snd]. f_equal; field; auto.
Qed.
Lemma pressure_elevation w x y : w_g w <> 0 ->
  airy_pressure w (V x y 0) = Cmult (RtoC (w_rho w * w_g w)) (airy_elevation w (V x y 0)).
Proof.
  intros Hg. unfold airy_pressure, airy_elevation. unfold Cdiv, Cmult, Cinv, Ci, RtoC. cbn [fst snd].
  f_equal; field; auto.
Qed.

(** A reversed encounter direction. *)
Definition reversed_wave : wave := Wave 1 2 4 1000 PInf (0 + PI) 0.
Lemma reversed_not_divergence_free : exists d, has_divergence (airy_velocity reversed_wave) v0 d /\ d <> RtoC 0.
Proof.
  eexists. split; [apply velocity_divergence; cbn; lra|].
  cbn zeta. cbn [w_g w_k w_omega w_enc_dir w_dir reversed_wave v0 vz].
  replace (0 + PI - 0) with PI by ring. rewrite cos_PI. unfold cih. cbn [w_h reversed_wave w_k]. rewrite Rmult_0_r, exp_0.
  unfold phase, wbar. cbn [vx vy w_k reversed_wave]. rewrite !Rmult_0_l, Rplus_0_l, Rmult_0_r, cos_0, sin_0.
  intros E. apply (f_equal snd) in E. cbn in E. lra.
Qed.
Lemma reversed_not_gradient : ~ is_gradient (airy_potential reversed_wave) v0 (airy_velocity reversed_wave v0).
Proof.
  rewrite (triple_eta (airy_velocity reversed_wave v0)). intros [[G _] _].
  destruct (potential_partials reversed_wave v0) as [[P _] _]; [cbn; lra|].
  pose proof (is_derive_unique _ _ _ G) as E1. pose proof (is_derive_unique _ _ _ P) as E2.
  rewrite E1 in E2. rewrite vel_x in E2. cbn [fst] in E2. cbn [w_g w_k w_omega w_enc_dir w_dir reversed_wave v0 vz] in E2.
  unfold cih in E2. cbn [w_h reversed_wave w_k] in E2. rewrite Rmult_0_r, exp_0 in E2.
  unfold phase, wbar in E2. cbn [vx vy w_k reversed_wave v0] in E2. rewrite !Rmult_0_l, Rplus_0_l, Rmult_0_r, cos_0 in E2.
  rewrite Rplus_0_l, cos_PI in E2. lra.
Qed.
