(** Property C36. *)
From Coq Require Import Reals.
From Coquelicot Require Import Coquelicot.
From Coq Require Import Lra Bool List String.
From Verif Require Import Model_Base Model_Problem Spec_Problem Spec_Airy Proofs_Problem Proofs_Problem3 Proofs_Airy.
Open Scope R_scope.

Theorem airy_velocity_is_gradient_partial :
  forall w p, w_omega w <> 0 -> cos (w_enc_dir w) = cos (w_dir w) -> sin (w_enc_dir w) = sin (w_dir w) ->
    is_gradient (airy_potential w) p (airy_velocity w p).
Proof. exact velocity_is_gradient. Qed.
Print Assumptions airy_velocity_is_gradient_partial.

Theorem airy_laplace :
  forall w p, w_omega w <> 0 ->
    exists (gx gy gz : vec -> C) dxx dyy dzz,
      (forall q, partial_x (airy_potential w) q (gx q) /\ partial_y (airy_potential w) q (gy q)
                 /\ partial_z (airy_potential w) q (gz q))
      /\ partial_x gx p dxx /\ partial_y gy p dyy /\ partial_z gz p dzz
      /\ Cplus (Cplus dxx dyy) dzz = RtoC 0.
Proof. exact potential_laplace. Qed.
Print Assumptions airy_laplace.

Theorem airy_divergence_free_partial :
  forall w p, w_omega w <> 0 -> w_enc_dir w = w_dir w -> has_divergence (airy_velocity w) p (RtoC 0).
Proof. exact velocity_divergence_free. Qed.
Print Assumptions airy_divergence_free_partial.

(** Free surface condition, except when a finite depth is treated as infinite. *)
Theorem airy_free_surface_partial :
  forall w x y, w_omega w <> 0 -> (shallow w = true \/ w_h w = PInf) ->
    dispersion (w_h w) (w_g w) (w_omega w) (w_k w) ->
    exists dz, partial_z (airy_potential w) (V x y 0) dz
      /\ (RtoC (w_g w) * dz = RtoC (w_omega w * w_omega w) * airy_potential w (V x y 0))%C.
Proof. exact free_surface_condition. Qed.
Print Assumptions airy_free_surface_partial.

Theorem airy_sea_bottom :
  forall w h x y, w_h w = Fin h -> shallow w = true -> snd (airy_velocity w (V x y (- h))) = RtoC 0.
Proof. exact sea_bottom_condition. Qed.
Print Assumptions airy_sea_bottom.
(** When the depth is treated as infinite the bottom is crossed by a small flow. *)
Theorem airy_sea_bottom_deep_partial :
  forall w h x y, w_h w = Fin h -> 20 <= w_k w * h -> 0 < w_g w -> 0 < w_k w -> 0 < w_omega w ->
    Cmod (snd (airy_velocity w (V x y (- h)))) = w_g w * w_k w / w_omega w * exp (- (w_k w * h))
    /\ exp (- (w_k w * h)) <= exp (-20).
Proof. exact sea_bottom_deep. Qed.
Print Assumptions airy_sea_bottom_deep_partial.

(** The waves have unit amplitude and the dynamic pressure at the surface is
    [rho * g * elevation]. *)
Theorem airy_unit_amplitude :
  forall w x y, w_omega w <> 0 -> w_g w <> 0 -> (w_h w = PInf \/ exists h, w_h w = Fin h) ->
    airy_elevation w (V x y 0) = cexp (w_k w * (x * cos (w_enc_dir w) + y * sin (w_enc_dir w))).
Proof. exact elevation_unit. Qed.
Print Assumptions airy_unit_amplitude.
Theorem airy_surface_pressure :
  forall w x y, w_g w <> 0 ->
    airy_pressure w (V x y 0) = Cmult (RtoC (w_rho w * w_g w)) (airy_elevation w (V x y 0)).
Proof. exact pressure_elevation. Qed.
Print Assumptions airy_surface_pressure.

(** What fails: for a body overtaking the waves, the velocity used in the
    diffraction problem is neither a gradient nor divergence free. *)
Theorem airy_reversed_refuted :
  forall newton immersed, exists i p w,
    diffraction_problem newton immersed i = Ok p /\ wave_of p = Some w
    /\ ~ is_gradient (airy_potential w) v0 (airy_velocity w v0)
    /\ exists d, has_divergence (airy_velocity w) v0 d /\ d <> RtoC 0.
Proof.
  intros newton immersed.
  destruct (moving_generic newton immersed) as [p [H [_ [H2 [H3 [H4 [H5 [H6 [H7 [H8 H9]]]]]]]]]].
  exists moving_args, p, reversed_wave. split; [|split; [|split]].
  - unfold diffraction_problem. rewrite H. cbn [bind]. rewrite H3, H9. cbn [ffloat]. unfold is_limit. cbn [ext_eqb].
    rewrite Reqb_false by lra. reflexivity.
  - unfold wave_of. rewrite H2, H3, H4, H5, H6, H7, H8. reflexivity.
  - exact reversed_not_gradient.
  - exact reversed_not_divergence_free.
Qed.
Print Assumptions airy_reversed_refuted.

(** Deep water waves with [omega = 2], [g = 4], [k = 1], in direction 1. *)
Example airy_ex : let w := Wave 1 2 4 1000 PInf 1 1 in
  is_gradient (airy_potential w) (V 1 2 (-3)) (airy_velocity w (V 1 2 (-3)))
  /\ dispersion (w_h w) (w_g w) (w_omega w) (w_k w).
Proof. intros w. split; [apply airy_velocity_is_gradient_partial; cbn; lra|cbn; lra]. Qed.
(** Depth 1, wavenumber 1: the finite depth branch is taken. *)
Example airy_shallow_ex : let w := Wave 1 (sqrt (4 * 1 * tanh (1 * 1))) 4 1000 (Fin 1) 0 0 in
  shallow w = true /\ dispersion (w_h w) (w_g w) (w_omega w) (w_k w).
Proof.
  cbn. split.
  - unfold shallow. cbn. unfold Rleb, Rltb. destruct (Rle_dec 0 (1 * 1)); [|lra]. destruct (Rlt_dec (1 * 1) 20); [reflexivity|lra].
  - apply sqrt_sqrt. pose proof (tanh_pos (1 * 1) ltac:(lra)). lra.
Qed.
