(** C62 and C63: the conditions satisfied by the Green function on the sea bottom and on the free surface. *)
From Coq Require Import Reals.
From Coquelicot Require Import Complex.
From Coq Require Import List Bool Arith Lra Lia.
From Verif Require Import Model_Base Model_Mesh Proofs_Problem Proofs_Geometry Proofs_Mesh3 Proofs_Clip7 Model_Assembly Spec_Assembly Model_Rankine Model_Wave Proofs_Green4 Spec_Boundary.
Import ListNotations.
Open Scope R_scope.

(** C62: at the points of the sea bottom the vertical component of the velocity induced by every panel is zero, for every tabulation
    and every exponential decomposition. Missing: in the variant [low_freq_with_rankine_part] this is false (below); with the newer
    computation of the finite depth, the image of the panel by the free surface has to be far from the point. *)
Theorem sea_bottom_condition_partial :
  forall elementary decomposition prony regs schedule s0 k0 s xs qs Sm Km h k, regs <> [] -> 0 < k ->
  evaluate_with rankine_of reflected_of one_point_of (wave_part elementary decomposition) prony regs schedule s0 k0 s false (Fin h) (Fin k) true false (OnPoints xs) qs = Ok (Some (Sm, Km)) ->
  gf_singularities s <> LowFreqWithRankine ->
  forall i j x q, nth_error xs i = Some x -> nth_error qs j = Some q -> vz x = - h -> (gf_finite_depth s = LegacyDepth \/ far_from (above x) q) ->
  exists gx gy, Km i j = [Some gx; Some gy; Some (RtoC 0)].
Proof.
  intros el de prony regs schedule s0 k0 s xs qs Sm Km h k N P E Ns i j x q Hx Hq Z F.
  destruct (bottom_points el de prony regs schedule s0 k0 s xs qs Sm Km N i j x q Hx Hq h k P E Z F) as (gx & gy & X). exists gx, gy. rewrite X. now destruct (gf_singularities s).
Qed.
Print Assumptions sea_bottom_condition_partial.

(** C62 is false with the variant [low_freq_with_rankine_part]: a term of the infinite depth is added in finite depth, and the flow
    goes through the bottom. The vertical velocity is never zero there. *)
Theorem sea_bottom_condition_refuted :
  forall elementary decomposition prony regs schedule s0 k0 s xs qs Sm Km h k, regs <> [] -> 0 < k ->
  evaluate_with rankine_of reflected_of one_point_of (wave_part elementary decomposition) prony regs schedule s0 k0 s false (Fin h) (Fin k) true false (OnPoints xs) qs = Ok (Some (Sm, Km)) ->
  gf_singularities s = LowFreqWithRankine ->
  forall i j x q, nth_error xs i = Some x -> nth_error qs j = Some q -> vz x = - h -> (gf_finite_depth s = LegacyDepth \/ far_from (above x) q) ->
  0 < p_area (sp_props q) -> / 10000000 < norm (vsub (p_center (sp_props q)) (above x)) ->
  exists gx gy gz, Km i j = [Some gx; Some gy; Some gz] /\ gz <> RtoC 0
  /\ gz = RtoC (- (2 * k * p_area (sp_props q) / norm (vsub (p_center (sp_props q)) (above x))) / (4 * fortran_pi)).
Proof.
  intros el de prony regs schedule s0 k0 s xs qs Sm Km h k N P E Es i j x q Hx Hq Z F A D.
  destruct (bottom_points el de prony regs schedule s0 k0 s xs qs Sm Km N i j x q Hx Hq h k P E Z F) as (gx & gy & X). rewrite Es in X.
  exists gx, gy. eexists. split; [exact X|].
  assert (G : fst (one_point_of true (-1, 0) x q) = p_area (sp_props q) / norm (vsub (p_center (sp_props q)) (above x))).
  { unfold one_point_of, one_point_reflected, one_point_rankine. cbv zeta.
    replace (image_point (-1, 0) x) with (above x) by (unfold image_point, above; cbn [fst snd]; f_equal; ring).
    rewrite (proj2 (Rltb_true _ _) D). reflexivity. }
  rewrite G. set (d := norm _) in *.
  assert (V : scale4pi * (2 * k * (p_area (sp_props q) / d)) = - (2 * k * p_area (sp_props q) / d) / (4 * fortran_pi)).
  { unfold scale4pi, fortran_pi. field. lra. }
  rewrite V. split; [|reflexivity]. intros Y. injection Y as Y.
  assert (0 < 2 * k * p_area (sp_props q) / d) by (apply Rdiv_lt_0_compat; [|lra]; apply Rmult_lt_0_compat; lra).
  assert (2 * k * p_area (sp_props q) / d = 0); [|lra]. unfold fortran_pi in Y. lra.
Qed.
Print Assumptions sea_bottom_condition_refuted.

(** A square panel of area two one metre below the surface, in ten metres of water, seen from the bottom. *)
Definition ex_panel : source_panel :=
  SourcePanel (Q (V 1 0 (-1)) (V 0 1 (-1)) (V (-1) 0 (-1)) (V 0 (-1) (-1))) (FProps 2 (V 0 0 1) (V 0 0 (-1)) 1) [(V 0 0 (-1), 2)].
Example sea_bottom_ex elementary decomposition s : known_precision s = true -> let x := V 0 0 (-10) in
  vz x = - 10 /\ far_from (above x) ex_panel /\ / 10000000 < norm (vsub (p_center (sp_props ex_panel)) (above x))
  /\ exists schedule Sm Km, evaluate_with rankine_of reflected_of one_point_of (wave_part elementary decomposition) (fun _ => Ok tt) [Registers Ci (None, None, None) 0 v0 0 Ci (Ci, Ci, Ci)] schedule
    (fun _ _ => Ci) (fun _ _ => []) s false (Fin 10) (Fin 1) true false (OnPoints [x]) [ex_panel] = Ok (Some (Sm, Km)).
Proof.
  intros Kp x. split; [reflexivity|].
  assert (N1 : norm (vsub (above x) (V 0 0 (-1))) = 11) by (apply norm_of; [lra|unfold dot, vsub, above; cbn; ring]).
  assert (N2 : norm (vsub (V 0 0 (-1)) (above x)) = 11) by (apply norm_of; [lra|unfold dot, vsub, above; cbn; ring]).
  split; [unfold far_from; cbn [p_radius p_center sp_props ex_panel]; rewrite N1; lra|]. split; [cbn [p_center sp_props ex_panel]; rewrite N2; lra|].
  apply (run_exists elementary decomposition (fun _ => Ok tt) s (Fin 10) 1); try assumption; try lra; try discriminate.
  - right. intros q [<-|[]]. cbn. rewrite Rabs_left; lra.
  - right. now exists 10.
Qed.

(** C63: at the points of the free surface, in infinite depth, the vertical velocity induced by a panel is the wavenumber times its
    potential, for every tabulation. Missing: for the settings [low_freq] and [high_freq], the panels that are near the point or
    integrated with several points. *)
Theorem free_surface_condition_partial :
  forall elementary decomposition prony regs schedule s0 k0 s xs qs Sm Km k, regs <> [] -> 0 < k ->
  evaluate_with rankine_of reflected_of one_point_of (wave_part elementary decomposition) prony regs schedule s0 k0 s false PInf (Fin k) true false (OnPoints xs) qs = Ok (Some (Sm, Km)) ->
  forall i j x q, nth_error xs i = Some x -> nth_error qs j = Some q -> vz x = 0 -> off_singularity k x q ->
  (gf_singularities s = LowFreqWithRankine \/ seen_as_point x q) ->
  exists gx gy, Km i j = [Some gx; Some gy; Some (Cmult (RtoC k) (Sm i j))].
Proof.
  exact (fun el de prony regs schedule s0 k0 s xs qs Sm Km k N P E i j x q Hx Hq =>
    surface_points el de prony regs schedule s0 k0 s xs qs Sm Km N i j x q Hx Hq k P E).
Qed.
Print Assumptions free_surface_condition_partial.

(** C63: with the default setting the only difference is the error of the quadrature of 1/r over the panel, since the potential uses its
    exact integral and the vertical velocity its quadrature. *)
Theorem free_surface_condition_up_to_quadrature :
  forall elementary decomposition prony regs schedule s0 k0 s xs qs Sm Km k, regs <> [] -> 0 < k ->
  evaluate_with rankine_of reflected_of one_point_of (wave_part elementary decomposition) prony regs schedule s0 k0 s false PInf (Fin k) true false (OnPoints xs) qs = Ok (Some (Sm, Km)) ->
  forall i j x q, nth_error xs i = Some x -> nth_error qs j = Some q -> vz x = 0 -> off_singularity k x q -> gf_singularities s = LowFreq ->
  (forall pw, In pw (sp_quad q) -> 0 < norm (vsub x (fst pw))) ->
  exists gx gy, Km i j = [Some gx; Some gy; Some (Cplus (Cmult (RtoC k) (Sm i j))
    (RtoC (scale4pi * (2 * k * (Rsum (map (fun pw => snd pw / norm (vsub x (fst pw))) (sp_quad q)) - fst (rankine_of true x q))))))].
Proof.
  exact (fun el de prony regs schedule s0 k0 s xs qs Sm Km k N P E i j x q Hx Hq =>
    defect_points el de prony regs schedule s0 k0 s xs qs Sm Km N i j x q Hx Hq k P E).
Qed.
Print Assumptions free_surface_condition_up_to_quadrature.

(** C63 at the limits: a wall at zero frequency, no potential at infinite frequency, for every panel. *)
Theorem free_surface_at_limits :
  forall elementary decomposition prony regs schedule s0 k0 s xs qs Sm Km, regs <> [] ->
  forall i j x q, nth_error xs i = Some x -> nth_error qs j = Some q -> vz x = 0 ->
  (evaluate_with rankine_of reflected_of one_point_of (wave_part elementary decomposition) prony regs schedule s0 k0 s false PInf (Fin 0) true false (OnPoints xs) qs = Ok (Some (Sm, Km)) ->
   exists gx gy, Km i j = [Some gx; Some gy; Some (RtoC 0)])
  /\ (gf_singularities s <> LowFreqWithRankine ->
   evaluate_with rankine_of reflected_of one_point_of (wave_part elementary decomposition) prony regs schedule s0 k0 s false PInf PInf true false (OnPoints xs) qs = Ok (Some (Sm, Km)) ->
   Sm i j = RtoC 0).
Proof.
  exact (fun el de prony regs schedule s0 k0 s xs qs Sm Km N i j x q Hx Hq Z => conj
    (fun E => surface_zero el de prony regs schedule s0 k0 s xs qs Sm Km N i j x q Hx Hq E Z)
    (fun Ns E => surface_infinite el de prony regs schedule s0 k0 s xs qs Sm Km N i j x q Hx Hq Ns E Z)).
Qed.
Print Assumptions free_surface_at_limits.

Example free_surface_ex elementary decomposition prony s : known_precision s = true -> let x := V 10 0 0 in
  vz x = 0 /\ off_singularity 1 x ex_panel /\ seen_as_point x ex_panel
  /\ exists schedule Sm Km, evaluate_with rankine_of reflected_of one_point_of (wave_part elementary decomposition) prony [Registers Ci (None, None, None) 0 v0 0 Ci (Ci, Ci, Ci)] schedule
    (fun _ _ => Ci) (fun _ _ => []) s false PInf (Fin 1) true false (OnPoints [x]) [ex_panel] = Ok (Some (Sm, Km)).
Proof.
  intros Kp x. split; [reflexivity|].
  assert (B : 10 <= norm (vsub x (V 0 0 (-1)))).
  { unfold norm. rewrite <- (sqrt_square 10) by lra. apply sqrt_le_1_alt. unfold dot, vsub. cbn. lra. }
  split; [right; cbn; rewrite Rabs_left; lra|].
  split; [unfold seen_as_point, far_from; cbn [p_radius p_center p_area sp_props sp_quad ex_panel]; split; [reflexivity|]; split; lra|].
  apply (run_exists elementary decomposition prony s PInf 1); try assumption; try lra; try discriminate.
  - right. intros q [<-|[]]. cbn. rewrite Rabs_left; lra.
  - now left.
Qed.
