(** C64: the velocities induced by a panel are the gradients of its potentials. *)
From Coq Require Import Reals.
From Coquelicot Require Import Coquelicot.
From Coq Require Import List Bool Arith Lra Lia.
From Verif Require Import Model_Base Model_Mesh Proofs_Problem Proofs_Geometry Proofs_Mesh3 Proofs_Clip7 Model_Assembly Spec_Assembly Model_Rankine Model_Wave
  Spec_Rankine Spec_Boundary Proofs_Rankine2 Proofs_Rankine3 Proofs_Rankine4 Proofs_Rankine5.
Import ListNotations.
Open Scope R_scope.

(** The integral of the Rankine source over a face and that of its gradient, at a point that is not near the sides nor the plane of the
    face: the second one is the gradient of the first one, with respect to the point, or to the position of the face. *)
Theorem rankine_gradient_partial :
  forall M q f, 0 <= p_radius f -> regular_point M q f ->
  gradient_at (fun P => fst (rankine true P q f)) M (snd (rankine true M q f))
  /\ forall u, is_derive (fun t => fst (rankine false M (shifted_quad (vscale t u) q) (shifted_props (vscale t u) f))) 0 (dot (snd (rankine false M q f)) u).
Proof. exact (fun M q f P G => conj (rankine_gradient M q f P G) (fun u => rankine_second M q f u P G)). Qed.
Print Assumptions rankine_gradient_partial.

(** The same for the images of the source by the free surface and by the bottom. *)
Theorem reflected_rankine_gradient_partial :
  forall c M q f, 0 <= p_radius f -> regular_point (image_point c M) q f ->
  gradient_at (fun P => fst (reflected_rankine true c P q f)) M (snd (reflected_rankine true c M q f))
  /\ (fst c = 1 \/ fst c = -1 -> forall u,
      is_derive (fun t => fst (reflected_rankine false c M (shifted_quad (vscale t u) q) (shifted_props (vscale t u) f))) 0 (dot (snd (reflected_rankine false c M q f)) u)).
Proof. exact (fun c M q f P G => conj (reflected_first_gradient c M q f P G) (fun C u => reflected_second_gradient c M q f u P G C)). Qed.
Print Assumptions reflected_rankine_gradient_partial.

(** C64, for the matrices: without free surface, and at zero and infinite frequencies. Missing: the other frequencies, which depend on
    the tabulated integrals, and the points near the sides of the panel. *)
Theorem velocity_is_gradient_partial :
  forall elementary decomposition prony regs s0 k0 s no_surface h k q, regs <> [] -> 0 <= p_radius (sp_props q) ->
  (gf_singularities s <> LowFreqWithRankine \/ exists y, k = Fin y) ->
  (no_surface = true \/ (h = PInf /\ (k = Fin 0 \/ k = PInf))) ->
  exists potential : vec -> R, forall x schedule Sm Km,
  evaluate_with rankine_of reflected_of one_point_of (wave_part elementary decomposition) prony regs schedule s0 k0 s no_surface h k true false (OnPoints [x]) [q] = Ok (Some (Sm, Km)) ->
  Sm 0%nat 0%nat = RtoC (potential x)
  /\ (regular_point x (sp_corners q) (sp_props q) -> regular_point (above x) (sp_corners q) (sp_props q) ->
      exists g, Km 0%nat 0%nat = [Some (RtoC (vx g)); Some (RtoC (vy g)); Some (RtoC (vz g))] /\ gradient_at potential x g).
Proof.
  exact (fun el de prony regs s0 k0 s ns h k q N P U L => limit_gradient el de prony regs s0 k0 s ns h k q N U L P).
Qed.
Print Assumptions velocity_is_gradient_partial.

(** A square of side two seen from a point two metres below its center; the square is on the plane z = 0. *)
Definition ex_square : source_panel := SourcePanel (square 1) (props_of false (square 1)) [].
Lemma ex_square_props : sp_props ex_square = FProps (4 * (1 * 1)) (V 0 0 1) (V 0 0 0) (1 * sqrt 2).
Proof. apply square_props; lra. Qed.
Lemma ex_square_regular z : z * z = 4 -> regular_point (V 0 0 z) (square 1) (sp_props ex_square).
Proof.
  intros Hz. pose proof (sqrt_sqrt 2 ltac:(lra)) as Q2. pose proof (sqrt_pos 2) as Q0. assert (Q1 : 1 < sqrt 2) by nra. assert (Q3 : sqrt 2 < 2) by nra.
  assert (Az : Rabs z = 2) by (destruct (Rcase_abs z); [rewrite Rabs_left by lra|rewrite Rabs_right by lra]; nra).
  rewrite ex_square_props. right. cbn [p_radius p_center p_normal].
  assert (N : norm (vsub (V 0 0 z) (V 0 0 0)) = 2) by (apply norm_of; [lra|unfold dot, vsub; cbn; lra]). split; [rewrite N; lra|].
  split; cbn [p_radius p_center p_normal].
  - unfold dot, vsub. cbn. replace ((0 - 0) * 0 + (0 - 0) * 0 + (z - 0) * 1) with z by ring. rewrite Az. lra.
  - intros a b Hs _. destruct (square_sides 1 (a, b) Hs) as (c & e & Eab & Hc & He). injection Eab as -> ->.
    assert (K : norm (vsub (V (1 * - e) (1 * c) 0) (V (1 * c) (1 * e) 0)) = 2) by (apply norm_of; [lra|unfold dot, vsub; cbn; nra]).
    split; [rewrite K; lra|]. unfold distance_to_line. rewrite K. unfold dot, cross, vsub. cbn.
    match goal with |- _ < Rabs ?x / 2 => replace x with (c * c + e * e) by ring end. rewrite Hc, He, Rabs_right; lra.
Qed.
Example velocity_ex elementary decomposition prony : let x := V 0 0 (-2) in let s := Settings LowFreq LegacyDepth true in
  0 <= p_radius (sp_props ex_square) /\ regular_point x (sp_corners ex_square) (sp_props ex_square) /\ regular_point (above x) (sp_corners ex_square) (sp_props ex_square)
  /\ exists schedule Sm Km, evaluate_with rankine_of reflected_of one_point_of (wave_part elementary decomposition) prony [Registers Ci (None, None, None) 0 v0 0 Ci (Ci, Ci, Ci)] schedule
    (fun _ _ => Ci) (fun _ _ => []) s false PInf PInf true false (OnPoints [x]) [ex_square] = Ok (Some (Sm, Km)).
Proof.
  cbv zeta. split; [rewrite ex_square_props; cbn [p_radius]; pose proof (sqrt_pos 2); lra|].
  split; [apply ex_square_regular; ring|]. split; [apply ex_square_regular; unfold above; cbn; ring|].
  apply (run_limit elementary decomposition prony _ false PInf PInf (-1)); try reflexivity; try discriminate; [constructor|left; reflexivity|left; discriminate].
Qed.

(** C64 is false within 1e-5 of a vertical plane through a side of the panel: a term of the potential is dropped there, but not the
    corresponding term of the velocity. Here the point is one metre above the middle of a side of a square. *)
Theorem rankine_gradient_refuted :
  let f := props_of false (square 1) in ~ gradient_at (fun P => fst (rankine true P (square 1) f)) (V 1 0 1) (snd (rankine true (V 1 0 1) (square 1) f)).
Proof.
  intros f G. assert (F : f = FProps (4 * (1 * 1)) (V 0 0 1) (V 0 0 0) (1 * sqrt 2)) by (apply square_props; lra).
  destruct (above_side_gradient f) as (l & Hl & D); try (rewrite F; reflexivity).
  pose proof (is_derive_unique _ _ _ (G (V 1 0 0))) as E1. pose proof (is_derive_unique _ _ _ D) as E2. cbv beta in E1, E2. unfold above_side in E2. rewrite E1 in E2. lra.
Qed.
Print Assumptions rankine_gradient_refuted.
