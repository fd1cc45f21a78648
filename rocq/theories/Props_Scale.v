(** C65: a change of the unit of length. *)
From Coq Require Import Reals.
From Coquelicot Require Import Complex.
From Coq Require Import List Bool Arith Lra Lia.
From Verif Require Import Model_Base Model_Mesh Proofs_Problem Proofs_Geometry Proofs_Mesh3 Proofs_Clip7 Model_Assembly Spec_Assembly Model_Rankine Model_Wave
  Proofs_Green2 Proofs_Green4 Proofs_Rankine4 Spec_Scale Proofs_Scale.
Import ListNotations.
Open Scope R_scope.

(** C65: when all the lengths are multiplied by a positive number, the integrals of the potentials over the panels are multiplied by
    this number and those of the velocities do not change, for all the settings, every tabulation and every decomposition.
    Missing: the fixed distances of the code must not separate the two units; below they do. *)
Theorem scaling_partial :
  forall elementary decomposition prony l, 0 < l -> forall s no_surface h k adj early m1 ps2,
  (gf_singularities s <> LowFreqWithRankine \/ exists x, k = Fin x) ->
  forall regs schedule s0 k0 Sm Km, regs <> [] ->
  evaluate_with rankine_of reflected_of one_point_of (wave_part elementary decomposition) prony regs schedule s0 k0 s no_surface h k adj early m1 ps2 = Ok (Some (Sm, Km)) ->
  forall regs' schedule' s0' k0' Sm' Km', regs' <> [] ->
  evaluate_with rankine_of reflected_of one_point_of (wave_part elementary decomposition) prony regs' schedule' s0' k0' s no_surface (scaled_depth l h) (scaled_wavenumber l k) adj early
    (scaled_receiver l m1) (map (scaled_panel l) ps2) = Ok (Some (Sm', Km')) ->
  forall i j x q, nth_error (points_of m1) i = Some x -> nth_error ps2 j = Some q ->
  clear_images l h (match k, h with Fin k, Fin h => decomposition (k * h) | _, _ => [] end) q x ->
  (i = j -> is_own m1 = true -> vz (p_center (sp_props q)) = 0 \/ above_tolerance l (/ 100000000) (Rabs (vz (p_center (sp_props q))))) ->
  Sm' i j = Cmult (RtoC l) (Sm i j) /\ Km' i j = Km i j.
Proof.
  intros el de prony l L s ns h k adj early m1 ps2 U regs schedule s0 k0 Sm Km N E regs' schedule' s0' k0' Sm' Km' N' E' i j x q Hx Hq T J.
  destruct (evaluated_entries el de prony regs schedule s0 k0 s ns h k adj early m1 ps2 Sm Km E N U) as (cs & pr & Ec & _ & X). cbv zeta in X.
  assert (U' : gf_singularities s <> LowFreqWithRankine \/ exists x, scaled_wavenumber l k = Fin x) by (destruct U as [U|(y & ->)]; [now left|right; now exists (y / l)]).
  destruct (evaluated_entries el de prony regs' schedule' s0' k0' s ns _ _ adj early _ _ Sm' Km' E' N' U') as (cs' & pr' & Ec' & _ & X'). cbv zeta in X'.
  assert (Zk : ext_eqb (scaled_wavenumber l k) (Fin 0) = ext_eqb k (Fin 0)).
  { destruct k as [y| | |]; try reflexivity. cbn. destruct (Reqb_spec y 0) as [->|Ne]; [unfold Rdiv; rewrite Rmult_0_l; apply Reqb_refl|].
    apply Reqb_false. intros Z. apply Ne. apply Rmult_eq_reg_r with (/ l); [unfold Rdiv in Z; lra|]. apply Rinv_neq_0_compat. lra. }
  assert (Ik : ext_eqb (scaled_wavenumber l k) PInf = ext_eqb k PInf) by (destruct k; reflexivity).
  assert (cs' = cs). { unfold choose_coeffs in Ec, Ec'. rewrite Zk, Ik in Ec'. destruct h; cbn [scaled_depth] in Ec'; rewrite Ec in Ec'; now injection Ec' as <-. }
  subst cs'.
  assert (Li : (i < length (points_of m1))%nat) by (apply nth_error_Some; congruence). assert (Lj : (j < length ps2)%nat) by (apply nth_error_Some; congruence).
  destruct (X i j Li Lj) as (-> & ->). assert (Lp : length (points_of (scaled_receiver l m1)) = length (points_of m1)) by (destruct m1; cbn; rewrite ?map_length; reflexivity).
  destruct (X' i j) as (-> & ->); [rewrite Lp; exact Li|rewrite map_length; exact Lj|].
  split.
  - exact (S_scaled l L el de s m1 ps2 cs h k adj early i j x q Hx Hq T).
  - f_equal. exact (K_scaled l L el de s m1 ps2 cs h k adj early i j x q Hx Hq T J).
Qed.
Print Assumptions scaling_partial.

(** A panel in infinite depth described in kilometres and in metres. *)
Definition ex_panel : source_panel :=
  SourcePanel (Q (V 1 0 (-1)) (V 0 1 (-1)) (V (-1) 0 (-1)) (V 0 (-1) (-1))) (FProps 2 (V 0 0 1) (V 0 0 (-1)) 1) [(V 0 0 (-1), 2)].
Example scaling_ex elementary decomposition prony s : known_precision s = true -> let x := V 0 0 (-10) in
  clear_images 1000 PInf [] ex_panel x
  /\ forall l, l = 1 \/ l = 1000 ->
     exists schedule Sm Km, evaluate_with rankine_of reflected_of one_point_of (wave_part elementary decomposition) prony [Registers Ci (None, None, None) 0 v0 0 Ci (Ci, Ci, Ci)] schedule
       (fun _ _ => Ci) (fun _ _ => []) s false PInf (scaled_wavenumber l (Fin 1)) true false (scaled_receiver l (OnPoints [x])) (map (scaled_panel l) [ex_panel]) = Ok (Some (Sm, Km)).
Proof.
  intros Kp x. split.
  - split; [|intros z []]. intros z Hz. assert (Z : z = -10 \/ z = 10) by (cbn in Hz; destruct Hz as [<-|[<-|[]]]; [now left|right; lra]).
    split.
    + left. cbn [p_center sp_props ex_panel].
      assert (D : 9 <= norm (vsub (V (vx x) (vy x) z) (V 0 0 (-1)))).
      { unfold norm. rewrite <- (sqrt_square 9) by lra. apply sqrt_le_1_alt. unfold dot, vsub. cbn. destruct Z as [->| ->]; lra. }
      split; lra.
    + intros a b Hab. cbn [sp_corners sp_props p_normal ex_panel qa qb qc qd] in *.
      assert (Y : norm (vsub b a) = sqrt 2 /\ Rabs (dot (vsub (V (vx x) (vy x) z) a) (cross (V 0 0 1) (vsub b a))) = 1).
      { cbn in Hab. destruct Hab as [E|[E|[E|[E|[]]]]]; injection E as <- <-; (split; [unfold norm; f_equal; unfold dot, vsub; cbn; ring|]);
          unfold dot, cross, vsub; cbn; match goal with |- Rabs ?t = 1 => replace t with 1 by ring end; apply Rabs_R1. }
      destruct Y as (Y1 & Y2). unfold Rdiv. rewrite Rabs_mult, Y2, Y1.
      pose proof (sqrt_sqrt 2 ltac:(lra)) as Q2. pose proof (sqrt_pos 2) as Q0. assert (0 < sqrt 2) by nra. assert (sqrt 2 < 2) by nra.
      assert (I : / 2 < / sqrt 2) by (apply Rinv_lt_contravar; nra).
      rewrite Rabs_right by lra. unfold above_tolerance. split; lra.
  - intros l Hl. assert (P : 1 <= l) by (destruct Hl as [->| ->]; lra). cbn [scaled_wavenumber]. apply (run_exists elementary decomposition prony s PInf (1 / l)); try assumption; try discriminate.
    + apply Rdiv_lt_0_compat; lra.
    + right. intros q [<-|[]]. cbn. rewrite Rabs_left; lra.
    + now left.
Qed.

(** C65 is false for the panels smaller than 1e-5: the potential of such a square at its own center is zero, although that of a square
    of side 2s is s times that of a square of side 2. *)
Theorem small_panel_refuted :
  let value := fun s => fst (rankine true (V 0 0 0) (square s) (props_of false (square s))) in
  (forall s, / 100000 <= s -> 0 < value s /\ value s = s * value 1) /\ (forall s, / 1000000 <= s < / 100000 -> value s = 0).
Proof.
  intros value. pose proof center_log as Cl.
  assert (Vs : forall s, / 1000000 <= s -> value s = if Rltb s (/ 100000) then 0 else 4 * (s * ln ((sqrt 2 + 1) / (sqrt 2 - 1)))).
  { intros s Ls. assert (Ps : 0 < s) by lra. assert (S2 : / 1000000000000 <= s * s) by nra. unfold value. rewrite (square_props s S2 Ps). now rewrite (square_center_value s). }
  split.
  - intros s Ls. rewrite (Vs s), (Vs 1) by lra. rewrite !(proj2 (Rltb_false _ _)) by lra.
    assert (0 < s * ln ((sqrt 2 + 1) / (sqrt 2 - 1))) by (apply Rmult_lt_0_compat; lra). split; lra.
  - intros s (L1 & L2). rewrite (Vs s L1), (proj2 (Rltb_true _ _) L2). reflexivity.
Qed.
Print Assumptions small_panel_refuted.
