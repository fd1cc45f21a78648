(** Proofs about the integrals of the Rankine source over a square: a point above a side, the center of a small square. *)
From Coq Require Import Reals.
From Coquelicot Require Import Coquelicot.
From Coq Require Import List Bool Arith Lra Lia.
From Verif Require Import Model_Base Model_Geometry Model_Mesh Spec_Mesh Proofs_Geometry Proofs_Mesh Proofs_Mesh2 Proofs_Mesh3 Proofs_Integrals Proofs_Clip7
  Model_Assembly Model_Rankine Proofs_Rankine Spec_Rankine Proofs_Rankine2.
Import ListNotations.
Open Scope R_scope.

(** The horizontal square with center 0 and side 2s. *)
Definition square (s : R) : quad := Q (V s (- s) 0) (V s s 0) (V (- s) s 0) (V (- s) (- s) 0).
Lemma square_props s : / 1000000000000 <= s * s -> 0 < s -> props_of false (square s) = FProps (4 * (s * s)) (V 0 0 1) (V 0 0 0) (s * sqrt 2).
Proof.
  intros L P. unfold props_of, quad_props, square. cbn [qa qb qc qd].
  assert (N : norm (cross (vsub (V (- s) s 0) (V s (- s) 0)) (vsub (V (- s) (- s) 0) (V s s 0))) = 8 * (s * s)) by (apply norm_of; [nra|unfold dot, cross, vsub; cbn; ring]).
  assert (N1 : norm (cross (vsub (V s s 0) (V s (- s) 0)) (vsub (V (- s) s 0) (V s (- s) 0))) = 4 * (s * s)) by (apply norm_of; [nra|unfold dot, cross, vsub; cbn; ring]).
  assert (N2 : norm (cross (vsub (V (- s) (- s) 0) (V s (- s) 0)) (vsub (V (- s) s 0) (V s (- s) 0))) = 4 * (s * s)) by (apply norm_of; [nra|unfold dot, cross, vsub; cbn; ring]).
  rewrite N, N1, N2, Rabs_right, (proj2 (Rltb_false _ _)) by (try unfold degenerate_tol; lra).
  assert (C : vscale (/ (4 * (s * s) * (1 / 2) + 4 * (s * s) * (1 / 2))) (vadd (vscale (4 * (s * s) * (1 / 2)) (vscale (/ 3) (vadd (vadd (V s (- s) 0) (V s s 0)) (V (- s) s 0))))
    (vscale (4 * (s * s) * (1 / 2)) (vscale (/ 3) (vadd (vadd (V (- s) s 0) (V (- s) (- s) 0)) (V s (- s) 0))))) = V 0 0 0).
  { unfold vscale, vadd. cbn [vx vy vz]. f_equal; field; lra. }
  rewrite C. unfold radius. cbn [qa qb qc qd]. 
  assert (S2 : 0 <= s * sqrt 2) by (apply Rmult_le_pos; [lra|apply sqrt_pos]). pose proof (sqrt_sqrt 2 ltac:(lra)) as Q2.
  assert (D : forall x y, x * x = s * s -> y * y = s * s -> norm (vsub (V 0 0 0) (V x y 0)) = s * sqrt 2).
  { intros x y Hx Hy. apply norm_of; [exact S2|]. unfold dot, vsub. cbn. replace (s * sqrt 2 * (s * sqrt 2)) with (s * s * (sqrt 2 * sqrt 2)) by ring. rewrite Q2. nra. }
  rewrite !D by ring. rewrite !Rmax_left by lra. f_equal; [field|].
  unfold vscale, cross, vsub. cbn [vx vy vz]. f_equal; field; lra.
Qed.

(** ** The center of the square *)
Lemma square_sides s ab : In ab (sides (square s)) -> exists c e, ab = (V (s * c) (s * e) 0, V (s * (- e)) (s * c) 0) /\ c * c = 1 /\ e * e = 1.
Proof.
  cbn. intros [<-|[<-|[<-|[<-|[]]]]]; [exists 1, (-1)|exists 1, 1|exists (-1), 1|exists (-1), (-1)]; (split; [f_equal; f_equal; ring|split; ring]).
Qed.
Lemma square_center_value s f : 0 < s -> p_normal f = V 0 0 1 -> p_center f = V 0 0 0 -> p_radius f = s * sqrt 2 ->
  fst (rankine true (V 0 0 0) (square s) f) = if Rltb s (/ 100000) then 0 else 4 * (s * ln ((sqrt 2 + 1) / (sqrt 2 - 1))).
Proof.
  intros P En Ec Er. pose proof (sqrt_sqrt 2 ltac:(lra)) as Q2. pose proof (sqrt_pos 2) as Q0. assert (Q1 : 1 < sqrt 2) by nra. assert (Q3 : sqrt 2 < 2) by nra.
  assert (R0 : 0 < s * sqrt 2) by (apply Rmult_lt_0_compat; lra).
  unfold rankine. rewrite Ec, Er. replace (norm (vsub (V 0 0 0) (V 0 0 0))) with 0 by (symmetry; apply norm_of; [lra|unfold dot, vsub; cbn; ring]).
  rewrite (proj2 (Rltb_false _ _)) by lra. unfold exact_rankine, oriented, sum_sides. cbn [fst]. rewrite En, Ec, Er.
  assert (X : forall ab, In ab (sides (square s)) -> fst (side (V 0 0 0) (V 0 0 0) (V 0 0 1) (s * sqrt 2) ab) = if Rltb s (/ 100000) then 0 else s * ln ((sqrt 2 + 1) / (sqrt 2 - 1))).
  { intros ab H. destruct (square_sides s ab H) as (c & e & -> & Hc & He). unfold side.
    assert (K : DK (V (s * c) (s * e) 0) (V (s * - e) (s * c) 0) = 2 * s).
    { apply norm_of; [lra|]. unfold dot, vsub. cbn. replace ((s * - e - s * c) * (s * - e - s * c) + (s * c - s * e) * (s * c - s * e) + (0 - 0) * (0 - 0)) with (2 * (s * s) * (c * c + e * e)) by ring. rewrite Hc, He. ring. }
    assert (Ra : RR (V 0 0 0) (V (s * c) (s * e) 0) = s * sqrt 2).
    { apply norm_of; [lra|]. unfold dot, vsub. cbn. replace (s * sqrt 2 * (s * sqrt 2)) with (s * s * (sqrt 2 * sqrt 2)) by ring. rewrite Q2.
      replace ((0 - s * c) * (0 - s * c) + (0 - s * e) * (0 - s * e) + (0 - 0) * (0 - 0)) with (s * s * (c * c + e * e)) by ring. rewrite Hc, He. ring. }
    assert (Rb : RR (V 0 0 0) (V (s * - e) (s * c) 0) = s * sqrt 2).
    { apply norm_of; [lra|]. unfold dot, vsub. cbn. replace (s * sqrt 2 * (s * sqrt 2)) with (s * s * (sqrt 2 * sqrt 2)) by ring. rewrite Q2.
      replace ((0 - s * - e) * (0 - s * - e) + (0 - s * c) * (0 - s * c) + (0 - 0) * (0 - 0)) with (s * s * (c * c + e * e)) by ring. rewrite Hc, He. ring. }
    assert (Y : GY (V 0 0 0) (V 0 0 1) (V (s * c) (s * e) 0) (V (s * - e) (s * c) 0) = s).
    { unfold GY, GYX, PJ. rewrite K. unfold dot, cross, vscale, vsub. cbn [vx vy vz]. transitivity (s * (c * c + e * e) / 2); [field; lra|]. rewrite Hc, He. field. }
    assert (Z : GZ (V 0 0 0) (V 0 0 0) (V 0 0 1) = 0) by (unfold GZ, dot, vsub; cbn; ring).
    rewrite K, (proj2 (Rleb_true _ _)) by nra. cbn [fst]. unfold side_G, AT, ALDEN, ANL, DNL. rewrite K, Ra, Rb, Y, Z, Rabs_R0, (Rabs_right s) by lra.
    destruct (Rltb s (/ 100000)); [ring|]. rewrite Rmult_0_r, Rminus_0_r. f_equal. f_equal.
    replace (s * sqrt 2 + s * sqrt 2 + 2 * s) with (2 * s * (sqrt 2 + 1)) by ring. replace (s * sqrt 2 + s * sqrt 2 - 2 * s) with (2 * s * (sqrt 2 - 1)) by ring.
    clear - P Q1. generalize (sqrt 2) Q1. intros z Hz. field. split; lra. }
  replace (map (fun s0 => fst (side (V 0 0 0) (V 0 0 0) (V 0 0 1) (s * sqrt 2) s0)) (sides (square s))) with (map (fun _ : vec * vec => if Rltb s (/ 100000) then 0 else s * ln ((sqrt 2 + 1) / (sqrt 2 - 1))) (sides (square s))).
  2:{ apply map_ext_in. intros ab H. now rewrite X. }
  unfold Rsum. cbn. destruct (Rltb s (/ 100000)); ring.
Qed.
Lemma center_log : 0 < ln ((sqrt 2 + 1) / (sqrt 2 - 1)).
Proof.
  pose proof (sqrt_sqrt 2 ltac:(lra)) as Q2. pose proof (sqrt_pos 2) as Q0. assert (Q1 : 1 < sqrt 2) by nra.
  rewrite <- ln_1. apply ln_increasing; [lra|]. apply Rmult_lt_reg_r with (sqrt 2 - 1); [lra|]. unfold Rdiv. rewrite Rmult_assoc, Rinv_l by lra. lra.
Qed.

(** ** A point above the middle of a side *)
Definition above_side : vec := V 1 0 1.
Lemma above_side_gradient f : p_normal f = V 0 0 1 -> p_center f = V 0 0 0 -> p_radius f = 1 * sqrt 2 ->
  exists l, 0 < l /\ is_derive (fun t => fst (rankine true (vadd above_side (vscale t (V 1 0 0))) (square 1) f)) 0 (dot (snd (rankine true above_side (square 1) f)) (V 1 0 0) + l).
Proof.
  intros En Ec Er. pose proof (sqrt_sqrt 2 ltac:(lra)) as Q2. pose proof (sqrt_pos 2) as Q0. assert (Q1 : 1 < sqrt 2) by nra. assert (Q3 : sqrt 2 < 2) by nra.
  set (u := V 1 0 0). assert (N0 : norm (vsub above_side (V 0 0 0)) = sqrt 2) by (apply norm_of; [lra|unfold dot, vsub, above_side; cbn; lra]).
  assert (E0 : rankine true above_side (square 1) f = exact_rankine true above_side (square 1) f) by (unfold rankine; rewrite Ec, Er, N0, (proj2 (Rltb_false _ _)) by lra; reflexivity).
  rewrite E0. unfold exact_rankine at 1, oriented, sum_sides. cbn [snd]. rewrite En, Ec, Er, dot_vsum, map_map.
  set (a := V 1 (-1) 0). set (b := V 1 1 0).
  assert (Es : sides (square 1) = (a, b) :: [(b, V (-1) 1 0); (V (-1) 1 0, V (-1) (-1) 0); (V (-1) (-1) 0, a)]).
  { unfold sides, square, a, b. cbn [qa qb qc qd]. replace (- (1)) with (-1) by ring. reflexivity. }
  assert (K1 : DK a b = 2) by (apply norm_of; [lra|unfold dot, vsub, a, b; cbn; ring]).
  assert (Ra : RR above_side a = sqrt 2) by (apply norm_of; [lra|unfold dot, vsub, above_side, a; cbn; lra]).
  assert (Rb : RR above_side b = sqrt 2) by (apply norm_of; [lra|unfold dot, vsub, above_side, b; cbn; lra]).
  assert (Far : / 10000 * (1 * sqrt 2) < Rabs (dot (vsub above_side (V 0 0 0)) (V 0 0 1))) by (unfold dot, vsub, above_side; cbn; rewrite Rabs_right; lra).
  assert (Gz : dot (vsub above_side (V 0 0 0)) (V 0 0 1) <> 0) by (unfold dot, vsub, above_side; cbn; lra).
  assert (Gyx : GYX (V 0 0 1) a b = V (-1) 0 0) by (unfold GYX, PJ; rewrite K1; unfold cross, vscale, vsub, a, b; cbn; f_equal; field).
  set (side1 := side above_side (V 0 0 0) (V 0 0 1) (1 * sqrt 2)).
  exists (ALDEN above_side a b). split.
  { unfold ALDEN, ANL, DNL. rewrite K1, Ra, Rb. rewrite <- ln_1. apply ln_increasing; [lra|]. apply Rmult_lt_reg_r with (sqrt 2 + sqrt 2 - 2); [lra|]. unfold Rdiv. rewrite Rmult_assoc, Rinv_l by lra. lra. }
  apply (is_derive_ext_loc (fun t => fst (exact_rankine true (vadd above_side (vscale t u)) (square 1) f))).
  { assert (C : locally 0 (fun t => norm (vsub (vadd above_side (vscale t u)) (p_center f)) < 7 * p_radius f)) by (apply near_gt; [apply continuous_norm|rewrite at_0, Ec, N0, Er; lra]).
    revert C. apply filter_imp. intros t Ht. unfold rankine. rewrite (proj2 (Rltb_false _ _)) by lra. reflexivity. }
  unfold exact_rankine, oriented, sum_sides. cbn [fst]. rewrite En, Ec, Er, Es.
  pose (extra := fun s : vec * vec => if Rltb 0 (vx (fst s)) && Rltb 0 (vx (snd s)) then ALDEN above_side a b else 0).
  pose (fs := map (fun s => ((fun t => fst (side (vadd above_side (vscale t u)) (V 0 0 0) (V 0 0 1) (1 * sqrt 2) s)), dot (snd (side1 s)) u + extra s)) ((a, b) :: [(b, V (-1) 1 0); (V (-1) 1 0, V (-1) (-1) 0); (V (-1) (-1) 0, a)])).
  assert (Ex : extra (a, b) = ALDEN above_side a b /\ extra (b, V (-1) 1 0) = 0 /\ extra (V (-1) 1 0, V (-1) (-1) 0) = 0 /\ extra (V (-1) (-1) 0, a) = 0).
  { unfold extra, a, b. cbn [fst snd vx]. rewrite (proj2 (Rltb_true 0 1)), (proj2 (Rltb_false 0 (-1))) by lra. repeat split; reflexivity. }
  destruct Ex as (X1 & X2 & X3 & X4).
  replace (Rsum (map (fun x => dot (snd (side1 x)) u) ((a, b) :: [(b, V (-1) 1 0); (V (-1) 1 0, V (-1) (-1) 0); (V (-1) (-1) 0, a)])) + ALDEN above_side a b) with (Rsum (map snd fs)).
  2:{ unfold fs, Rsum. cbn [map snd fold_right]. rewrite X1, X2, X3, X4. ring. }
  apply (is_derive_ext (fun t => Rsum (map (fun g => fst g t) fs))).
  { intros t. unfold fs. rewrite map_map. reflexivity. }
  apply derive_sum. unfold fs. cbn [map]. 
  assert (Reg : forall c e, 0 < norm (vsub e c) -> / 1000 * (1 * sqrt 2) <= norm (vsub e c) -> / 100000 < distance_to_line (V 0 0 1) c e above_side ->
    is_derive (fun t => fst (side (vadd above_side (vscale t u)) (V 0 0 0) (V 0 0 1) (1 * sqrt 2) (c, e))) 0 (dot (snd (side1 (c, e))) u)).
  { intros c e L1 L2 L3. unfold side1, side. rewrite (proj2 (Rleb_true _ _)) by exact L2. cbn [fst snd]. now apply side_derivative. }
  apply Forall_cons; [|apply Forall_cons; [|apply Forall_cons; [|apply Forall_cons; [|apply Forall_nil]]]]; cbn [fst snd].
  - rewrite X1. unfold side1, side. rewrite (proj2 (Rleb_true _ _)) by (rewrite K1; lra). cbn [fst snd].
    pose proof (strip_derivative above_side (V 0 0 0) (V 0 0 1) (1 * sqrt 2) a b u Far Gz) as D. rewrite Gyx in D.
    replace (dot u (V (-1) 0 0) * ALDEN above_side a b) with (- ALDEN above_side a b) in D by (unfold u, dot; cbn; ring).
    unfold Rminus in D. rewrite Ropp_involutive in D. apply D; try lra.
    + change (0 < DK a b). lra.
    + unfold GY. rewrite Gyx. unfold dot, vsub, above_side, a. cbn. ring.
  - rewrite X2, Rplus_0_r. assert (K : norm (vsub (V (-1) 1 0) b) = 2) by (apply norm_of; [lra|unfold dot, vsub, b; cbn; ring]).
    apply Reg; rewrite ?K; try lra. unfold distance_to_line. rewrite K. unfold dot, cross, vsub, above_side, b. cbn. rewrite Rabs_right; lra.
  - rewrite X3, Rplus_0_r. assert (K : norm (vsub (V (-1) (-1) 0) (V (-1) 1 0)) = 2) by (apply norm_of; [lra|unfold dot, vsub; cbn; ring]).
    apply Reg; rewrite ?K; try lra. unfold distance_to_line. rewrite K. unfold dot, cross, vsub, above_side. cbn. rewrite Rabs_right; lra.
  - rewrite X4, Rplus_0_r. assert (K : norm (vsub a (V (-1) (-1) 0)) = 2) by (apply norm_of; [lra|unfold dot, vsub, a; cbn; ring]).
    apply Reg; rewrite ?K; try lra. unfold distance_to_line. rewrite K. unfold dot, cross, vsub, above_side, a. cbn. rewrite Rabs_right; lra.
Qed.
