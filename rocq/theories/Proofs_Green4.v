(** Proofs about the Green function: the conditions on the boundaries of the fluid, for the matrices of [Delhommeau.evaluate] at given points. *)
From Coq Require Import Reals.
From Coquelicot Require Import Complex.
From Coq Require Import List Bool Arith Lra Lia.
From Verif Require Import Model_Base Model_Geometry Model_Mesh Spec_Mesh Proofs_Problem Proofs_Geometry Proofs_Mesh Proofs_Mesh2 Proofs_Mesh3 Proofs_Integrals
  Model_Assembly Spec_Assembly Proofs_Assembly5 Model_Rankine Model_Wave Proofs_Rankine Proofs_Wave Proofs_Green2 Proofs_Green3 Spec_Boundary.
Import ListNotations.
Open Scope R_scope.

Section Points.
  Variable elementary : R -> R -> integrals.
  Variable decomposition : R -> list (R * R).
  Variable prony : ext -> result unit.
  Notation w := (wave_part elementary decomposition).
  Notation evaluate_with := (evaluate_with rankine_of reflected_of one_point_of w prony).
  Notation S_entry := (S_entry rankine_of reflected_of one_point_of w).
  Notation gradient_entry := (gradient_entry rankine_of reflected_of one_point_of w).
  Variables (regs : list registers) (schedule : list (nat * nat)) (s0 : nat -> nat -> C) (k0 : nat -> nat -> list num) (s : settings).
  Variables (xs : list vec) (qs : list source_panel) (Sm : nat -> nat -> C) (Km : nat -> nat -> list num).
  Hypothesis N : regs <> [].
  Variables (i j : nat) (x : vec) (q : source_panel).
  Hypotheses (Hx : nth_error xs i = Some x) (Hq : nth_error qs j = Some q).

  (** The entries, for the gradient with respect to the point. *)
  Lemma point_entries h k : evaluate_with regs schedule s0 k0 s false h k true false (OnPoints xs) qs = Ok (Some (Sm, Km)) ->
    (gf_singularities s <> LowFreqWithRankine \/ exists y, k = Fin y) ->
    exists cs pr a, choose_coeffs s false h k = Ok (cs, pr) /\ coeffs3 a = cs /\ depth a = h /\ wavenumber a = k /\ adjoint a = true
    /\ finite_depth a = gf_finite_depth s /\ singular a = gf_singularities s /\ points_1 a i = x /\ panels_2 a j = q
    /\ jump_entry a i j = zero3
    /\ Sm i j = S_entry a i j /\ Km i j = [Some (fst (fst (gradient_entry a i j))); Some (snd (fst (gradient_entry a i j))); Some (snd (gradient_entry a i j))].
  Proof.
    intros E U. destruct (evaluated_entries elementary decomposition prony _ _ _ _ _ _ _ _ _ _ _ _ _ _ E N U) as (cs & pr & Ec & _ & X). cbv zeta in X.
    exists cs, pr, (arguments s (OnPoints xs) qs cs (points_of (OnPoints xs)) (normals_of (OnPoints xs) qs true) h k true false).
    assert (Li : (i < length xs)%nat) by (apply nth_error_Some; congruence). assert (Lj : (j < length qs)%nat) by (apply nth_error_Some; congruence).
    destruct (X i j Li Lj) as (X1 & X2). repeat (split; [first [exact Ec|reflexivity|exact X1|apply nth_nth; assumption|idtac]|]).
    - unfold jump_entry. cbn [same_body arguments is_own]. now rewrite andb_false_r.
    - exact X2.
  Qed.

  Lemma positive_not k : 0 < k -> ext_eqb (Fin k) (Fin 0) = false.
  Proof. intros P. unfold ext_eqb. destruct (Reqb_spec k 0); [lra|reflexivity]. Qed.
  Lemma coeffs_finite h k cs pr : 0 < k -> choose_coeffs s false (Fin h) (Fin k) = Ok (cs, pr) -> cs = (1, 1, 1).
  Proof. intros P. unfold choose_coeffs. rewrite (positive_not _ P). cbn [ext_eqb orb]. congruence. Qed.
  Lemma coeffs_infinite k cs pr : 0 < k -> choose_coeffs s false PInf (Fin k) = Ok (cs, pr) -> cs = match gf_singularities s with HighFreq => (1, -1, 1) | _ => (1, 1, 1) end.
  Proof. intros P. unfold choose_coeffs. rewrite (positive_not _ P). cbn [ext_eqb]. destruct (gf_singularities s); congruence. Qed.
  Lemma zero_plus a : Cplus (RtoC 0) a = a.
  Proof. apply Cplus_0_l. Qed.

  Lemma bottom_points h k : 0 < k -> evaluate_with regs schedule s0 k0 s false (Fin h) (Fin k) true false (OnPoints xs) qs = Ok (Some (Sm, Km)) ->
    vz x = - h -> (gf_finite_depth s = LegacyDepth \/ far_from (above x) q) ->
    exists gx gy, Km i j = [Some gx; Some gy; Some (match gf_singularities s with
      | LowFreqWithRankine => RtoC (scale4pi * (2 * k * fst (one_point_of true (-1, 0) x q))) | _ => RtoC 0 end)].
  Proof.
    intros P E Z F. destruct (point_entries _ _ E ltac:(right; eauto)) as (cs & pr & a & Ec & Ha & Hh & Hk & Ad & Hf & Hs & Hp & Hj & J & _ & ->).
    apply (coeffs_finite _ _ _ _ P) in Ec. do 2 eexists. do 3 f_equal. f_equal. subst cs.
    assert (F' : image_far a i j).
    { unfold image_far. rewrite Hf, Hj, Hp. destruct F as [F|F]; [now left|right]. unfold image_point. cbn [fst snd]. replace (-1 * vz x + 0) with (- vz x) by ring. exact F. }
    rewrite (bottom_entry elementary decomposition a h Hh Ad i j) by (try (rewrite Hp; exact Z); try exact F'; unfold c_source, c_images; rewrite Ha; reflexivity).
    rewrite J. cbn [snd zero3]. rewrite zero_plus. unfold c_wave. rewrite Ha. cbn [snd]. unfold extra_entry. rewrite Hs, Hk.
    destruct (gf_singularities s); cbn [snd zero3]; try (apply injective_projections; cbn; ring).
    rewrite (first_image_far a h Hh Ad i j) by exact F'. rewrite Hp, Hj. apply injective_projections; cbn; ring.
  Qed.

  (** ** The free surface *)
  Lemma surface_points k : 0 < k -> evaluate_with regs schedule s0 k0 s false PInf (Fin k) true false (OnPoints xs) qs = Ok (Some (Sm, Km)) ->
    vz x = 0 -> off_singularity k x q -> (gf_singularities s = LowFreqWithRankine \/ seen_as_point x q) ->
    exists gx gy, Km i j = [Some gx; Some gy; Some (Cmult (RtoC k) (Sm i j))].
  Proof.
    intros P E Z O F. destruct (point_entries _ _ E ltac:(right; eauto)) as (cs & pr & a & Ec & Ha & Hh & Hk & Ad & Hf & Hs & Hp & Hj & J & -> & ->).
    apply (coeffs_infinite _ _ _ P) in Ec. do 2 eexists. do 3 f_equal. f_equal. subst cs.
    assert (X : Cminus (snd (gradient_entry a i j)) (snd (jump_entry a i j)) = Cmult (RtoC k) (S_entry a i j)); [|rewrite <- X, J; unfold zero3, snd at 3; unfold Cminus; rewrite <- RtoC_opp, Ropp_0; symmetry; apply Cplus_0_r].
    assert (O' : off_surface a i j k).
    { unfold off_surface. rewrite Hp, Hj, Z, Rplus_0_l, !Rabs_mult, (Rabs_right k) by lra.
      destruct O as [O|O]; [left|right; exact O]. rewrite Rabs_right; [exact O|]. apply Rle_ge, sqrt_pos. }
    assert (Cs : c_source a = 1 /\ c_wave a = 1 /\ c_images a = match gf_singularities s with HighFreq => -1 | _ => 1 end).
    { unfold c_source, c_wave, c_images. rewrite Ha. now destruct (gf_singularities s). }
    destruct Cs as (C1 & C2 & C3).
    destruct (gf_singularities s) eqn:Es.
    - destruct F as [F|(F1 & F2 & F3)]; [discriminate|].
      apply (surface_far elementary decomposition a Hh Ad i j k); try assumption; rewrite ?Hp, ?Hj; try assumption. left; now split.
    - destruct F as [F|(F1 & F2 & F3)]; [discriminate|].
      apply (surface_far elementary decomposition a Hh Ad i j k); try assumption; rewrite ?Hp, ?Hj; try assumption. right; now split.
    - apply (surface_with_rankine elementary decomposition a Hh Ad i j k); try assumption; rewrite ?Hp; try assumption; congruence.
  Qed.
  Lemma defect_points k : 0 < k -> evaluate_with regs schedule s0 k0 s false PInf (Fin k) true false (OnPoints xs) qs = Ok (Some (Sm, Km)) ->
    vz x = 0 -> off_singularity k x q -> gf_singularities s = LowFreq -> (forall pw, In pw (sp_quad q) -> 0 < norm (vsub x (fst pw))) ->
    exists gx gy, Km i j = [Some gx; Some gy; Some (Cplus (Cmult (RtoC k) (Sm i j))
      (RtoC (scale4pi * (2 * k * (Rsum (map (fun pw => snd pw / norm (vsub x (fst pw))) (sp_quad q)) - fst (rankine_of true x q))))))].
  Proof.
    intros P E Z O Es Q. destruct (point_entries _ _ E ltac:(right; eauto)) as (cs & pr & a & Ec & Ha & Hh & Hk & Ad & Hf & Hs & Hp & Hj & J & -> & ->).
    apply (coeffs_infinite _ _ _ P) in Ec. do 2 eexists. do 3 f_equal. f_equal. subst cs. rewrite Es in Ha, Hs.
    assert (O' : off_surface a i j k).
    { unfold off_surface. rewrite Hp, Hj, Z, Rplus_0_l, !Rabs_mult, (Rabs_right k) by lra.
      destruct O as [O|O]; [left|right; exact O]. rewrite Rabs_right; [exact O|]. apply Rle_ge, sqrt_pos. }
    pose proof (surface_defect elementary decomposition a Hh Ad i j k) as D. rewrite Hp, Hj in D.
    specialize (D Z Hk P O' Hs). unfold c_source, c_images, c_wave in D. rewrite Ha in D. specialize (D eq_refl eq_refl eq_refl Q). rewrite J in D.
    rewrite <- D. generalize (snd (gradient_entry a i j)) (Cmult (RtoC k) (S_entry a i j)). intros [u1 u2] [v1 v2]. apply injective_projections; cbn; ring.
  Qed.
  Lemma surface_zero : evaluate_with regs schedule s0 k0 s false PInf (Fin 0) true false (OnPoints xs) qs = Ok (Some (Sm, Km)) -> vz x = 0 ->
    exists gx gy, Km i j = [Some gx; Some gy; Some (RtoC 0)].
  Proof.
    intros E Z. destruct (point_entries _ _ E ltac:(right; eauto)) as (cs & pr & a & Ec & Ha & Hh & Hk & Ad & Hf & Hs & Hp & Hj & J & _ & ->).
    do 2 eexists. do 3 f_equal. f_equal. unfold choose_coeffs in Ec. cbn [ext_eqb] in Ec. rewrite Reqb_refl in Ec. injection Ec as <- _.
    rewrite (proj1 (surface_limits elementary decomposition a i j Hh Ad ltac:(rewrite Hp; exact Z) ltac:(unfold c_wave; rewrite Ha; reflexivity)) ltac:(unfold c_source, c_images; rewrite Ha; reflexivity)).
    now rewrite J.
  Qed.
  Lemma surface_infinite : gf_singularities s <> LowFreqWithRankine -> evaluate_with regs schedule s0 k0 s false PInf PInf true false (OnPoints xs) qs = Ok (Some (Sm, Km)) -> vz x = 0 ->
    Sm i j = RtoC 0.
  Proof.
    intros Ns E Z. destruct (point_entries _ _ E ltac:(left; exact Ns)) as (cs & pr & a & Ec & Ha & Hh & Hk & Ad & Hf & Hs & Hp & Hj & J & -> & _).
    unfold choose_coeffs in Ec. cbn [ext_eqb] in Ec. injection Ec as <- _.
    apply (proj2 (surface_limits elementary decomposition a i j Hh Ad ltac:(rewrite Hp; exact Z) ltac:(unfold c_wave; rewrite Ha; reflexivity))). unfold c_source, c_images. rewrite Ha. cbn. ring.
  Qed.
End Points.

(** A call that returns. *)
Lemma run_exists elementary decomposition prony s h k m1 ps2 : 0 < k -> m1 <> Unrecognized -> allowed_panels s ps2 -> known_precision s = true ->
  (h = PInf \/ exists y, h = Fin y /\ prony (Fin (k * y)) = Ok tt) -> forall adj early,
  exists schedule Sm Km, evaluate_with rankine_of reflected_of one_point_of (wave_part elementary decomposition) prony [Registers Ci (None, None, None) 0 v0 0 Ci (Ci, Ci, Ci)] schedule
    (fun _ _ => Ci) (fun _ _ => []) s false h (Fin k) adj early m1 ps2 = Ok (Some (Sm, Km)).
Proof.
  intros P M A Kp Hh adj early. set (regs := [Registers Ci (None, None, None) 0 v0 0 Ci (Ci, Ci, Ci)]).
  destruct (call_finishes rankine_of reflected_of one_point_of (wave_part elementary decomposition) prony regs (fun _ _ => Ci) (fun _ _ => []) s false h (Fin k) adj early m1 ps2) as (n & Hn).
  exists (repeat (0%nat, 0%nat) (S n)).
  assert (T : forall t, (t < length regs)%nat -> (n < turns_of t (repeat (0%nat, 0%nat) (S n)))%nat).
  { intros t Ht. assert (t = 0%nat) by (cbn in Ht; lia). subst t. unfold turns_of. clear. assert (X : forall k, length (filter (fun e => fst e =? 0)%nat (repeat (0%nat, 0%nat) k)) = k).
    { induction k; [reflexivity|]. cbn. now rewrite IHk. } rewrite X. lia. }
  specialize (Hn _ T).
  destruct (outcomes rankine_of reflected_of one_point_of (wave_part elementary decomposition) prony regs (repeat (0%nat, 0%nat) (S n)) (fun _ _ => Ci) (fun _ _ => [])
    s h (Fin k) adj early m1 ps2 k _ eq_refl P ltac:(discriminate) Hn Hh eq_refl) as [(X & _)|[(_ & [X|X] & _)|(_ & _ & _ & Sm & Km & X & _)]].
  - contradiction.
  - contradiction.
  - congruence.
  - now exists Sm, Km.
Qed.
