(** Proofs about the Green function on pairs of faces: the matrices of [Delhommeau.evaluate]. *)
From Coq Require Import Reals.
From Coquelicot Require Import Complex.
From Coq Require Import List Bool Arith Lra Lia Permutation.
From Verif Require Import Model_Base Model_Ring Spec_Ring Model_Block Spec_Block Model_Geometry Model_Mesh Spec_Mesh Proofs_Geometry Proofs_Mesh Proofs_Mesh2 Proofs_Mesh3 Proofs_Integrals
  Model_Quadrature Model_Tree Spec_Tree Model_Engine Spec_Engine Proofs_Engine5 Model_Assembly Spec_Assembly Proofs_Assembly5 Model_Rankine Model_Wave Proofs_Rankine Proofs_Wave Spec_Green Proofs_Green.
Import ListNotations.
Open Scope R_scope.

Lemma flat_faces_in t : flat_faces t -> faces_in flat_face t.
Proof.
  intros F m f q Hm Hf E. destruct (F m f q Hm Hf E) as (N & P). split; [exact N|]. split; [|exact P].
  unfold is_tri. intros T. apply Nat.eqb_eq in T. destruct (face_points_ok _ _ _ E) as (A1 & _ & _ & A4). rewrite T, A4 in A1. congruence.
Qed.

Section Evaluate.
  Variable elementary : R -> R -> integrals.
  Variable decomposition : R -> list (R * R).
  Variable prony : ext -> result unit.
  Notation w := (wave_part elementary decomposition).
  Notation evaluate_with := (evaluate_with rankine_of reflected_of one_point_of w prony).

  Lemma evaluated_entries regs schedule s0 k0 s no_surface h k adj early m1 ps2 Sm Km :
    evaluate_with regs schedule s0 k0 s no_surface h k adj early m1 ps2 = Ok (Some (Sm, Km)) -> regs <> [] ->
    (gf_singularities s <> LowFreqWithRankine \/ exists x, k = Fin x) ->
    exists cs pr, choose_coeffs s no_surface h k = Ok (cs, pr) /\ m1 <> Unrecognized /\
    let a := arguments s m1 ps2 cs (points_of m1) (normals_of m1 ps2 adj) h k adj early in
    forall i j, (i < length (points_of m1))%nat -> (j < length ps2)%nat ->
      Sm i j = S_entry rankine_of reflected_of one_point_of w a i j /\ Km i j = map Some (K_entry rankine_of reflected_of one_point_of w a i j).
  Proof.
    intros E N U. unfold Model_Assembly.evaluate_with in E.
    destruct (choose_coeffs s no_surface h k) as [[cs pr]|] eqn:Ec; [|discriminate]. cbn [bind fst snd] in E.
    destruct (if pr then _ else _) as [u|]; [|discriminate]. cbn [bind] in E.
    assert (M : m1 <> Unrecognized) by (intros ->; discriminate). rewrite (colocation_of m1 ps2 adj M) in E. cbn [bind fst snd] in E.
    destruct (_ && _) in E; [discriminate|]. destruct (negb _) in E; [discriminate|].
    destruct (forallb _ _) eqn:Ef in E; [|discriminate]. destruct (existsb _ _) in E; [discriminate|].
    apply finished_test in Ef. exists cs, pr. split; [reflexivity|]. split; [exact M|]. intros a i j Hi Hj.
    destruct (assembled rankine_of reflected_of one_point_of w a regs s0 k0 schedule N Ef) as (_ & _ & X & _).
    destruct (X i j Hi Hj) as (X1 & X2). injection E as <- <-. split; [exact X1|]. apply X2. exact U.
  Qed.

  Lemma evaluated_pairs regs schedule s0 k0 s no_surface h k adj m own ps1 ps2 Sm Km :
    evaluate_with regs schedule s0 k0 s no_surface h k adj true (OnMesh (map pn_props ps1) own) (map (source_of m) ps2) = Ok (Some (Sm, Km)) -> regs <> [] ->
    (gf_singularities s <> LowFreqWithRankine \/ exists x, k = Fin x) ->
    exists cs pr, choose_coeffs s no_surface h k = Ok (cs, pr)
    /\ let G := delhommeau elementary decomposition (Conditions (gf_singularities s) (gf_finite_depth s) cs k h adj m) in
       forall i j p q, nth_error ps1 i = Some p -> nth_error ps2 j = Some q ->
         Sm i j = fst (G (own && (i =? j)) p q) /\ Km i j = [Some (snd (G (own && (i =? j)) p q))].
  Proof.
    intros E N U. destruct (evaluated_entries _ _ _ _ _ _ _ _ _ _ _ _ _ _ E N U) as (cs & pr & Ec & _ & X). exists cs, pr. split; [exact Ec|].
    cbv zeta in X |- *. intros i j p q Hp Hq.
    assert (Li : (i < length ps1)%nat) by (apply nth_error_Some; congruence). assert (Lj : (j < length ps2)%nat) by (apply nth_error_Some; congruence).
    destruct (X i j) as (X1 & X2); [cbn; now rewrite !map_length|now rewrite map_length|]. rewrite X1, X2.
    set (a := arguments _ _ _ _ _ _ _ _ _ _).
    set (c := Conditions _ _ _ _ _ _ _). set (a' := pair_arguments c (own && (i =? j)) p q).
    assert (P1 : points_1 a i = points_1 a' 0%nat).
    { cbn. rewrite map_map. change v0 with (p_center (FProps 0 v0 v0 0)). apply nth_nth. rewrite nth_error_map, Hp. reflexivity. }
    assert (P2 : panels_2 a j = panels_2 a' 0%nat).
    { cbn. apply nth_nth. rewrite nth_error_map, Hq. reflexivity. }
    assert (P3 : dot_normals a (if adj then i else j) = dot_normals a' 0%nat).
    { cbn. destruct adj; apply nth_nth; cbn [normals_of]; rewrite !map_map, nth_error_map.
      - now rewrite Hp.
      - now rewrite Hq. }
    assert (S1 : S_entry rankine_of reflected_of one_point_of w a i j = S_entry rankine_of reflected_of one_point_of w a' 0 0).
    { unfold S_entry. rewrite P1, P2. reflexivity. }
    assert (S2 : gradient_entry rankine_of reflected_of one_point_of w a i j = gradient_entry rankine_of reflected_of one_point_of w a' 0 0).
    { unfold gradient_entry. rewrite P1, P2. f_equal. unfold jump_entry. rewrite P2. change (adjoint a) with adj. rewrite P3. rewrite Nat.eqb_refl.
      change (same_body a) with own. change (same_body a') with (own && (i =? j)). change (adjoint a') with adj. cbn [andb]. rewrite andb_comm. now destruct adj. }
    split; [exact S1|]. unfold K_entry. change (early_dot a) with true. cbv iota. rewrite S2. change (adjoint a) with adj. rewrite P3. reflexivity.
  Qed.
End Evaluate.

Lemma full_dense {A : coeffs} h w (f : nat -> nat -> A) : exists a, full_matrix (Dense h w f) = Ok a /\ forall i j, (i < h)%nat -> (j < w)%nat -> a i j = Some (f i j).
Proof.
  eexists. split; [reflexivity|]. intros i j Hi Hj. unfold blit. cbn [Nat.add].
  rewrite (proj2 (Nat.leb_le 0 i)), (proj2 (Nat.ltb_lt i h)), (proj2 (Nat.leb_le 0 j)), (proj2 (Nat.ltb_lt j w)) by lia. cbn [andb]. now rewrite !Nat.sub_0_r.
Qed.

Lemma dense_values {A : coeffs} (G : bool -> panel -> panel -> A * A) same t1 t2 ps1 ps2 S0 K0 S K :
  t_panels t1 = Ok ps1 -> t_panels t2 = Ok ps2 -> evaluate G same t1 t2 = Ok (S0, K0) -> same_entries eq S S0 -> same_entries eq K K0 ->
  exists fS fK, full_matrix S = Ok fS /\ full_matrix K = Ok fK
  /\ forall i j p q, nth_error ps1 i = Some p -> nth_error ps2 j = Some q ->
     fS i j = Some (fst (G (same && (i =? j)) p q)) /\ fK i j = Some (snd (G (same && (i =? j)) p q)).
Proof.
  intros E1 E2 E H1 H2. unfold evaluate in E. rewrite E1, E2 in E. cbn [bind] in E. apply Ok_inj' in E.
  assert (ES : dense G same ps1 ps2 fst = S0) by congruence. assert (EK : dense G same ps1 ps2 snd = K0) by congruence. subst S0 K0.
  destruct H1 as (Sh1 & a & a0 & F & F0 & X). destruct H2 as (Sh2 & b & b0 & F' & F0' & Y). exists a, b. split; [exact F|]. split; [exact F'|].
  intros i j p q Hp Hq.
  assert (Li : (i < length ps1)%nat) by (apply nth_error_Some; congruence). assert (Lj : (j < length ps2)%nat) by (apply nth_error_Some; congruence).
  assert (C : coefficient G same ps1 ps2 i j = Some (G (same && (i =? j)) p q)) by (unfold coefficient; now rewrite Hp, Hq).
  destruct (full_dense (length ps1) (length ps2) (fun i j => match coefficient G same ps1 ps2 i j with Some x => fst x | None => junk end)) as (a1 & Ea & Va).
  destruct (full_dense (length ps1) (length ps2) (fun i j => match coefficient G same ps1 ps2 i j with Some x => snd x | None => junk end)) as (b1 & Eb & Vb).
  unfold dense in F0, F0'. rewrite Ea in F0. rewrite Eb in F0'. apply Ok_inj' in F0, F0'. subst a1 b1.
  assert (HS : (height S, width S) = (length ps1, length ps2)) by (etransitivity; [|exact Sh1]; unfold height, width; now destruct (shape S)).
  assert (HK : (height K, width K) = (length ps1, length ps2)) by (etransitivity; [|exact Sh2]; unfold height, width; now destruct (shape K)).
  destruct (X i j) as (x & x0 & Hx & Hx0 & ->); [replace (height S) with (length ps1) by congruence; exact Li|replace (width S) with (length ps2) by congruence; exact Lj|].
  destruct (Y i j) as (y & y0 & Hy & Hy0 & ->); [replace (height K) with (length ps1) by congruence; exact Li|replace (width K) with (length ps2) by congruence; exact Lj|].
  rewrite Va in Hx0 by assumption. rewrite Vb in Hy0 by assumption. rewrite C in Hx0, Hy0. split; congruence.
Qed.

(** ** The jump at the free surface without free surface *)
Lemma plus_along n x y : along n (plus3 x y) = Cplus (along n x) (along n y).
Proof. unfold along, plus3. apply injective_projections; cbn; ring. Qed.
Lemma jump_along k n : along n (times3 k (real3 n)) = RtoC (k * dot n n).
Proof. unfold along, times3, real3, dot. apply injective_projections; cbn; ring. Qed.
Section Jump.
  Variable elementary : R -> R -> integrals.
  Variable decomposition : R -> list (R * R).
  Variable c : conditions.
  Notation G := (delhommeau elementary decomposition c).
  Lemma own_jump p q : snd (G true p q) = Cplus (snd (G false p q))
    (RtoC ((if Rltb (Rabs (vz (p_center (pn_props q)))) (/ 100000000) then 1 else 1 / 2)
           * dot (p_normal (pn_props (if c_adjoint c then p else q))) (p_normal (pn_props (if c_adjoint c then p else q))))).
  Proof.
    unfold delhommeau. cbn [snd]. unfold gradient_entry at 1 2. rewrite !plus_along.
    match goal with |- Cplus ?j ?x = Cplus (Cplus ?z ?y) ?k =>
      assert (Ez : z = RtoC 0); [|assert (Ej : j = k); [|assert (Ey : x = y) by reflexivity; rewrite Ez, Ej, Ey]] end.
    - unfold jump_entry. cbn. unfold along, zero3. apply injective_projections; cbn; ring.
    - unfold jump_entry. cbn [same_body pair_arguments andb Nat.eqb adjoint dot_normals panels_2 source_of sp_props].
      replace (if if c_adjoint c then true else true then true else true) with true by (now destruct (c_adjoint c)). rewrite jump_along. reflexivity.
    - apply injective_projections; cbn; ring.
  Qed.
  Lemma unbounded_jump tri q d : symmetric_scheme (c_quadrature c) -> without_images c -> flat_face tri q ->
    vz (p_center (props_of tri q)) = 0 -> / 100000000 <= Rabs d ->
    let n := p_normal (props_of tri q) in let q' := moved_quad (fun x => vadd x (V 0 0 d)) q in
    fst (G true (panel_of tri q') (panel_of tri q')) = fst (G true (panel_of tri q) (panel_of tri q))
    /\ snd (G true (panel_of tri q) (panel_of tri q)) = Cplus (snd (G true (panel_of tri q') (panel_of tri q'))) (RtoC (1 / 2 * dot n n)).
  Proof.
    intros Sc W F Z D n q'.
    assert (M := moved_translation (V 0 0 d) tri q F). destruct M as (_ & En & Ec & _).
    assert (E : G false (panel_of tri q') (panel_of tri q') = G false (panel_of tri q) (panel_of tri q)).
    { apply (delhommeau_source elementary decomposition c Sc _ _ _ (translation_isometry (V 0 0 d)) (moved_translation (V 0 0 d)) false tri tri q q F F W). discriminate. }
    split.
    - change (fst (G true (panel_of tri q') (panel_of tri q'))) with (fst (G false (panel_of tri q') (panel_of tri q'))). rewrite E. reflexivity.
    - rewrite !own_jump, E. cbn [pn_props panel_of].
      change (image_quad (fun x => vadd x (V 0 0 d)) true q) with q' in En, Ec. rewrite Ec.
      replace (vz (vadd (p_center (props_of tri q)) (V 0 0 d))) with d by (unfold vadd; cbn; rewrite Z; ring).
      rewrite Z, Rabs_R0, (proj2 (Rltb_true 0 _)) by lra. rewrite (proj2 (Rltb_false (Rabs d) _)) by lra.
      replace (p_normal (pn_props (if c_adjoint c then panel_of tri q else panel_of tri q))) with n by (now destruct (c_adjoint c)).
      replace (p_normal (pn_props (if c_adjoint c then panel_of tri q' else panel_of tri q'))) with n by (destruct (c_adjoint c); symmetry; exact En).
      apply injective_projections; cbn; [field|ring].
  Qed.
End Jump.
