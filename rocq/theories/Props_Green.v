(** C61: the influence of a face on another one is not changed when both are moved by a symmetry of the fluid domain. *)
From Coq Require Import Reals.
From Coquelicot Require Import Complex.
From Coq Require Import List Bool Arith Lra Lia Permutation.
From Verif Require Import Model_Base Model_Ring Spec_Ring Model_Block Spec_Block Model_Geometry Model_Mesh Spec_Mesh Proofs_Geometry Proofs_Mesh Proofs_Mesh3 Proofs_Integrals Proofs_Clip7
  Model_Quadrature Model_Tree Spec_Tree Model_Engine Spec_Quality Spec_Engine Model_LowRank Props_Tree Props_Engine
  Model_Assembly Spec_Assembly Model_Rankine Model_Wave Proofs_Rankine Proofs_Wave Spec_Green Proofs_Green Proofs_Green2.
Import ListNotations.
Open Scope R_scope.

(** The coefficients of the Green function of Delhommeau, at any frequency and depth, for any tabulation and any setting, respect
    the reflections in vertical planes, the horizontal translations and the rotations around vertical axes. *)
Theorem green_function_respects_symmetries :
  forall elementary decomposition c k, symmetric_scheme (c_quadrature c) -> upright_kind k ->
  respects flat_face (delhommeau elementary decomposition c) k.
Proof. exact (fun elementary decomposition c k S U => delhommeau_respects elementary decomposition c S k U). Qed.
Print Assumptions green_function_respects_symmetries.

(** The matrices returned by [evaluate] on two meshes are these coefficients. *)
Theorem evaluate_is_green_function :
  forall elementary decomposition prony regs schedule s0 k0 s no_surface h k adj m own ps1 ps2 Sm Km,
  evaluate_with rankine_of reflected_of one_point_of (wave_part elementary decomposition) prony regs schedule s0 k0 s no_surface h k adj true
    (OnMesh (map pn_props ps1) own) (map (source_of m) ps2) = Ok (Some (Sm, Km)) ->
  regs <> [] -> (gf_singularities s <> LowFreqWithRankine \/ exists x, k = Fin x) ->
  exists cs pr, choose_coeffs s no_surface h k = Ok (cs, pr)
  /\ let G := delhommeau elementary decomposition (Conditions (gf_singularities s) (gf_finite_depth s) cs k h adj m) in
     forall i j p q, nth_error ps1 i = Some p -> nth_error ps2 j = Some q ->
       Sm i j = fst (G (own && (i =? j)) p q) /\ Km i j = [Some (snd (G (own && (i =? j)) p q))].
Proof. exact evaluated_pairs. Qed.
Print Assumptions evaluate_is_green_function.

(** C20 for the actual Green function: the structured matrices of two symmetric meshes (or twice the same one) have the entries
    returned by [evaluate] on the whole meshes. *)
Theorem symmetric_meshes_give_evaluated_matrices :
  forall elementary decomposition prony regs schedule s0 k0 s no_surface h k adj m same t1 t2 ps1 ps2 Sm Km,
  (same = true -> t1 = t2) -> regular t1 -> regular t2 -> filled t1 -> filled t2 -> all_valid t1 -> all_valid t2 ->
  flat_faces t1 -> flat_faces t2 -> (forall k, In k (kinds t1 ++ kinds t2) -> upright_kind k) -> coherent (kinds t1 ++ kinds t2) ->
  symmetric_scheme m -> t_panels t1 = Ok ps1 -> t_panels t2 = Ok ps2 ->
  evaluate_with rankine_of reflected_of one_point_of (wave_part elementary decomposition) prony regs schedule s0 k0 s no_surface h k adj true
    (OnMesh (map pn_props ps1) same) (map (source_of m) ps2) = Ok (Some (Sm, Km)) ->
  regs <> [] -> (gf_singularities s <> LowFreqWithRankine \/ exists x, k = Fin x) ->
  exists cs pr S K fS fK, choose_coeffs s no_surface h k = Ok (cs, pr)
  /\ basic_matrices (delhommeau elementary decomposition (Conditions (gf_singularities s) (gf_finite_depth s) cs k h adj m)) same t1 t2 = Ok (S, K)
  /\ full_matrix S = Ok fS /\ full_matrix K = Ok fK
  /\ forall i j, (i < length ps1)%nat -> (j < length ps2)%nat -> fS i j = Some (Sm i j) /\ Km i j = [fK i j].
Proof.
  intros el de prony regs schedule s0 k0 s ns h k adj m same t1 t2 ps1 ps2 Sm Km HS R1 R2 F1 F2 V1 V2 P1 P2 U Co Sy E1 E2 Ev Ne Us.
  destruct (evaluated_pairs el de prony _ _ _ _ _ _ _ _ _ _ _ _ _ _ _ Ev Ne Us) as (cs & pr & Ec & X). cbv zeta in X. exists cs, pr.
  set (c := Conditions _ _ _ _ _ _ _) in X |- *.
  destruct (basic_engine_is_dense complexes flat_face (delhommeau el de c) t1 t2 same HS R1 R2 F1 F2 V1 V2 (flat_faces_in _ P1) (flat_faces_in _ P2)
    (fun x Hx => delhommeau_respects el de c Sy x (U x Hx)) Co) as (S & K & S0 & K0 & Eb & Ee & H1 & H2).
  destruct (dense_values (delhommeau el de c) same t1 t2 ps1 ps2 S0 K0 S K E1 E2 Ee H1 H2) as (fS & fK & FS & FK & Y).
  exists S, K, fS, fK. split; [exact Ec|]. split; [exact Eb|]. split; [exact FS|]. split; [exact FK|].
  intros i j Hi Hj. apply nth_error_Some in Hi, Hj. destruct (nth_error ps1 i) as [p|] eqn:Ep; [|congruence]. destruct (nth_error ps2 j) as [q|] eqn:Eq; [|congruence].
  destruct (X i j p q Ep Eq) as (X1 & X2). destruct (Y i j p q Ep Eq) as (Y1 & Y2). rewrite X1, X2, Y1, Y2. split; reflexivity.
Qed.
Print Assumptions symmetric_meshes_give_evaluated_matrices.
(** The same for the hierarchical engine, when the low rank approximation is not used. *)
Theorem symmetric_meshes_give_evaluated_hierarchical_matrices :
  forall elementary decomposition prony regs schedule s0 k0 s no_surface h k adj m same t1 t2 ps1 ps2 Sm Km argsort ACA_distance,
  0 <= ACA_distance -> sorts argsort -> faced t1 -> faced t2 ->
  (same = true -> t1 = t2) -> regular t1 -> regular t2 -> filled t1 -> filled t2 -> all_valid t1 -> all_valid t2 ->
  flat_faces t1 -> flat_faces t2 -> (forall k, In k (kinds t1 ++ kinds t2) -> upright_kind k) -> coherent (kinds t1 ++ kinds t2) ->
  symmetric_scheme m -> t_panels t1 = Ok ps1 -> t_panels t2 = Ok ps2 ->
  evaluate_with rankine_of reflected_of one_point_of (wave_part elementary decomposition) prony regs schedule s0 k0 s no_surface h k adj true
    (OnMesh (map pn_props ps1) same) (map (source_of m) ps2) = Ok (Some (Sm, Km)) ->
  regs <> [] -> (gf_singularities s <> LowFreqWithRankine \/ exists x, k = Fin x) ->
  exists cs pr S K fS fK, choose_coeffs s no_surface h k = Ok (cs, pr)
  /\ hierarchical_matrices (delhommeau elementary decomposition (Conditions (gf_singularities s) (gf_finite_depth s) cs k h adj m)) argsort ACA_distance no_aca same t1 t2 = Ok (S, K)
  /\ full_matrix S = Ok fS /\ full_matrix K = Ok fK
  /\ forall i j, (i < length ps1)%nat -> (j < length ps2)%nat -> fS i j = Some (Sm i j) /\ Km i j = [fK i j].
Proof.
  intros el de prony regs schedule s0 k0 s ns h k adj m same t1 t2 ps1 ps2 Sm Km argsort dist Hd Hs B1 B2 HS R1 R2 F1 F2 V1 V2 P1 P2 U Co Sy E1 E2 Ev Ne Us.
  destruct (evaluated_pairs el de prony _ _ _ _ _ _ _ _ _ _ _ _ _ _ _ Ev Ne Us) as (cs & pr & Ec & X). cbv zeta in X. exists cs, pr.
  set (c := Conditions _ _ _ _ _ _ _) in X |- *.
  destruct (hierarchical_engine_exact_without_aca complexes flat_face (delhommeau el de c) argsort dist t1 t2 same Hd Hs HS R1 R2 F1 F2 V1 V2 B1 B2 (flat_faces_in _ P1) (flat_faces_in _ P2)
    (fun x Hx => delhommeau_respects el de c Sy x (U x Hx)) Co) as (S & K & S0 & K0 & Eb & Ee & H1 & H2).
  destruct (dense_values (delhommeau el de c) same t1 t2 ps1 ps2 S0 K0 S K E1 E2 Ee H1 H2) as (fS & fK & FS & FK & Y).
  exists S, K, fS, fK. split; [exact Ec|]. split; [exact Eb|]. split; [exact FS|]. split; [exact FK|].
  intros i j Hi Hj. apply nth_error_Some in Hi, Hj. destruct (nth_error ps1 i) as [p|] eqn:Ep; [|congruence]. destruct (nth_error ps2 j) as [q|] eqn:Eq; [|congruence].
  destruct (X i j p q Ep Eq) as (X1 & X2). destruct (Y i j p q Ep Eq) as (Y1 & Y2). rewrite X1, X2, Y1, Y2. split; reflexivity.
Qed.
Print Assumptions symmetric_meshes_give_evaluated_hierarchical_matrices.

(** The four triangles of [ex_quarters] and its two vertical planes; the schemes of the code. *)
Lemma unit_triangle a b c : norm (cross (vsub b a) (vsub c a)) = 1 -> p_area (props_of true (Q a b c a)) = 1 / 2.
Proof.
  intros N. unfold props_of, tri_props. cbn [qa qb qc qd]. rewrite N, (Rabs_right 1), (proj2 (Rltb_false 1 _)) by (unfold degenerate_tol; lra). reflexivity.
Qed.
Example flat_ex : flat_faces ex_quarters /\ (forall k, In k (kinds ex_quarters ++ kinds ex_quarters) -> upright_kind k).
Proof.
  split.
  - intros m f q Hm Hf Hq. cbn in Hm.
    destruct Hm as [<-|[<-|[<-|[<-|[]]]]]; cbn in Hf; destruct Hf as [<-|[]]; cbn in Hq; apply Ok_inj' in Hq; subst q; (split; [|left; reflexivity]);
      cbn [is_tri fa fd Nat.eqb]; rewrite unit_triangle; try lra;
      (apply norm_of; [lra|]; unfold mirror_point, pl_c, dot, cross, vsub, vscale, xOz, yOz; cbn; ring).
  - intros k H. assert (k = Reflection xOz \/ k = Reflection yOz) as [->| ->].
    { unfold ex_quarters, ex_reflection, ex_half in H. rewrite yOz_mirrored in H. cbn in H. intuition congruence. }
    + split; [exact xOz_proper|reflexivity].
    + split; [exact yOz_proper|reflexivity].
Qed.
Example schemes_ex : symmetric_scheme None /\ symmetric_scheme (Some first_order) /\ symmetric_scheme (Some gauss_legendre_2).
Proof.
  split; [exact I|]. split; cbn.
  - rewrite Ropp_0. apply Permutation_refl.
  - rewrite !Ropp_involutive. refine (perm_trans _ (Permutation_app_comm [_; _] [_; _])). apply Permutation_refl.
Qed.
(** A run of [evaluate] on these meshes, without free surface: one thread. *)
Definition ex_conditions := Settings LowFreq LegacyDepth true.
Example green_ex elementary decomposition prony : exists ps schedule Sm Km, t_panels ex_quarters = Ok ps /\ length ps = 4%nat
  /\ evaluate_with rankine_of reflected_of one_point_of (wave_part elementary decomposition) prony [Registers Ci (None, None, None) 0 v0 0 Ci (Ci, Ci, Ci)] schedule
       (fun _ _ => Ci) (fun _ _ => []) ex_conditions false PInf (Fin 1) true true (OnMesh (map pn_props ps) true) (map (source_of None) ps) = Ok (Some (Sm, Km)).
Proof.
  destruct (t_panels ex_quarters) as [ps|] eqn:E; [|discriminate E].
  assert (L : length ps = 4%nat) by (cbn in E; apply Ok_inj' in E; subst ps; reflexivity).
  set (regs := [Registers Ci (None, None, None) 0 v0 0 Ci (Ci, Ci, Ci)]).
  destruct (Proofs_Assembly5.call_finishes rankine_of reflected_of one_point_of (wave_part elementary decomposition) prony regs (fun _ _ => Ci) (fun _ _ => []) ex_conditions false PInf (Fin 1) true true
    (OnMesh (map pn_props ps) true) (map (source_of None) ps)) as (n & Hn).
  exists ps, (repeat (0%nat, 0%nat) (S n)).
  assert (T : forall t, (t < length regs)%nat -> (n < turns_of t (repeat (0%nat, 0%nat) (S n)))%nat).
  { intros t Ht. assert (t = 0%nat) by (cbn in Ht; lia). subst t. unfold turns_of. clear. assert (X : forall k, length (filter (fun e => fst e =? 0) (repeat (0%nat, 0%nat) k)) = k).
    { induction k; [reflexivity|]. cbn. now rewrite IHk. } rewrite X. lia. }
  specialize (Hn _ T).
  destruct (Proofs_Assembly5.outcomes rankine_of reflected_of one_point_of (wave_part elementary decomposition) prony regs (repeat (0%nat, 0%nat) (S n)) (fun _ _ => Ci) (fun _ _ => [])
    ex_conditions PInf (Fin 1) true true (OnMesh (map pn_props ps) true) (map (source_of None) ps) 1 (1, 1, 1) eq_refl) as [(X & _)|[(_ & [X|X] & _)|(_ & _ & _ & Sm & Km & X & _)]].
  - lra.
  - discriminate.
  - exact Hn.
  - now left.
  - reflexivity.
  - discriminate.
  - exfalso. apply X. now left.
  - discriminate.
  - exists Sm, Km. split; [reflexivity|]. split; [exact L|exact X].
Qed.

(** Without free surface, every isometry keeps the influence of a face on another one. *)
Theorem unbounded_fluid_respects_isometries :
  forall elementary decomposition c tri1 tri2 q1 q2, symmetric_scheme (c_quadrature c) -> without_images c -> flat_face tri1 q1 -> flat_face tri2 q2 ->
  let G := delhommeau elementary decomposition c in
  (forall v, let f := moved_quad (fun x => vadd x v) in G false (panel_of tri1 (f q1)) (panel_of tri2 (f q2)) = G false (panel_of tri1 q1) (panel_of tri2 q2))
  /\ (forall a theta, proper_axis a -> let f := moved_quad (rotate_point a theta) in
      G false (panel_of tri1 (f q1)) (panel_of tri2 (f q2)) = G false (panel_of tri1 q1) (panel_of tri2 q2))
  /\ (forall p, proper_plane p -> let f := mirrored_quad p in G false (panel_of tri1 (f q1)) (panel_of tri2 (f q2)) = G false (panel_of tri1 q1) (panel_of tri2 q2)).
Proof.
  intros el de c tri1 tri2 q1 q2 Sc W F1 F2 G. split; [|split].
  - intros v. exact (delhommeau_source el de c Sc _ _ _ (translation_isometry v) (moved_translation v) false tri1 tri2 q1 q2 F1 F2 W ltac:(discriminate)).
  - intros a th U. exact (delhommeau_source el de c Sc _ _ _ (rotation_isometry a th U) (fun tri q => moved_rotation a th tri q U) false tri1 tri2 q1 q2 F1 F2 W ltac:(discriminate)).
  - intros p U. exact (delhommeau_source el de c Sc _ _ _ (mirror_is_isometry p U) (fun tri q => moved_mirror p tri q U) false tri1 tri2 q1 q2 F1 F2 W ltac:(discriminate)).
Qed.
Print Assumptions unbounded_fluid_respects_isometries.

(** C61 is false for the influence of a face on itself without free surface: the faces whose center is at the height 0 are taken for
    faces on the free surface, although there is none. Moving the body up or down changes the diagonal of the matrix. *)
Theorem unbounded_fluid_diagonal_refuted :
  forall elementary decomposition c tri q d, symmetric_scheme (c_quadrature c) -> without_images c -> flat_face tri q ->
  vz (p_center (props_of tri q)) = 0 -> / 100000000 <= Rabs d ->
  let n := p_normal (props_of tri q) in let q' := moved_quad (fun x => vadd x (V 0 0 d)) q in let G := delhommeau elementary decomposition c in
  fst (G true (panel_of tri q') (panel_of tri q')) = fst (G true (panel_of tri q) (panel_of tri q))
  /\ snd (G true (panel_of tri q) (panel_of tri q)) = Cplus (snd (G true (panel_of tri q') (panel_of tri q'))) (RtoC (1 / 2 * dot n n)).
Proof. exact (fun el de c tri q d Sc W F Z D => unbounded_jump el de c tri q d Sc W F Z D). Qed.
Print Assumptions unbounded_fluid_diagonal_refuted.
(** A triangle in the plane z = 0; a vertical square whose center is at the height 0 would do as well. *)
Example diagonal_ex : let q := Q (V 1 0 0) (V 2 0 0) (V 1 1 0) (V 1 0 0) in
  flat_face true q /\ vz (p_center (props_of true q)) = 0 /\ p_normal (props_of true q) = V 0 0 1
  /\ choose_coeffs ex_conditions true PInf (Fin 1) = Ok ((1, 0, 0), false).
Proof.
  cbv zeta. assert (N : norm (cross (vsub (V 2 0 0) (V 1 0 0)) (vsub (V 1 1 0) (V 1 0 0))) = 1) by (apply norm_of; [lra|unfold dot, cross, vsub; cbn; ring]).
  split; [split; [rewrite unit_triangle by exact N; lra|split; [reflexivity|now left]]|].
  unfold props_of, tri_props. cbn [qa qb qc qd]. rewrite N, (Rabs_right 1), (proj2 (Rltb_false 1 _)) by (unfold degenerate_tol; lra). cbn [p_center p_normal].
  split; [unfold vscale, vadd; cbn; field|]. split; [unfold vscale, cross, vsub; cbn; apply vec_ext; cbn; field|reflexivity].
Qed.
