(** C20: the matrices built from the symmetries of a mesh are those of the dense assembly.
    C11: the potential on a mesh does not depend on the size of the chunks. *)
From Coq Require Import Reals.
From Coquelicot Require Import Complex.
From Coq Require Import List Bool ZArith Arith Lia Lra.
From Verif Require Import Model_Base Model_Ring Spec_Ring Model_Block Spec_Block Proofs_Block Proofs_Block2 Model_Geometry Proofs_Geometry
  Model_Mesh Spec_Mesh Proofs_Mesh Model_Quality Spec_Quality Model_Tree Spec_Tree Proofs_Tree Proofs_Symmetry Proofs_Tree2 Model_Engine Spec_Engine
  Proofs_Engine Proofs_Engine2 Proofs_Engine3 Proofs_Engine4 Proofs_Engine5 Proofs_Engine6 Proofs_Engine7
  Props_Geometry Props_Quality Props_Tree.
Import ListNotations.
Open Scope nat_scope.

(** ** The basic engine *)

(** Two meshes (or twice the same one), each of them made of nested symmetries: the structured matrices have the
    entries of the dense ones, for every Green function that respects the symmetries. *)
Theorem basic_engine_is_dense :
  forall (A : coeffs) (P : bool -> quad -> Prop) (G : bool -> panel -> panel -> A * A) t1 t2 same,
  (same = true -> t1 = t2) -> regular t1 -> regular t2 -> filled t1 -> filled t2 -> all_valid t1 -> all_valid t2 ->
  faces_in P t1 -> faces_in P t2 -> (forall k, In k (kinds t1 ++ kinds t2) -> respects P G k) -> coherent (kinds t1 ++ kinds t2) ->
  exists S K S0 K0, basic_matrices G same t1 t2 = Ok (S, K) /\ evaluate G same t1 t2 = Ok (S0, K0)
    /\ same_entries eq S S0 /\ same_entries eq K K0.
Proof.
  intros A P G t1 t2 same HS HR1 HR2 F1 F2 V1 V2 P1 P2 HG HC.
  destruct (raw_total t1 F1 V1) as [r1 E1]. destruct (raw_total t2 F2 V2) as [r2 E2].
  destruct (basic_good P G eq (fun x => eq_refl) (kinds t1 ++ kinds t2) HG HC t1 HR1 ltac:(now apply incl_appl, incl_refl) t2 same r1 r2 HR2
    ltac:(now apply incl_appr, incl_refl) HS E1 E2 (faces_within P t1 r1 E1 P1) (faces_within P t2 r2 E2 P2)) as ([S K] & Esk & Gsk).
  destruct (evaluate_good G eq (fun x => eq_refl) same t1 t2 r1 r2 E1 E2) as ([S0 K0] & Esk0 & Gsk0).
  exists S, K, S0, K0. split; [exact Esk|]. split; [exact Esk0|]. split.
  - exact (good_entries G eq true same r1 r2 _ _ (Gsk true) (Gsk0 true)).
  - exact (good_entries G eq false same r1 r2 _ _ (Gsk false) (Gsk0 false)).
Qed.
Print Assumptions basic_engine_is_dense.

(** ** The hierarchical engine *)

(** The low rank approximations are close to the exact interactions ([rel]); all the other entries are exact. *)
Theorem hierarchical_engine_is_dense :
  forall (A : coeffs) (P : bool -> quad -> Prop) (G : bool -> panel -> panel -> A * A) (rel : A -> A -> Prop) argsort ACA_distance aca t1 t2 same,
  (forall x, rel x x) -> (0 <= ACA_distance)%R -> sorts argsort -> accurate rel aca -> responsive aca ->
  (same = true -> t1 = t2) -> regular t1 -> regular t2 -> filled t1 -> filled t2 -> all_valid t1 -> all_valid t2 ->
  faced t1 -> faced t2 ->
  faces_in P t1 -> faces_in P t2 -> (forall k, In k (kinds t1 ++ kinds t2) -> respects P G k) -> coherent (kinds t1 ++ kinds t2) ->
  exists S K S0 K0, hierarchical_matrices G argsort ACA_distance aca same t1 t2 = Ok (S, K) /\ evaluate G same t1 t2 = Ok (S0, K0)
    /\ same_entries rel S S0 /\ same_entries rel K K0.
Proof.
  intros A P G rel argsort ACA_distance aca t1 t2 same Hr Hd Hs Ha Hresp HS HR1 HR2 F1 F2 V1 V2 B1 B2 P1 P2 HG HC.
  destruct (raw_total t1 F1 V1) as [r1 E1]. destruct (raw_total t2 F2 V2) as [r2 E2].
  destruct (hier_total G argsort Hs ACA_distance aca Hresp t1 HR1 B1 t2 same r1 r2 HR2 B2 E1 E2) as [[S K] Esk].
  pose proof (hier_good P G rel Hr (kinds t1 ++ kinds t2) HG HC argsort ACA_distance Hd aca Ha t1 HR1 ltac:(now apply incl_appl, incl_refl)
    t2 same r1 r2 _ HR2 ltac:(now apply incl_appr, incl_refl) HS E1 E2 (faces_within P t1 r1 E1 P1) (faces_within P t2 r2 E2 P2) Esk) as Gsk.
  destruct (evaluate_good G eq (fun x => eq_refl) same t1 t2 r1 r2 E1 E2) as ([S0 K0] & Esk0 & Gsk0).
  exists S, K, S0, K0. split; [exact Esk|]. split; [exact Esk0|]. split.
  - exact (good_entries G rel true same r1 r2 _ _ (Gsk true) (Gsk0 true)).
  - exact (good_entries G rel false same r1 r2 _ _ (Gsk false) (Gsk0 false)).
Qed.
Print Assumptions hierarchical_engine_is_dense.
(** When the approximation is never used (or never converges), the entries are exact. *)
Definition no_aca {A : coeffs} (_ _ : nat -> result (mat A * mat A)) (_ _ : nat) : result (option (mat A * mat A)) := Ok None.
Theorem hierarchical_engine_exact_without_aca :
  forall (A : coeffs) (P : bool -> quad -> Prop) (G : bool -> panel -> panel -> A * A) argsort ACA_distance t1 t2 same,
  (0 <= ACA_distance)%R -> sorts argsort ->
  (same = true -> t1 = t2) -> regular t1 -> regular t2 -> filled t1 -> filled t2 -> all_valid t1 -> all_valid t2 ->
  faced t1 -> faced t2 ->
  faces_in P t1 -> faces_in P t2 -> (forall k, In k (kinds t1 ++ kinds t2) -> respects P G k) -> coherent (kinds t1 ++ kinds t2) ->
  exists S K S0 K0, hierarchical_matrices G argsort ACA_distance no_aca same t1 t2 = Ok (S, K) /\ evaluate G same t1 t2 = Ok (S0, K0)
    /\ same_entries eq S S0 /\ same_entries eq K K0.
Proof.
  intros A P G argsort ACA_distance t1 t2 same Hd Hs. apply hierarchical_engine_is_dense; try assumption.
  - reflexivity.
  - intros rows cols n1 n2 FS FK S K _ _ H. discriminate.
  - intros rows cols n1 n2 _ _. now exists None.
Qed.
Print Assumptions hierarchical_engine_exact_without_aca.

(** ** Which meshes *)

(** The meshes built by the constructors from parts without symmetries. *)
Theorem built_meshes_are_regular :
  forall part t, unstructured part ->
  (exists p, ReflectionSymmetricMesh part p = Ok t) \/ (exists v i n, TranslationalSymmetricMesh part v i n = Ok t)
    \/ (exists a n, AxialSymmetricMesh part a n = Ok t) ->
  regular t.
Proof.
  intros part t U H. assert (Hs : symmetric part).
  { clear H. induction part as [m|k l IH] using tree_induction; [constructor|]. rewrite (U k (or_introl eq_refl)). constructor.
    intros x Hx. apply IH; [exact Hx|exact (unstructured_part _ _ _ U Hx)]. }
  destruct H as [(p & E)|[(v & i & n & E)|(a & n & E)]].
  - destruct (make_reflection_symmetric _ _ _ Hs E) as [S [o ->]]. apply symmetric_regular; [exact S| |discriminate].
    intros x Hx. injection Hx as <-. exact U.
  - destruct (make_translation_symmetric _ _ _ _ _ Hs E) as (S & ->). apply symmetric_regular; [exact S| |discriminate].
    intros x Hx. injection Hx as <-. exact U.
  - destruct (make_axial_symmetric _ _ _ _ Hs E) as (S & ->). apply symmetric_regular; [exact S| |discriminate].
    intros x Hx. injection Hx as <-. exact U.
Qed.
Print Assumptions built_meshes_are_regular.
(** The usual case of two vertical planes of symmetry: a quarter of a mesh, reflected twice. *)
Theorem quarter_meshes_are_regular :
  forall p q quarter half t, unstructured quarter -> proper_plane p -> vz (pl_normal p) = 0%R ->
  positive_plane q -> positive_plane (plane_mirror q p) ->
  ReflectionSymmetricMesh quarter q = Ok half -> ReflectionSymmetricMesh half p = Ok t -> regular t.
Proof.
  intros p q quarter half t U Hp Hz P1 P2 E1 E2. assert (Hs : symmetric quarter).
  { clear E1 E2. induction quarter as [m|k l IH] using tree_induction; [constructor|]. rewrite (U k (or_introl eq_refl)). constructor.
    intros x Hx. apply IH; [exact Hx|exact (unstructured_part _ _ _ U Hx)]. }
  destruct (make_reflection_symmetric _ _ _ Hs E1) as [S [o ->]].
  exact (double_reflection_regular p q quarter o t U S Hp Hz P1 P2 E2).
Qed.
Print Assumptions quarter_meshes_are_regular.

(** A Green function that respects every symmetry: the mean distance between the corners, and a different value for
    the interaction of a face with itself. *)
(** The family of all the faces. *)
Definition every_face (_ : bool) (_ : quad) : Prop := True.
Definition four (f : vec -> R) (q : quad) : R := (f (qa q) + f (qb q) + f (qc q) + f (qd q))%R.
Definition ex_G (b : bool) (p q : panel) : C * C :=
  (RtoC (four (fun x => four (fun y => dist x y) (pn_corners q)) (pn_corners p)), if b then RtoC 1 else Ci).
Lemma ex_G_moves f : (forall x y, dist (f x) (f y) = dist x y) -> invariant_under (A := complexes) every_face ex_G (moved_quad f).
Proof. intros H. split; [easy|]. intros b tri1 tri2 q1 q2 _ _. unfold ex_G, four. cbn. now rewrite !H. Qed.
Lemma ex_G_respects k : (forall p, k = Reflection p -> proper_plane p) -> (forall a, k = Axial a -> proper_axis a) -> respects (A := complexes) every_face ex_G k.
Proof.
  intros Hp Ha. destruct k as [|p|v i|a]; cbn.
  - exact I.
  - split; [now apply Hp|]. split; [easy|]. intros b tri1 tri2 q1 q2 _ _. unfold ex_G, four. cbn. rewrite !mirror_isometry by now apply Hp. f_equal. f_equal. ring.
  - apply ex_G_moves. intros x y. apply translate_isometry.
  - split; [now apply Ha|]. intros th. apply ex_G_moves. intros x y. apply rotate_isometry. now apply Ha.
Qed.
(** Four triangles, reflected in the planes yOz and xOz. *)
Definition ex_quarters : tree :=
  Node (Reflection xOz) [ex_reflection; Node (Reflection (plane_mirror yOz xOz)) [Leaf (mirror ex_tri xOz); Leaf (mirror (mirror ex_tri yOz) xOz)]].
Lemma mirror_valid m p : valid m -> valid (mirror m p).
Proof.
  intros Hv f i Hf Hi. unfold mirror, flip_normals, nb_vertices in *. cbn in *. rewrite map_length in *. apply in_map_iff in Hf.
  destruct Hf as (g & <- & Hg). apply (Hv g i Hg). cbn in *. tauto.
Qed.
Lemma xOz_proper : proper_plane xOz. Proof. unfold proper_plane, xOz; cbn [pl_normal]; apply unit_dot; vring. Qed.
Lemma yOz_proper : proper_plane yOz. Proof. unfold proper_plane, yOz; cbn [pl_normal]; apply unit_dot; vring. Qed.
Lemma yOz_mirrored : plane_mirror yOz xOz = yOz.
Proof. unfold plane_mirror, yOz, xOz, mirror_vector, mirror_point, pl_c. cbn. rewrite (Rabs_right (dot _ _)) by (unfold dot; cbn; lra).
  apply (f_equal2 Plane); apply vec_ext; cbn; unfold dot; cbn; ring. Qed.
Lemma yz_different : plane_eqb yOz xOz = false /\ plane_eqb xOz yOz = false.
Proof.
  assert (Z : forall p q : vec, dot p q = 0%R -> parallel_same_direction p q = false).
  { intros p q H. unfold parallel_same_direction. rewrite H, (proj2 (Rltb_false 0 0)) by lra. apply andb_false_r. }
  unfold plane_eqb. split; rewrite Z; try apply andb_false_r; unfold dot; cbn; ring.
Qed.
Example engine_ex : regular ex_quarters /\ filled ex_quarters /\ all_valid ex_quarters /\ faced ex_quarters /\ t_nb_faces ex_quarters = 4
  /\ (forall k, In k (kinds ex_quarters ++ kinds ex_quarters) -> respects (A := complexes) every_face ex_G k)
  /\ coherent (kinds ex_quarters ++ kinds ex_quarters).
Proof.
  assert (K : forall k, In k (kinds ex_quarters ++ kinds ex_quarters) -> k = Reflection xOz \/ k = Reflection yOz).
  { intros k H. unfold ex_quarters, ex_reflection, ex_half in H. rewrite yOz_mirrored in H. cbn in H. intuition congruence. }
  assert (L : forall m, In m (leaves ex_quarters) -> valid m /\ 0 < nb_faces m).
  { intros m Hm. cbn in Hm. destruct Hm as [<-|[<-|[<-|[<-|[]]]]]; (split; [|cbn; lia]).
    - exact ex_tri_valid.
    - apply mirror_valid, ex_tri_valid.
    - apply mirror_valid, ex_tri_valid.
    - apply mirror_valid, mirror_valid, ex_tri_valid. }
  split; [|split; [|split; [|split; [|split; [reflexivity|split]]]]].
  - apply (quarter_meshes_are_regular xOz yOz ex_half ex_reflection).
    + intros k [].
    + exact xOz_proper.
    + reflexivity.
    + unfold positive_plane, yOz, dot. cbn. lra.
    + rewrite yOz_mirrored. unfold positive_plane, yOz, dot. cbn. lra.
    + unfold ReflectionSymmetricMesh, make_reflection. cbn. rewrite (proj2 (Reqb_true 0 0) eq_refl). reflexivity.
    + unfold ReflectionSymmetricMesh, make_reflection. change (vz (pl_normal xOz)) with 0%R. rewrite (proj2 (Reqb_true 0 0) eq_refl). cbn [negb].
      rewrite (copy_ok _ ex_reflection_symmetric). reflexivity.
  - repeat (constructor; [discriminate|]; intros x [<-|[<-|[]]]); constructor; try discriminate; intros x [<-|[<-|[]]]; constructor.
  - intros m Hm. now apply L.
  - intros m Hm. now apply L.
  - intros k Hk. apply ex_G_respects.
    + intros p ->. destruct (K _ Hk) as [E|E]; injection E as ->; [exact xOz_proper|exact yOz_proper].
    + intros a ->. destruct (K _ Hk); discriminate.
  - intros k1 k2 H1 H2. destruct (K _ H1) as [->| ->], (K _ H2) as [->| ->]; cbn [taken_as_same same_motion]; intros T; try reflexivity.
    + rewrite (proj2 yz_different) in T. discriminate.
    + rewrite (proj1 yz_different) in T. discriminate.
Qed.
Example accurate_ex : accurate (A := complexes) eq no_aca /\ responsive (A := complexes) no_aca.
Proof. split; [intros rows cols n1 n2 FS FK S K _ _ H; discriminate|intros rows cols n1 n2 _ _; now exists None]. Qed.
Example built_ex : unstructured ex_half /\ exists t, AxialSymmetricMesh ex_half Oz_axis 3 = Ok t.
Proof. split; [intros k []|]. unfold AxialSymmetricMesh, make_axial. cbn. eauto. Qed.
Example quarter_ex : ReflectionSymmetricMesh ex_half yOz = Ok ex_reflection.
Proof. apply constructors_ex. Qed.

(** ** Opposite axes

    Two axes on the same line with opposite directions are equal for [Axis.__eq__], but the parts of the two meshes
    turn in opposite directions: the interactions of two such meshes are not those of the dense assembly, although the
    Green function is invariant under every rotation around that line. *)
Definition Oz_down : axis := Axis (V 0 0 (-1)) v0.
Definition ex_slice : mesh := Mesh [V 1 0 0; V 2 0 0; V 1 0 1] [F 0 1 2 0].
Definition ex_turning (a : axis) : tree :=
  Node (Axial a) (Leaf ex_slice :: map (fun i => t_rotate (Leaf ex_slice) a (2 * INR i * PI / (INR 2 + 1))) (seq 1 2)).
Definition swirl (b : bool) (p q : panel) : C * C :=
  (RtoC (vz (cross (qa (pn_corners p)) (qa (pn_corners q)))), RtoC 0).
Lemma down_direction th x y z : rotate_point Oz_down th (V x y z) = V (x * cos th + y * sin th) (- x * sin th + y * cos th) z.
Proof.
  unfold rotate_point, Oz_down. cbn [ax_point].
  rewrite rotate_vector_formula. cbn [ax_vector]. unfold vsub, vadd, cross, vscale, v0. cbn. apply vec_ext; cbn; ring.
Qed.
Lemma swirl_invariant : respects (A := complexes) every_face swirl (Axial Oz_axis) /\ respects (A := complexes) every_face swirl (Axial Oz_down).
Proof.
  split; (split; [unfold proper_axis, Oz_axis, Oz_down; cbn [ax_vector]; apply unit_dot; vring|]);
  intros th; (split; [easy|]); intros b tri1 tri2 q1 q2 _ _; unfold swirl; cbn [pn_corners panel_of qa moved_quad];
  destruct (qa q1) as [x1 y1 z1], (qa q2) as [x2 y2 z2]; rewrite ?rotation_direction, ?down_direction; cbn;
  (apply (f_equal2 pair); [apply (f_equal RtoC)|reflexivity]); pose proof (sin2_cos2 th) as E; unfold Rsqr in E;
  (transitivity ((x1 * y2 - y1 * x2) * (sin th * sin th + cos th * cos th))%R; [ring|rewrite E; ring]).
Qed.
Lemma leaf_pair (argsort : list R -> list nat) d m1 m2 : m_vertices m1 <> [] -> m_vertices m2 <> [] ->
  hierarchical_matrices (A := complexes) swirl argsort d no_aca false (Leaf m1) (Leaf m2) = evaluate (A := complexes) swirl false (Leaf m1) (Leaf m2).
Proof.
  intros H1 H2. cbn [hierarchical_matrices]. unfold far, diameter_of_nodes. cbn [t_merged bind]. unfold mean_point.
  destruct (m_vertices m1) as [|u1 l1]; [congruence|]. destruct (m_vertices m2) as [|u2 l2]; [congruence|]. cbn [bind].
  match goal with |- bind (if ?c then _ else _) _ = _ => destruct c end; cbn [bind].
  - reflexivity.
  - match goal with |- (if ?c then _ else _) = _ => destruct c end; reflexivity.
Qed.
Lemma rotate_tri a th x y z x' y' z' : rotate_point a th (V x y z) = V x' y' z' ->
  exists u w, t_rotate (Leaf (Mesh [V x y z; V 2 0 0; V 1 0 1] [F 0 1 2 0])) a th = Leaf (Mesh [V x' y' z'; u; w] [F 0 1 2 0]).
Proof. intros E. cbn [t_rotate]. unfold rotate. cbn. rewrite E. eauto. Qed.
Lemma axial_three {A : coeffs} (G : bool -> panel -> panel -> A * A) argsort d aca a b x1 x2 x3 y1 y2 y3 : axis_eqb a b = true ->
  hierarchical_matrices G argsort d aca false (Node (Axial a) [x1; x2; x3]) (Node (Axial b) [y1; y2; y3])
  = bind (hierarchical_matrices G argsort d aca false x1 y1) (fun b1 => bind (hierarchical_matrices G argsort d aca false x1 y2) (fun b2 =>
    bind (hierarchical_matrices G argsort d aca false x1 y3) (fun b3 => Ok (structured Circulant [b1; b2; b3])))).
Proof.
  intros E. cbn [hierarchical_matrices]. rewrite E. cbn [length Nat.eqb andb mapi mapi_from sequence mapM].
  unfold mapi, sequence. cbn [mapi_from mapM Nat.eqb andb].
  destruct (hierarchical_matrices G argsort d aca false x1 y1); cbn [bind]; [|reflexivity].
  destruct (hierarchical_matrices G argsort d aca false x1 y2); cbn [bind]; [|reflexivity].
  destruct (hierarchical_matrices G argsort d aca false x1 y3); reflexivity.
Qed.
Theorem opposite_axes_refuted :
  exists (G : bool -> panel -> panel -> complexes * complexes) t1 t2,
  regular t1 /\ regular t2 /\ filled t1 /\ filled t2 /\ all_valid t1 /\ all_valid t2
  /\ (forall k, In k (kinds t1 ++ kinds t2) -> respects every_face G k)
  /\ forall argsort ACA_distance, exists S K S0 K0,
       hierarchical_matrices G argsort ACA_distance no_aca false t1 t2 = Ok (S, K) /\ evaluate G false t1 t2 = Ok (S0, K0)
       /\ ~ same_entries eq S S0.
Proof.
  exists swirl, (ex_turning Oz_axis), (ex_turning Oz_down).
  assert (V0 : valid ex_slice) by (intros f i [<-|[]] Hi; cbn in *; lia).
  assert (VR : forall a th, valid (rotate ex_slice a th)).
  { intros a th f i [<-|[]] Hi. cbn in *. lia. }
  assert (RG : forall a, regular (ex_turning a)).
  { intros a. constructor. intros x [<-|[<-|[<-|[]]]]; constructor. }
  assert (FL : forall a, filled (ex_turning a)).
  { intros a. constructor; [discriminate|]. intros x [<-|[<-|[<-|[]]]]; constructor. }
  assert (VL : forall a, all_valid (ex_turning a)).
  { intros a m [<-|[<-|[<-|[]]]]; [exact V0|apply VR|apply VR]. }
  split; [apply RG|]. split; [apply RG|]. split; [apply FL|]. split; [apply FL|]. split; [apply VL|]. split; [apply VL|].
  split; [intros k [<-|[<-|[]]]; apply swirl_invariant|].
  intros argsort d.
  set (s := sin (2 * PI / 3)). set (c := cos (2 * PI / 3)).
  assert (Hs : (0 < s)%R) by (apply sin_gt_0; pose proof PI_RGT_0; lra).
  assert (T1 : (2 * INR 1 * PI / (INR 2 + 1) = 2 * PI / 3)%R) by (cbn [INR]; field).
  assert (T2 : (2 * INR 2 * PI / (INR 2 + 1) = 2 * (2 * PI / 3))%R) by (cbn [INR]; field).
  assert (C1 : cos (2 * (2 * PI / 3)) = c).
  { unfold c. rewrite <- (cos_neg (2 * PI / 3)), <- (cos_period (- (2 * PI / 3)) 1). f_equal. cbn [INR]. field. }
  assert (S1 : sin (2 * (2 * PI / 3)) = (- s)%R).
  { unfold s. rewrite <- sin_neg, <- (sin_period (- (2 * PI / 3)) 1). f_equal. cbn [INR]. field. }
  unfold ex_turning. cbn [seq map]. rewrite T1, T2. unfold ex_slice.
  destruct (rotate_tri Oz_axis (2 * PI / 3) 1 0 0 c s 0) as (u1 & w1 & E1).
  { rewrite rotation_direction. fold s c. apply vec_ext; cbn; ring. }
  destruct (rotate_tri Oz_axis (2 * (2 * PI / 3)) 1 0 0 c (- s) 0) as (u2 & w2 & E2).
  { rewrite rotation_direction, C1, S1. apply vec_ext; cbn; ring. }
  destruct (rotate_tri Oz_down (2 * PI / 3) 1 0 0 c (- s) 0) as (u3 & w3 & E3).
  { rewrite down_direction. fold s c. apply vec_ext; cbn; ring. }
  destruct (rotate_tri Oz_down (2 * (2 * PI / 3)) 1 0 0 c s 0) as (u4 & w4 & E4).
  { rewrite down_direction, C1, S1. apply vec_ext; cbn; ring. }
  rewrite E1, E2, E3, E4.
  assert (AE : axis_eqb Oz_axis Oz_down = true).
  { unfold axis_eqb, in_axis, parallel_vectors.
    assert (Z : forall u, u = v0 -> Rltb (norm u) geom_tol = true).
    { intros u ->. apply Rltb_true. rewrite (proj2 (norm_zero v0) eq_refl). unfold geom_tol. lra. }
    rewrite !Z; [reflexivity| |]; unfold Oz_axis, Oz_down, e_z, cross, vsub, v0; cbn; apply vec_ext; cbn; ring. }
  rewrite (axial_three (A := complexes) swirl argsort d no_aca) by exact AE.
  rewrite !leaf_pair by discriminate. unfold evaluate. cbn [bind t_panels mesh_panels m_vertices m_faces mapM face_points get nth_error fa fb fc fd].
  unfold sequence. cbn [bind map mapM t_panels mesh_panels m_vertices m_faces face_points get nth_error fa fb fc fd].
  eexists. eexists. eexists. eexists. split; [reflexivity|]. split; [reflexivity|].
  match goal with |- ~ same_entries eq ?S ?S0 => set (M := S); set (M0 := S0) end.
  intros (Sh & a & a0 & Ea & Ea0 & Heq).
  assert (W : wf M).
  { cbn. split; [reflexivity|]. split; [lia|]. intros k Hk. destruct k as [|[|[|k]]]; [| | |lia]; cbn; split; try exact I; reflexivity. }
  assert (W0 : wf M0) by exact I.
  pose proof (represents_entry M W) as RE. destruct (full_matrix_ok M _ W RE) as (a' & Ea' & Ha). rewrite Ea in Ea'. apply Ok_inj' in Ea'. subst a'.
  pose proof (represents_entry M0 W0) as RE0. destruct (full_matrix_ok M0 _ W0 RE0) as (a' & Ea' & Ha0). rewrite Ea0 in Ea'. apply Ok_inj' in Ea'. subst a'.
  destruct (Heq 1 0) as (x & x0 & X & X0 & XE); [cbn; lia|cbn; lia|].
  rewrite Ha in X by (cbn; lia). rewrite Ha0 in X0 by (cbn; lia). assert (XE' : entry M 1 0 = entry M0 1 0) by (clear -X X0 XE; congruence).
  assert (V1 : entry M 1 0 = RtoC s).
  { pose proof (RE 1 0 ltac:(cbn; lia) ltac:(cbn; lia) 0 0 ltac:(cbn; lia) ltac:(cbn; lia)) as Q1. cbn in Q1.
    transitivity (RtoC (1 * s - 0 * c)%R); [exact Q1|f_equal; ring]. }
  assert (V2 : entry M0 1 0 = RtoC (- s)).
  { pose proof (RE0 1 0 ltac:(cbn; lia) ltac:(cbn; lia)) as Q1. cbn in Q1.
    transitivity (RtoC (c * 0 - s * 1)%R); [exact Q1|f_equal; ring]. }
  rewrite V1, V2 in XE'. apply RtoC_inj in XE'. lra.
Qed.
Print Assumptions opposite_axes_refuted.

(** ** Potential on a mesh *)

(** The potential on every face is the sum of the influences of all the sources, for every positive chunk size. *)
Theorem potential_independent_of_chunks :
  forall (A : coeffs) (G : bool -> panel -> panel -> A * A) argsort m mesh2 fuel sources chunk,
  valid m -> filled mesh2 -> all_valid mesh2 -> (0 < chunk)%Z ->
  exists ps ps2 phi, t_panels (Leaf m) = Ok ps /\ t_panels mesh2 = Ok ps2 /\ length ps = nb_faces m
    /\ get_potential_on_mesh argsort (basic_matrices G) (S fuel) (Leaf m) mesh2 (Some sources) chunk = Ok phi
    /\ forall i p, nth_error ps i = Some p ->
       phi i = Some (ksum (length ps2) (fun j => match nth_error ps2 j with
                                                 | Some q => kmul (fst (G false p q)) (sources j)
                                                 | None => k0 end)).
Proof.
  intros A G argsort m mesh2 fuel sources chunk Hv Hf2 Hv2 Hc.
  destruct (valid_mesh_raw m Hv) as [r Er]. destruct (raw_total mesh2 Hf2 Hv2) as [r2 Er2].
  assert (E1 : mesh_panels m = Ok (map panel_raw r)) by now rewrite mesh_panels_raw, Er.
  assert (E2 : t_panels mesh2 = Ok (map panel_raw r2)) by now rewrite t_panels_raw, Er2.
  destruct (chunked_potential G argsort m _ mesh2 _ fuel sources chunk Hv E1 E2 Hc) as (phi & E & H).
  exists (map panel_raw r), (map panel_raw r2), phi. split; [exact E1|]. split; [exact E2|].
  split; [exact (mapM_length _ _ _ E1)|]. split; [exact E|exact H].
Qed.
Print Assumptions potential_independent_of_chunks.
Theorem potential_same_for_two_chunk_sizes :
  forall (A : coeffs) (G : bool -> panel -> panel -> A * A) argsort m mesh2 fuel sources chunk chunk',
  valid m -> filled mesh2 -> all_valid mesh2 -> (0 < chunk)%Z -> (0 < chunk')%Z ->
  exists phi phi', get_potential_on_mesh argsort (basic_matrices G) (S fuel) (Leaf m) mesh2 (Some sources) chunk = Ok phi
    /\ get_potential_on_mesh argsort (basic_matrices G) (S fuel) (Leaf m) mesh2 (Some sources) chunk' = Ok phi'
    /\ forall i, i < nb_faces m -> phi i = phi' i /\ phi i <> None.
Proof.
  intros A G argsort m mesh2 fuel sources chunk chunk' Hv Hf2 Hv2 Hc Hc'.
  destruct (potential_independent_of_chunks A G argsort m mesh2 fuel sources chunk Hv Hf2 Hv2 Hc) as (ps & ps2 & phi & E1 & E2 & L & E & H).
  destruct (potential_independent_of_chunks A G argsort m mesh2 fuel sources chunk' Hv Hf2 Hv2 Hc') as (ps' & ps2' & phi' & E1' & E2' & L' & E' & H').
  rewrite E1 in E1'. apply Ok_inj' in E1'. subst ps'. rewrite E2 in E2'. apply Ok_inj' in E2'. subst ps2'.
  exists phi, phi'. split; [exact E|]. split; [exact E'|]. intros i Hi. rewrite <- L in Hi.
  destruct (nth_error ps i) as [p|] eqn:Ep; [|apply nth_error_None in Ep; lia]. rewrite (H i p Ep), (H' i p Ep). split; [reflexivity|discriminate].
Qed.
Print Assumptions potential_same_for_two_chunk_sizes.
Example potential_ex : valid ex_mesh /\ filled ex_quarters /\ all_valid ex_quarters /\ nb_faces ex_mesh = 2.
Proof. destruct engine_ex as (_ & A & B & _). split; [exact ex_mesh_valid|]. split; [exact A|]. split; [exact B|reflexivity]. Qed.
(** Other cases: no sources, a chunk size of zero. *)
Theorem potential_errors :
  forall (A : coeffs) (G : bool -> panel -> panel -> A * A) argsort fuel mesh1 mesh2 chunk sources,
  get_potential_on_mesh argsort (basic_matrices G) fuel mesh1 mesh2 None chunk = Err OtherException
  /\ get_potential_on_mesh argsort (basic_matrices G) fuel mesh1 mesh2 (Some sources) 0 = Err ValueError.
Proof.
  intros. split; [reflexivity|]. unfold get_potential_on_mesh. destruct (Z.ltb_spec (Z.of_nat (t_nb_faces mesh1)) 0) as [H|H]; [lia|reflexivity].
Qed.
Print Assumptions potential_errors.
Example potential_errors_ex : t_nb_faces ex_quarters = 4. Proof. reflexivity. Qed.
(** With a negative chunk size the loop is empty: the values of the array are not set at all and no error is raised. *)
Theorem negative_chunk_size_refuted :
  exists mesh1 : tree, (0 < t_nb_faces mesh1) /\ filled mesh1 /\ all_valid mesh1 /\ forall (A : coeffs) (G : bool -> panel -> panel -> A * A) argsort fuel mesh2 sources chunk, (chunk < 0)%Z ->
  exists phi, get_potential_on_mesh argsort (basic_matrices G) fuel mesh1 mesh2 (Some sources) chunk = Ok phi
    /\ forall i, phi i = None.
Proof.
  exists ex_quarters. destruct engine_ex as (_ & B & D & _). split; [cbn; lia|]. split; [exact B|]. split; [exact D|].
  intros A G argsort fuel mesh2 sources chunk Hc. exists (fun _ => None). split; [|reflexivity].
  unfold get_potential_on_mesh. destruct (Z.ltb_spec (Z.of_nat (t_nb_faces ex_quarters)) chunk) as [H|H]; [lia|].
  destruct (Z.eqb_spec chunk 0) as [H'|H']; [lia|]. destruct (Z.ltb_spec chunk 0) as [H''|H'']; [reflexivity|lia].
Qed.
Print Assumptions negative_chunk_size_refuted.
