From Coq Require Import Reals List Bool Arith ZArith Lia Lra Permutation.
From Verif Require Import Model_Base Model_Geometry Model_Mesh Model_Clip Spec_Mesh Spec_Tree Spec_Clip Model_Tree Model_Body Spec_Body
  Proofs_Geometry Proofs_Mesh Proofs_Mesh3 Proofs_Clip4 Proofs_Clip5 Proofs_Integrals Proofs_Tree Proofs_Tree2 Proofs_Body Proofs_Body2
  Model_Quality Spec_Quality Model_Normals Spec_Normals Proofs_Normals4 Model_Grid Spec_Grid Proofs_Grid Proofs_Grid2 Proofs_Grid3.
Import ListNotations.
Open Scope R_scope.

(** ** Motions *)
Definition motion (f l : vec -> vec) : Prop :=
  (forall p x, f (vadd p x) = vadd (f p) (l x)) /\ (forall x y, l (vadd x y) = vadd (l x) (l y)) /\ (forall k x, l (vscale k x) = vscale k (l x))
  /\ (forall x y, dot (l x) (l y) = dot x y) /\ (forall x y, cross (l x) (l y) = l (cross x y)).
Definition moved_mesh (f : vec -> vec) (m : mesh) : mesh := Mesh (map f (m_vertices m)) (m_faces m).
Lemma motion_id : motion (fun x => x) (fun x => x).
Proof. repeat split; reflexivity. Qed.
Lemma motion_translate t : motion (fun p => vadd p t) (fun x => x).
Proof. repeat split; vring. Qed.
Lemma motion_rotate a th : proper_axis a -> motion (rotate_point a th) (rotate_vector a th).
Proof.
  intros H. repeat split.
  - intros p x. apply add_diff. rewrite rotate_point_sub. f_equal. vring.
  - apply rotate_vector_add.
  - intros. apply rotate_vector_scale.
  - intros. now apply rotate_vector_dot.
  - intros. now apply rotate_vector_cross.
Qed.
Lemma motion_node f l c u v w h nw nh i j : motion f l ->
  f (rectangle_node c u v w h nw nh i j) = rectangle_node (f c) (l u) (l v) w h nw nh i j.
Proof. intros (F & A & S & _). unfold rectangle_node. now rewrite F, A, !S. Qed.
Lemma motion_frame f l u v n : motion f l -> frame u v n -> frame (l u) (l v) (l n).
Proof. intros (_ & _ & _ & Dt & X) (U & V' & O & <-). unfold frame. rewrite !Dt, X. auto. Qed.
Lemma motion_inj f l p q : motion f l -> f p = f q -> p = q.
Proof.
  intros (F & A & S & Dt & _) E. replace q with (vadd p (vsub q p)) in E by vring. rewrite F in E.
  assert (Z : l (vsub q p) = v0) by (transitivity (vsub (vadd (f p) (l (vsub q p))) (f p)); [vring|rewrite <- E; vring]).
  assert (vsub q p = v0).
  { apply norm_zero. apply Rsqr_0_uniq. unfold Rsqr. rewrite norm_sq, <- Dt, Z. vring. }
  transitivity (vsub q (vsub q p)); [vring|]. rewrite H. vring.
Qed.
Lemma NoDup_map_inj {A B} (f : A -> B) l : (forall x y, f x = f y -> x = y) -> NoDup l -> NoDup (map f l).
Proof. intros I N. apply FinFun.Injective_map_NoDup; auto. Qed.
Lemma same_map g q q' : same_polygon q q' -> same_polygon (poly_map g q) (poly_map g q').
Proof. destruct q as [[[a b] c] d]. intros [->|[->|[->| ->]]]; cbn; auto. Qed.
Lemma carried_moved f m qs : (forall x y, f x = f y -> x = y) -> carried m qs -> carried (moved_mesh f m) (map (poly_map f) qs).
Proof.
  intros I (Vm & Um & Nm & qs' & P & S). split; [now apply transformed_valid|]. split; [|split].
  - intros i Hi. cbn in Hi. rewrite map_length in Hi. exact (Um i Hi).
  - cbn. now apply NoDup_map_inj.
  - exists (map (poly_map f) qs'). split; [now apply leaf_polygons|]. clear - S. induction S; cbn; constructor; [now apply same_map|assumption].
Qed.
Lemma carried_motion f l c u v w h nw nh m : motion f l -> carried m (cells (rectangle_node c u v w h nw nh) nw nh) ->
  carried (moved_mesh f m) (cells (rectangle_node (f c) (l u) (l v) w h nw nh) nw nh).
Proof.
  intros M C. apply (carried_moved f) in C; [|intros; eapply motion_inj; eassumption]. rewrite cells_map in C.
  erewrite cells_ext in C; [exact C|]. intros. now apply motion_node.
Qed.

(** ** The grid of a rectangle *)
Lemma grid_rectangle_ok w h nw nh : (0 < nw)%nat -> (0 < nh)%nat -> / 1000000 <= w / INR nw -> / 1000000 <= h / INR nh ->
  exists m, grid_rectangle w h (Z.of_nat nw) (Z.of_nat nh) = Ok m /\ m_faces m = grid_faces nw nh
    /\ carried m (cells (rectangle_node v0 e_y e_z w h nw nh) nw nh).
Proof.
  intros Nw Nh Hw Hh. unfold grid_rectangle.
  replace (Z.of_nat nw + 1 <? 0)%Z with false by (symmetry; apply Z.ltb_ge; lia). replace (Z.of_nat nh + 1 <? 0)%Z with false by (symmetry; apply Z.ltb_ge; lia).
  cbn [orb]. rewrite !Nat2Z.id. replace (Z.to_nat (Z.of_nat nw + 1)) with (nw + 1)%nat by lia. replace (Z.to_nat (Z.of_nat nh + 1)) with (nh + 1)%nat by lia.
  rewrite grid_built. eexists. split; [reflexivity|]. split; [reflexivity|].
  set (P' := fun i j => V 0 (- w / 2 + INR i * ((w / 2 - - w / 2) / INR nw)) (- h / 2 + INR j * ((h / 2 - - h / 2) / INR nh))).
  assert (E : forall i j, P' i j = rectangle_node v0 e_y e_z w h nw nh i j).
  { intros i j. assert (INR nw <> 0) by (apply not_0_INR; lia). assert (INR nh <> 0) by (apply not_0_INR; lia).
    unfold P', rectangle_node. apply vec_ext; cbn; field; auto. }
  assert (Fr : frame e_y e_z (V (-1) 0 0)) by (unfold frame; repeat split; vring).
  split; [apply grid_valid|]. split; [now apply grid_used|]. split.
  - cbn [m_vertices]. apply NoDup_nth_error. intros k l Hk Ekl. apply nth_error_Some in Hk.
    destruct (nth_error (grid_nodes _ _ _) k) as [p|] eqn:Ek; [|contradiction]. symmetry in Ekl.
    destruct (node_index nw nh (fun y z => V 0 y z) _ _ _ _ k p Ek) as (i & j & Hi & Hj & -> & Ep).
    destruct (node_index nw nh (fun y z => V 0 y z) _ _ _ _ l p Ekl) as (i' & j' & Hi' & Hj' & -> & Ep').
    assert (K : rectangle_node v0 e_y e_z w h nw nh i j = rectangle_node v0 e_y e_z w h nw nh i' j') by (rewrite <- !E; unfold P'; congruence).
    destruct (node_inj v0 e_y e_z (V (-1) 0 0) w h nw nh Fr Nw Nh Hw Hh i j i' j' K) as [-> ->]. reflexivity.
  - exists (cells P' nw nh). split; [apply (grid_polygons nw nh (fun y z => V 0 y z))|].
    rewrite (cells_ext P' (rectangle_node v0 e_y e_z w h nw nh) nw nh) by (intros; apply E).
    clear. induction (cells _ _ _); constructor; [apply same_polygon_refl|assumption].
Qed.

(** ** Alignment *)
Lemma same_direction N : unit_vector N -> parallel_same_direction N N = true.
Proof.
  intros U. unfold parallel_same_direction, parallel_vectors. rewrite cross_self, (proj2 (norm_zero v0) eq_refl).
  apply unit_dot in U. rewrite U. unfold geom_tol. rewrite !(proj2 (Rltb_true _ _)) by lra. reflexivity.
Qed.
Lemma motion_turns f l N n : motion f l -> l N = n -> l (cross N n) = cross N n -> (n = N -> forall x, l x = x) ->
  (n = vopp N -> (cross N e_x = v0 -> l (cross N e_y) = cross N e_y) /\ (/ 1000000 <= norm (cross N e_x) -> l (cross N e_x) = cross N e_x)) -> turns l N n.
Proof. intros (_ & A & B & C & D) E G H I. unfold turns. auto 9. Qed.
Lemma aligned t N n c p ps : t_props t = Ok (p :: ps) -> p_normal p = N -> unit_vector N -> unit_vector n -> alignable N n ->
  exists f l t', t_align t c n = Ok t' /\ motion f l /\ f c = c /\ l N = n /\ turns l N n /\ leaves t' = map (moved_mesh f) (leaves t) /\ (filled t -> filled t').
Proof.
  intros Hp HN UN Un H. unfold t_align. rewrite Hp. cbn [bind get nth_error]. rewrite HN.
  assert (n = N \/ (parallel_vectors N n = false \/ n = vopp N)) as [-> |H'].
  { destruct H as [H|[H|H]]; [now left|right; now right|right; left]. unfold parallel_vectors, geom_tol. now apply Rltb_false. }
  - unfold align_vectors. rewrite (same_direction N UN). exists (fun x => x), (fun x => x), t. split; [reflexivity|]. split; [apply motion_id|].
    split; [reflexivity|]. split; [reflexivity|]. split; [apply (motion_turns (fun x => x)); auto using motion_id|]. split; [|auto]. symmetry. erewrite map_ext; [apply map_id|].
    intros [vs fs]. unfold moved_mesh. cbn. now rewrite map_id.
  - assert (exists a th, align_vectors c N n = Rotation a th /\ proper_axis a /\ ax_point a = c /\ rotate_vector a th N = n) as (a & th & E & Pa & Pc & Rn).
    { destruct H' as [K| ->]; [now apply align_apart|now apply align_opposite]. }
    rewrite E. exists (rotate_point a th), (rotate_vector a th), (t_rotate t a th). split; [reflexivity|]. split; [now apply motion_rotate|].
    split; [apply rotate_fixes; exists 0; rewrite Pc; vring|]. split; [exact Rn|]. split; [|split; [apply leaves_rotate|apply filled_rotate]].
    apply (motion_turns (rotate_point a th)); [now apply motion_rotate|exact Rn| | |].
    2: { intros ->. exfalso. destruct H' as [K|K]; [unfold parallel_vectors in K; rewrite cross_self, (proj2 (norm_zero v0) eq_refl) in K; apply Rltb_false in K; unfold geom_tol in K; lra|].
         apply unit_dot in UN. assert (X : dot N N = - dot N N) by (rewrite K at 1; vring). lra. }
    2: { intros K. assert (Pv : parallel_vectors N n = true).
      { unfold parallel_vectors, geom_tol. rewrite K. replace (cross N (vopp N)) with v0 by vring. rewrite (proj2 (norm_zero v0) eq_refl). apply Rltb_true. lra. }
      assert (Ps : parallel_same_direction N n = false).
      { unfold parallel_same_direction. rewrite Pv. cbn [andb]. apply Rltb_false. rewrite K. apply unit_dot in UN. replace (dot N (vopp N)) with (- dot N N) by vring. rewrite UN. lra. }
      unfold align_vectors in E. rewrite Ps, Pv in E.
      destruct (new_axis _ c) as [b|] eqn:Eb; [|discriminate]. injection E as -> _. unfold new_axis in Eb.
      destruct (normalize _) as [x|] eqn:Ex; [|discriminate]. injection Eb as <-. apply normalize_unit in Ex. destruct Ex as (_ & k & _ & Ex).
      split; intros Px.
      - assert (Q : parallel_vectors N e_x = true) by (unfold parallel_vectors, geom_tol; rewrite Px, (proj2 (norm_zero v0) eq_refl); apply Rltb_true; lra).
        rewrite Q in Ex. rewrite Ex, rotate_vector_scale. f_equal. exact (rotate_vector_axis (Axis x c) th).
      - assert (Q : parallel_vectors N e_x = false) by (unfold parallel_vectors, geom_tol; now apply Rltb_false).
        rewrite Q in Ex. rewrite Ex, rotate_vector_scale. f_equal. exact (rotate_vector_axis (Axis x c) th). }
    destruct H' as [K|K].
    + unfold align_vectors, parallel_same_direction in E. rewrite K in E. cbn [andb] in E.
      destruct (new_axis (cross N n) c) as [b|] eqn:Eb; [|discriminate]. destruct (_ && _); [|discriminate]. injection E as -> _.
      unfold new_axis in Eb. destruct (normalize (cross N n)) as [x|] eqn:Ex; [|discriminate]. injection Eb as <-.
      apply normalize_unit in Ex. destruct Ex as (_ & k & _ & ->). rewrite rotate_vector_scale. f_equal. exact (rotate_vector_axis (Axis x c) th).
    + rewrite K. replace (cross N (vopp N)) with (vscale 0 N) by vring. rewrite rotate_vector_scale. vring.
Qed.
