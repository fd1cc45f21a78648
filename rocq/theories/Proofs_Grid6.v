From Coq Require Import Reals List Bool Arith ZArith Lia Lra Permutation.
From Verif Require Import Model_Base Model_Geometry Model_Mesh Model_Clip Spec_Mesh Spec_Tree Spec_Clip Model_Tree Model_Body Spec_Body
  Proofs_Geometry Proofs_Mesh Proofs_Mesh2 Proofs_Mesh3 Proofs_Clip4 Proofs_Clip5 Proofs_Integrals Proofs_Tree Proofs_Tree2 Proofs_Body Proofs_Body2
  Proofs_Problem Proofs_Symmetry Model_Quality Spec_Quality Model_Normals Spec_Normals Proofs_Normals4 Model_Grid Spec_Grid Proofs_Grid Proofs_Grid2 Proofs_Grid3 Proofs_Grid4 Proofs_Grid5.
Import ListNotations.
Open Scope R_scope.

Definition start : vec := V (-1) 0 0.
Lemma start_frame : frame e_y e_z start.
Proof. unfold frame, start; repeat split; vring. Qed.
Lemma flat_frame : frame e_y e_x e_z.
Proof. unfold frame; repeat split; vring. Qed.
Lemma start_unit : unit_vector start.
Proof. apply unit_dot. unfold start. vring. Qed.
Lemma ez_unit : unit_vector e_z.
Proof. apply unit_dot. vring. Qed.
Lemma start_up : alignable start e_z.
Proof.
  right. right. replace (cross start e_z) with e_y by (unfold start; vring). assert (unit_vector e_y) as -> by (apply unit_dot; vring). lra.
Qed.
Lemma t_align_leaf m c n t : t_align (Leaf m) c n = Ok t -> exists m', t = Leaf m'.
Proof.
  unfold t_align. intros H. destruct (t_props (Leaf m)); [cbn [bind] in H|discriminate]. destruct (get _ 0); [cbn [bind] in H|discriminate].
  destruct (align_vectors _ _ _); [| |discriminate]; apply Ok_inj' in H; subst; eexists; reflexivity.
Qed.
Lemma moved_cells f l c u v w h nw nh : motion f l -> f c = c ->
  map (poly_map (fun p => f (vadd p c))) (cells (rectangle_node v0 u v w h nw nh) nw nh) = cells (rectangle_node c (l u) (l v) w h nw nh) nw nh.
Proof.
  intros M Fc. rewrite cells_map. apply cells_ext. intros i j _ _. rewrite <- Fc at 2. rewrite <- (motion_node f l) by exact M. f_equal.
  unfold rectangle_node. vring.
Qed.

Section Rectangle.
  Variable argsort : list R -> list nat.
  Hypothesis Hs : sorts argsort.
  Variable set_order : list nat -> list nat.
  Hypothesis Ho : forall l, Permutation l (set_order l).

  Section Sizes.
  Variables (w h : R) (nw nh : nat).
  Hypothesis Nw : (0 < nw)%nat.
  Hypothesis Nh : (0 < nh)%nat.
  Hypothesis Hw : / 1000000 <= w / INR nw.
  Hypothesis Hh : / 1000000 <= h / INR nh.
  Let dw := w / INR nw.
  Let dh := h / INR nh.
  Let D := sqrt (dw * dw + dh * dh).

  Lemma finish_leaf c n m : grid_rectangle w h (Z.of_nat nw) (Z.of_nat nh) = Ok m -> unit_vector n -> alignable start n ->
    exists l m', finish argsort set_order (Leaf m) c n = Ok (Leaf m') /\ frame (l e_y) (l e_z) n /\ turns l start n
      /\ carried m' (cells (rectangle_node c (l e_y) (l e_z) w h nw nh) nw nh).
  Proof.
    intros Em Un Al. destruct (grid_rectangle_ok w h nw nh Nw Nh Hw Hh) as (m0 & E0 & Fm & Cm). assert (m0 = m) by congruence. subst m0.
    destruct (heal_vertical argsort Hs set_order Ho m (cells (rectangle_node v0 e_y e_z w h nw nh) nw nh) (dw * dh) D start) as (m1 & E1 & C1);
      [exact start_unit|reflexivity|now apply cells_area|apply sqrt_pos|apply cells_rect; [exact start_frame|assumption..]|
       apply (cells_spaced v0 e_y e_z start); [exact start_frame|assumption..]|now apply cells_nonempty|rewrite Fm; apply grid_conformal|rewrite Fm; apply grid_consistent|exact Cm|].
    unfold finish. cbn [t_heal]. rewrite E1. cbn [bind].
    destruct (aligned_tree (Leaf m1) [cells (rectangle_node v0 e_y e_z w h nw nh) nw nh] (dw * dh) D start n c) as (f & l & t' & E & M & Fc & Ln & Lx & Fl & Cl & _);
      [exact start_unit|exact Un|exact Al|now apply cells_area|apply sqrt_pos|constructor|constructor; [exact C1|constructor]|
       cbn; rewrite app_nil_r; apply cells_rect; [exact start_frame|assumption..]|cbn; rewrite app_nil_r; now apply cells_nonempty|].
    destruct (t_align_leaf _ _ _ _ E) as [m' ->]. exists l, m'. split; [exact E|]. split; [rewrite <- Ln; exact (motion_frame f l _ _ _ M start_frame)|].
    split; [exact Lx|]. cbn [leaves map] in Cl. inversion Cl; subst. now rewrite (moved_cells f l) in H2.
  Qed.
  Lemma simple_ok c n : 0 < w -> 0 < h -> unit_vector n -> alignable start n ->
    exists l m', simple_rectangle argsort set_order w h (Z.of_nat nw) (Z.of_nat nh) c n = Ok (Leaf m') /\ frame (l e_y) (l e_z) n /\ turns l start n
      /\ carried m' (cells (rectangle_node c (l e_y) (l e_z) w h nw nh) nw nh).
  Proof.
    intros Pw Ph Un Al. unfold simple_rectangle, rectangle_checks. rewrite !(proj2 (Rltb_true _ _)) by assumption.
    rewrite !(proj2 (Z.ltb_lt 0 _)) by lia. cbn [andb negb].
    destruct (grid_rectangle_ok w h nw nh Nw Nh Hw Hh) as (m & Em & _). rewrite Em. cbn [bind]. now apply finish_leaf.
  Qed.
  Lemma simple_flat c : 0 < w -> 0 < h -> exists m', simple_rectangle argsort set_order w h (Z.of_nat nw) (Z.of_nat nh) c e_z = Ok (Leaf m')
      /\ carried m' (cells (rectangle_node c e_y e_x w h nw nh) nw nh).
  Proof.
    intros Pw Ph. destruct (simple_ok c e_z Pw Ph ez_unit start_up) as (l & m' & E & _ & (_ & _ & _ & Cr & Ls & Lx & _) & C). exists m'. split; [exact E|].
    assert (Ey : l e_y = e_y) by (replace (cross start e_z) with e_y in Lx by (unfold start; vring); exact Lx).
    assert (Ez : l e_z = e_x).
    { replace e_z with (cross e_y start) by (unfold start; vring). rewrite <- Cr, Ey, Ls. vring. }
    now rewrite Ey, Ez in C.
  Qed.
  End Sizes.

  (** A symmetric mesh whose parts are horizontal. *)
  Lemma finish_node k ms qss A D c n : Forall2 carried ms qss -> ms <> [] -> unit_vector n -> alignable e_z n -> / 1000000000000 <= A -> 0 <= D ->
    (forall qs, In qs qss -> Forall (rectq A D e_z) qs /\ spaced qs /\ qs <> []) ->
    exists f l t, finish argsort set_order (Node k (map Leaf ms)) c n = Ok t /\ motion f l /\ f c = c /\ l e_z = n /\ turns l e_z n /\ filled t
      /\ Forall2 carried (leaves t) (map (map (poly_map (fun p => f (vadd p c)))) qss).
  Proof.
    intros H Nm Un Al HA HD G.
    assert (Lv : leaves (Node k (map Leaf ms)) = ms).
    { cbn. rewrite map_map. clear. induction ms as [|m ms IH]; cbn; [reflexivity|]. now f_equal. }
    assert (Fl : filled (Node k (map Leaf ms))).
    { constructor; [destruct ms; [contradiction|discriminate]|]. intros x Hx. apply in_map_iff in Hx. destruct Hx as (m & <- & _). constructor. }
    assert (T : tidy_tree (Node k (map Leaf ms))).
    { split; [exact Fl|]. rewrite Lv. intros m Hm. apply In_nth_error in Hm. destruct Hm as [i Hi]. destruct (Forall2_nth_l _ _ _ _ _ H Hi) as (qs & Hq & C).
      destruct (G qs) as (R1 & R2 & R3); [now apply nth_error_In in Hq|]. exact (carried_tidy A D e_z ez_unit HA m qs R1 R2 R3 C). }
    destruct (heal_parts_tidy argsort Hs (heal_normals set_order) _ T) as (t1 & E1 & (F1 & T1) & H1 & _). rewrite Lv in H1.
    assert (C1 : Forall2 carried (leaves t1) qss).
    { apply Forall2_nth. apply Forall2_nth in H. destruct H as [L H]. pose proof H1 as H2. apply Forall2_nth in H2. destruct H2 as [L' H2]. split; [congruence|].
      intros i m1 qs Hm Hq. destruct (Forall2_nth_r _ _ _ _ _ H1 Hm) as (m & Hm0 & Hh). apply (healed_carried m m1); [now apply (H i)|exact Hh|apply Hh]. }
    unfold finish. cbn [t_heal]. rewrite E1. cbn [bind].
    destruct (aligned_tree t1 qss A D e_z n c) as (f & l & t' & E & M & Fc & Ln & Lx & Fl' & Cl & _); try assumption; [exact ez_unit| | |].
    - apply Forall_concat. apply Forall_forall. intros qs Hq. now apply G.
    - destruct ms as [|m ms]; [contradiction|]. inversion H; subst. destruct (G y (or_introl eq_refl)) as (_ & _ & Ny). cbn. destruct y; [contradiction|discriminate].
    - exists f, l, t'. auto 8.
  Qed.

  (** The parts of the symmetric rectangles. *)
  Lemma mirror_inj p : unit_vector (pl_normal p) -> forall x y, mirror_point p x = mirror_point p y -> x = y.
  Proof. intros U x y H. rewrite <- (mirror_involution p x U), <- (mirror_involution p y U). now rewrite H. Qed.
  Lemma same_flip q q' : same_polygon q q' -> same_polygon (poly_flip q) (poly_flip q').
  Proof. destruct q as [[[a b] c] d]. intros [->|[->|[->| ->]]]; cbn; auto. Qed.
  Lemma carried_flip m qs : carried m qs -> carried (flip_normals m) (map poly_flip qs).
  Proof.
    intros (Vm & Um & Nm & qs' & P & S). split; [now apply flip_valid|]. split; [|split].
    - intros i Hi. destruct (Um i Hi) as (f & Hf & Hif). exists (flip_face f). split; [cbn; now apply in_map|]. destruct f. cbn in *. tauto.
    - exact Nm.
    - exists (map poly_flip qs'). split; [now apply leaf_polygons_flip|]. clear - S. induction S; cbn; constructor; [now apply same_flip|assumption].
  Qed.
  Lemma carried_mirror p m qs : unit_vector (pl_normal p) -> carried m qs ->
    carried (mirror m p) (map poly_flip (map (poly_map (mirror_point p)) qs)).
  Proof. intros U C. apply carried_flip. apply (carried_moved (mirror_point p)); [now apply mirror_inj|exact C]. Qed.
  Lemma rev_seq n : rev (seq 0 n) = map (fun i => (n - 1 - i)%nat) (seq 0 n).
  Proof.
    induction n as [|n IH]; [reflexivity|]. rewrite seq_S at 1. rewrite rev_app_distr, IH. cbn [rev app seq map]. f_equal; [lia|].
    rewrite <- seq_shift, map_map. apply map_ext. intros i. lia.
  Qed.
  Lemma flipped_cells P P' n ny : (forall i j, (i <= n)%nat -> P' i j = P (n - i)%nat j) -> Permutation (cells P' n ny) (map poly_flip (cells P n ny)).
  Proof.
    intros E. unfold cells. rewrite !flat_map_concat_map, concat_map, map_map.
    replace (map (fun x => map poly_flip (map (cell P x) (seq 0 ny))) (seq 0 n)) with (map (fun i => map (cell P' i) (seq 0 ny)) (rev (seq 0 n))).
    - rewrite <- !flat_map_concat_map. apply Permutation_flat_map. apply Permutation_rev.
    - rewrite rev_seq, map_map. apply map_ext_in. intros i Hi. apply in_seq in Hi. rewrite map_map. apply map_ext. intros j. unfold cell. cbn [poly_flip].
      rewrite !E by lia. replace (n - (n - 1 - i))%nat with (S i) by lia. replace (n - S (n - 1 - i))%nat with i by lia. reflexivity.
  Qed.

  Lemma rectangle_props t qss w h nw nh n u v c : (0 < nw)%nat -> (0 < nh)%nat -> / 1000000 <= w / INR nw -> / 1000000 <= h / INR nh -> frame u v n ->
    filled t -> Forall2 carried (leaves t) qss -> Permutation (cells (rectangle_node c u v w h nw nh) nw nh) (concat qss) ->
    is_rectangle w h nw nh c u v n t.
  Proof.
    intros Nw Nh Hw Hh Fr Fl C Pm. split; [exact Fr|]. split.
    { intros m Hm. apply In_nth_error in Hm. destruct Hm as [i Hi]. destruct (Forall2_nth_l _ _ _ _ _ C Hi) as (qs & _ & Vm & Um & Nm & _). auto. }
    split; [now apply (made_carried t qss)|].
    destruct (carried_props t qss (w / INR nw * (h / INR nh)) (sqrt (w / INR nw * (w / INR nw) + h / INR nh * (h / INR nh))) n) as (ps & E & L & Fp);
      [exact (frame_unit u v n Fr)|now apply cells_area|apply sqrt_pos|exact Fl|exact C| |].
    - apply (Permutation_Forall Pm). apply cells_rect; assumption.
    - exists ps. split; [exact E|]. split; [|exact Fp]. rewrite L, <- (Permutation_length Pm). apply cells_length.
  Qed.

  Lemma reflection_ok w h n nh c nm : (0 < n)%nat -> (0 < nh)%nat -> 0 < w -> 0 < h -> / 1000000 <= w / INR (n + n) -> / 1000000 <= h / INR nh ->
    unit_vector nm -> alignable e_z nm ->
    exists half t0 t l, simple_rectangle argsort set_order (w / 2) h (Z.of_nat n) (Z.of_nat nh) (V 0 (- w / 4) 0) e_z = Ok half
      /\ ReflectionSymmetricMesh half xOz_Plane = Ok t0 /\ finish argsort set_order t0 c nm = Ok t /\ filled t /\ frame (l e_y) (l e_x) nm /\ turns l e_z nm
      /\ exists qss, Forall2 carried (leaves t) qss
      /\ Permutation (cells (rectangle_node c (l e_y) (l e_x) w h (n + n) nh) (n + n) nh) (concat qss).
  Proof.
    intros Nn Nh Pw Ph Hw Hh Un Al.
    assert (Pn : 0 < INR n) by now apply lt_0_INR.
    assert (Pm' : 0 < INR nh) by now apply lt_0_INR.
    assert (Hn : INR (n + n) = 2 * INR n) by (rewrite plus_INR; ring).
    assert (Ew : w / 2 / INR n = w / INR (n + n)) by (rewrite Hn; field; lra).
    destruct (simple_flat (w / 2) h n nh) with (c := V 0 (- w / 4) 0) as (m & Em & Cm); [assumption..|rewrite Ew; exact Hw|exact Hh|lra|exact Ph|].
    set (P := rectangle_node (V 0 (- w / 4) 0) e_y e_x (w / 2) h n nh) in *.
    set (P' := rectangle_node (V 0 (w / 4) 0) e_y e_x (w / 2) h n nh).
    assert (Up : unit_vector (pl_normal xOz_Plane)) by (apply unit_dot; cbn; vring).
    pose proof (carried_mirror xOz_Plane m _ Up Cm) as Cm'. rewrite cells_map in Cm'.
    assert (Pm : Permutation (cells P' n nh) (map poly_flip (cells (fun i j => mirror_point xOz_Plane (P i j)) n nh))).
    { assert (Mp : forall x, mirror_point xOz_Plane x = V (vx x) (- vy x) (vz x)).
      { intros x. assert (Z : pl_c xOz_Plane = 0) by (unfold pl_c; replace (dot (pl_normal xOz_Plane) (pl_point xOz_Plane)) with 0 by (unfold dot; cbn; ring); apply Rabs_R0).
        unfold mirror_point. rewrite Z. apply vec_ext; unfold dot; cbn; ring. }
      apply flipped_cells. intros i j Hi. rewrite Mp. unfold P, P', rectangle_node. rewrite minus_INR by exact Hi.
      apply vec_ext; cbn; field; repeat split; lra. }
    destruct (finish_node (Reflection xOz_Plane) [m; mirror m xOz_Plane] [cells P n nh; map poly_flip (cells (fun i j => mirror_point xOz_Plane (P i j)) n nh)]
      (w / 2 / INR n * (h / INR nh)) (sqrt (w / 2 / INR n * (w / 2 / INR n) + h / INR nh * (h / INR nh))) c nm)
      as (f & l & t & Et & M & Fc & Ln & Lt & Fl & Cl); try assumption.
    - constructor; [exact Cm|]. constructor; [exact Cm'|constructor].
    - discriminate.
    - apply cells_area; rewrite ?Ew; assumption.
    - apply sqrt_pos.
    - assert (Hw2 : / 1000000 <= w / 2 / INR n) by now rewrite Ew.
      intros qs [<-|[<-|[]]].
      + split; [|split]; [apply cells_rect; try assumption; exact flat_frame|apply (cells_spaced (V 0 (- w / 4) 0) e_y e_x e_z); try assumption; exact flat_frame|now apply cells_nonempty].
      + split; [|split].
        * apply (Permutation_Forall Pm). apply cells_rect; try assumption; exact flat_frame.
        * intros p p' q q' Hq Hq'. apply (Permutation_in _ (Permutation_sym Pm)) in Hq. apply (Permutation_in _ (Permutation_sym Pm)) in Hq'. revert Hq Hq'.
          apply (cells_spaced (V 0 (w / 4) 0) e_y e_x e_z); try assumption; exact flat_frame.
        * intros E. rewrite E in Pm. apply Permutation_sym, Permutation_nil in Pm. revert Pm. now apply cells_nonempty.
    - exists (Leaf m), (Node (Reflection xOz_Plane) [Leaf m; Leaf (mirror m xOz_Plane)]), t, l. split; [exact Em|]. split.
      { unfold ReflectionSymmetricMesh, make_reflection. cbn [pl_normal xOz_Plane vz]. rewrite Reqb_refl. reflexivity. }
      split; [exact Et|]. split; [exact Fl|]. split; [rewrite <- Ln; exact (motion_frame f l _ _ _ M flat_frame)|]. split; [exact Lt|].
      eexists. split; [exact Cl|]. rewrite <- concat_map. rewrite <- (moved_cells f l) by assumption. apply Permutation_map. cbn [concat]. rewrite app_nil_r.
      rewrite cells_split. apply Permutation_app; [|eapply Permutation_trans; [|exact Pm]].
      + erewrite cells_ext; [apply Permutation_refl|]. intros i j _ _. unfold P, rectangle_node. rewrite Hn. apply vec_ext; cbn; field; repeat split; lra.
      + erewrite cells_ext; [apply Permutation_refl|]. intros i j _ _. unfold P', rectangle_node. rewrite Hn, plus_INR. apply vec_ext; cbn; field; repeat split; lra.
  Qed.

  Lemma strips P nh n : forall s, concat (map (fun k => cells (fun i j => P (k + i)%nat j) 1 nh) (seq s n)) = flat_map (fun i => map (cell P i) (seq 0 nh)) (seq s n).
  Proof.
    induction n as [|n IH]; intros s; cbn [seq map concat flat_map]; [reflexivity|]. rewrite IH. f_equal. unfold cells. cbn [seq flat_map]. rewrite app_nil_r.
    apply map_ext. intros j. unfold cell. now rewrite Nat.add_0_r, Nat.add_1_r.
  Qed.
  Lemma translation_ok w h n nh c nm : (2 <= n)%nat -> (0 < nh)%nat -> 0 < w -> 0 < h -> / 1000000 <= w / INR n -> / 1000000 <= h / INR nh ->
    unit_vector nm -> alignable e_z nm ->
    exists strip t0 t l, simple_rectangle argsort set_order (w / INR n) h 1 (Z.of_nat nh) (V 0 (- w / 2 + w / (2 * INR n)) 0) e_z = Ok strip
      /\ TranslationalSymmetricMesh strip (V 0 (w / INR n) 0) false (n - 1) = Ok t0 /\ finish argsort set_order t0 c nm = Ok t /\ filled t /\ frame (l e_y) (l e_x) nm /\ turns l e_z nm
      /\ exists qss, Forall2 carried (leaves t) qss
      /\ Permutation (cells (rectangle_node c (l e_y) (l e_x) w h n nh) n nh) (concat qss).
  Proof.
    intros Nn Nh Pw Ph Hw Hh Un Al.
    assert (Pn : 0 < INR n) by (apply lt_0_INR; lia).
    assert (Pm' : 0 < INR nh) by now apply lt_0_INR.
    set (dw := w / INR n) in *. assert (Pd : 0 < dw) by lra.
    assert (Hw1 : / 1000000 <= dw / INR 1) by (cbn [INR]; lra).
    destruct (simple_flat dw h 1 nh) with (c := V 0 (- w / 2 + w / (2 * INR n)) 0) as (m & Em & Cm); [lia|assumption..|].
    set (P := rectangle_node v0 e_y e_x w h n nh).
    set (tr := fun k => Mesh (map (fun p => vadd p (vscale (INR k) (V 0 dw 0))) (m_vertices m)) (m_faces m)).
    set (ms := map tr (seq 0 n)).
    assert (Ck : forall k, carried (tr k) (cells (fun i j => P (k + i)%nat j) 1 nh)
      /\ cells (fun i j => P (k + i)%nat j) 1 nh = cells (rectangle_node (vadd (V 0 (- w / 2 + w / (2 * INR n)) 0) (vscale (INR k) (V 0 dw 0))) e_y e_x dw h 1 nh) 1 nh).
    { intros k. assert (E : cells (fun i j => P (k + i)%nat j) 1 nh = cells (rectangle_node (vadd (V 0 (- w / 2 + w / (2 * INR n)) 0) (vscale (INR k) (V 0 dw 0))) e_y e_x dw h 1 nh) 1 nh).
      { apply cells_ext. intros i j _ _. unfold P, dw, rectangle_node. rewrite plus_INR. change (INR 1) with 1. apply vec_ext; cbn [vadd vscale vx vy vz e_x e_y v0]; field; repeat split; lra. }
      split; [|exact E]. rewrite E. exact (carried_motion _ _ _ _ _ _ _ _ _ _ (motion_translate (vscale (INR k) (V 0 dw 0))) Cm). }
    assert (E0 : tr 0%nat = m).
    { unfold tr. destruct m as [vs fs]. cbn [m_vertices m_faces]. f_equal. rewrite <- (map_id vs) at 2. apply map_ext. intros x. cbn [INR]. vring. }
    destruct (finish_node (Translation (V 0 dw 0) false) ms (map (fun k => cells (fun i j => P (k + i)%nat j) 1 nh) (seq 0 n))
      (dw / INR 1 * (h / INR nh)) (sqrt (dw / INR 1 * (dw / INR 1) + h / INR nh * (h / INR nh))) c nm)
      as (f & l & t & Et & M & Fc & Ln & Lt & Fl & Cl); try assumption.
    - unfold ms. clear - Ck. induction (seq 0 n) as [|k ks IH]; cbn [map]; constructor; [apply Ck|exact IH].
    - unfold ms. destruct n; [lia|discriminate].
    - apply cells_area; assumption || lia.
    - apply sqrt_pos.
    - intros qs Hq. apply in_map_iff in Hq. destruct Hq as (k & <- & _). rewrite (proj2 (Ck k)).
      split; [|split]; [apply cells_rect; try assumption; exact flat_frame || lia|eapply cells_spaced; try eassumption; exact flat_frame || lia|now apply cells_nonempty; lia].
    - exists (Leaf m), (Node (Translation (V 0 dw 0) false) (map Leaf ms)), t, l. split; [exact Em|]. split.
      { unfold TranslationalSymmetricMesh, make_translation. rewrite (proj2 (Nat.ltb_ge _ _)) by lia. cbn [vz]. rewrite Reqb_refl. cbn [negb].
        assert (X : forall ks, mapM (fun i => bind (copy (Leaf m)) (fun c0 => Ok (t_translate c0 (vscale (INR i) (V 0 dw 0))))) ks = Ok (map Leaf (map tr ks))).
        { induction ks as [|k ks IH]; cbn [mapM map]; [reflexivity|]. rewrite IH. reflexivity. }
        rewrite X. cbn [bind]. unfold ms. destruct n as [|n]; [lia|]. cbn [seq map]. rewrite E0. replace (S n - 1)%nat with n by lia. reflexivity. }
      split; [exact Et|]. split; [exact Fl|]. split; [rewrite <- Ln; exact (motion_frame f l _ _ _ M flat_frame)|]. split; [exact Lt|].
      eexists. split; [exact Cl|]. rewrite <- concat_map. rewrite <- (moved_cells f l) by assumption. apply Permutation_map. rewrite strips. apply Permutation_refl.
  Qed.
End Rectangle.
