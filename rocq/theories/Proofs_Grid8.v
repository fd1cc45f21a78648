From Coq Require Import Reals List Bool Arith ZArith Lia Lra Permutation.
From Verif Require Import Model_Base Model_Geometry Model_Mesh Model_Clip Spec_Mesh Spec_Tree Spec_Clip Model_Tree Model_Body Spec_Body
  Proofs_Geometry Proofs_Mesh Proofs_Clip4 Proofs_Clip5 Proofs_Integrals Proofs_Problem Model_Quality Spec_Quality Model_Normals Spec_Normals Model_Grid Spec_Grid
  Proofs_Grid Proofs_Grid2 Proofs_Grid3 Proofs_Grid4 Proofs_Grid5 Proofs_Grid6 Proofs_Grid7.
Import ListNotations.
Open Scope R_scope.

(** ** The free surface *)
Lemma surface_nodes x0 x1 nx y0 y1 ny i j :
  V (x0 + INR i * ((x1 - x0) / INR nx)) (y0 + INR j * ((y1 - y0) / INR ny)) 0 = surface_node x0 x1 nx y0 y1 ny i j.
Proof. unfold surface_node. apply vec_ext; cbn; unfold Rdiv; ring. Qed.
Lemma free_surface_built x0 x1 nx y0 y1 ny : (0 < nx)%nat -> (0 < ny)%nat ->
  exists m, free_surface (x0, x1) nx (y0, y1) ny = Ok m /\ valid m /\ all_used m /\ length (m_vertices m) = ((nx + 1) * (ny + 1))%nat
    /\ length (m_faces m) = (nx * ny)%nat
    /\ (forall i j, (i < nx)%nat -> (j < ny)%nat -> let P := surface_node x0 x1 nx y0 y1 ny in
        face_is m (i * ny + j) (P i j) (P i (S j)) (P (S i) (S j)) (P (S i) j))
    /\ conformal (m_faces m) /\ consistent (m_faces m) /\ m_faces m = grid_faces nx ny /\ polygons_of m (cells (surface_node x0 x1 nx y0 y1 ny) nx ny).
Proof.
  intros Nx Ny. unfold free_surface. cbn [fst snd]. rewrite grid_built. eexists. split; [reflexivity|]. split; [apply grid_valid|].
  split; [now apply grid_used|]. split; [cbn; rewrite nodes_count; lia|]. split; [cbn; apply grid_length|]. split; [|split; [apply grid_conformal|split; [apply grid_consistent|split; [reflexivity|]]]].
  - intros i j Hi Hj. rewrite <- !surface_nodes. exact (grid_face nx ny (fun x y => V x y 0) x0 x1 y0 y1 i j Hi Hj).
  - erewrite <- cells_ext; [apply (grid_polygons nx ny (fun x y => V x y 0) x0 x1 y0 y1)|]. intros. apply surface_nodes.
Qed.
Lemma sum_const (f : fprops -> R) A ps : Forall (fun p => f p = A) ps -> Rsum (map f ps) = INR (length ps) * A.
Proof.
  induction 1 as [|p ps E H IH]; [cbn; ring|]. cbn [map length]. rewrite Rsum_cons, IH, E, S_INR. ring.
Qed.
Lemma free_surface_panels x0 x1 nx y0 y1 ny m : (0 < nx)%nat -> (0 < ny)%nat -> / 1000000000000 <= (Rabs (x1 - x0) / INR nx) * (Rabs (y1 - y0) / INR ny) ->
  free_surface (x0, x1) nx (y0, y1) ny = Ok m ->
  exists ps, faces_props m = Ok ps /\ length ps = (nx * ny)%nat
    /\ Rsum (map p_area ps) = free_surface_area (x0, x1) (y0, y1)
    /\ (x0 < x1 -> y0 < y1 -> Forall (fun p => p_normal p = V 0 0 (-1)) ps).
Proof.
  intros Nx Ny HA E. destruct (free_surface_built x0 x1 nx y0 y1 ny Nx Ny) as (m' & E' & Vm & _ & _ & _ & _ & _ & _ & _ & Pq).
  rewrite E in E'. apply Ok_inj' in E'. subst m'.
  set (dx := (x1 - x0) / INR nx). set (dy := (y1 - y0) / INR ny).
  assert (Px : 0 < INR nx) by now apply lt_0_INR. assert (Py : 0 < INR ny) by now apply lt_0_INR.
  assert (Ax : Rabs (x1 - x0) / INR nx = Rabs dx) by (unfold dx, Rdiv; rewrite Rabs_mult, (Rabs_pos_eq (/ INR nx)); [reflexivity|left; now apply Rinv_0_lt_compat]).
  assert (Ay : Rabs (y1 - y0) / INR ny = Rabs dy) by (unfold dy, Rdiv; rewrite Rabs_mult, (Rabs_pos_eq (/ INR ny)); [reflexivity|left; now apply Rinv_0_lt_compat]).
  set (n := if Rlt_dec 0 (dx * dy) then V 0 0 (-1) else V 0 0 1).
  assert (Un : unit_vector n) by (apply unit_dot; unfold n; destruct (Rlt_dec _ _); vring).
  set (A := Rabs dx * Rabs dy). set (D := sqrt (dx * dx + dy * dy)).
  assert (HA' : / 1000000000000 <= A) by (unfold A; rewrite <- Ax, <- Ay; exact HA).
  assert (Rq : Forall (rectq A D n) (cells (surface_node x0 x1 nx y0 y1 ny) nx ny)).
  { apply Forall_forall. intros q Hq. apply cells_in in Hq. destruct Hq as (i & j & _ & _ & ->).
    exists (surface_node x0 x1 nx y0 y1 ny i j), (V dx 0 0), (V 0 dy 0). split; [|split; [|split]].
    - unfold cell, surface_node, dx, dy. rewrite !S_INR. repeat (apply f_equal2); try reflexivity; apply vec_ext; cbn; field; lra.
    - vring.
    - unfold A. rewrite <- Rabs_mult. unfold n. destruct (Rlt_dec 0 (dx * dy)) as [L|L]; [rewrite Rabs_pos_eq by lra|rewrite Rabs_left1 by lra]; vring.
    - unfold D. rewrite sqrt_sqrt by nra. unfold dot; cbn. ring. }
  exists (map face_of (cells (surface_node x0 x1 nx y0 y1 ny) nx ny)). split; [now apply leaf_props|].
  assert (Lc : length (map face_of (cells (surface_node x0 x1 nx y0 y1 ny) nx ny)) = (nx * ny)%nat) by (rewrite map_length; apply cells_length).
  split; [exact Lc|].
  assert (Fp : Forall (fun p => p_area p = A /\ p_normal p = n) (map face_of (cells (surface_node x0 x1 nx y0 y1 ny) nx ny))).
  { apply Forall_map. eapply Forall_impl; [|exact Rq]. intros q Hq. destruct (rectq_props A D n q Un HA' (sqrt_pos _) Hq) as (X & Y & _). auto. }
  split.
  - rewrite (sum_const p_area A) by (eapply Forall_impl; [|exact Fp]; now intros p [X _]). rewrite Lc, mult_INR.
    unfold A, free_surface_area. cbn [fst snd]. rewrite <- Ax, <- Ay. field. lra.
  - intros Lx Ly. eapply Forall_impl; [|exact Fp]. intros p [_ ->]. unfold n. destruct (Rlt_dec 0 (dx * dy)) as [L|L]; [reflexivity|]. exfalso. apply L.
    unfold dx, dy. apply Rmult_lt_0_compat; apply Rdiv_lt_0_compat; lra.
Qed.

(** ** Directions of the rectangles *)
Lemma start_side : alignable (V (-1) 0 0) e_y.
Proof. right. right. replace (cross (V (-1) 0 0) e_y) with (V 0 0 (-1)) by vring. assert (unit_vector (V 0 0 (-1))) as -> by (apply unit_dot; vring). lra. Qed.
Lemma up_side : alignable e_z e_y.
Proof. right. right. replace (cross e_z e_y) with (V (-1) 0 0) by vring. assert (unit_vector (V (-1) 0 0)) as -> by (apply unit_dot; vring). lra. Qed.
Lemma turns_plain_up l : turns l (V (-1) 0 0) e_z -> l e_y = e_y /\ l e_z = e_x.
Proof.
  intros (_ & _ & _ & Cr & Ls & Lx & _).
  assert (Ey : l e_y = e_y) by (replace (cross (V (-1) 0 0) e_z) with e_y in Lx by vring; exact Lx). split; [exact Ey|].
  replace e_z with (cross e_y (V (-1) 0 0)) by vring. rewrite <- Cr, Ey, Ls. vring.
Qed.
Lemma turns_plain_side l : turns l (V (-1) 0 0) e_y -> l e_y = e_x /\ l e_z = e_z.
Proof.
  intros (Sc & _ & _ & Cr & Ls & Lx & _).
  assert (Ez : l e_z = e_z).
  { replace (cross (V (-1) 0 0) e_y) with (vscale (-1) e_z) in Lx by vring. rewrite Sc in Lx.
    replace (l e_z) with (vscale (-1) (vscale (-1) (l e_z))) by vring. rewrite Lx. vring. }
  split; [|exact Ez]. replace e_y with (cross (V (-1) 0 0) e_z) at 1 by vring. rewrite <- Cr, Ez, Ls. vring.
Qed.
Lemma turns_flat_side l : turns l e_z e_y -> l e_y = V 0 0 (-1) /\ l e_x = e_x.
Proof.
  intros (Sc & _ & _ & Cr & Ls & Lx & _).
  assert (Ex : l e_x = e_x).
  { replace (cross e_z e_y) with (vscale (-1) e_x) in Lx by vring. rewrite Sc in Lx.
    replace (l e_x) with (vscale (-1) (vscale (-1) (l e_x))) by vring. rewrite Lx. vring. }
  split; [|exact Ex]. replace e_y with (cross e_z e_x) at 1 by vring. rewrite <- Cr, Ex, Ls. vring.
Qed.
(** The corners of a mesh made of polygons. *)
Lemma forall2_unique {A B} (R : A -> B -> Prop) : (forall a b b', R a b -> R a b' -> b = b') -> forall l l1 l2, Forall2 R l l1 -> Forall2 R l l2 -> l1 = l2.
Proof.
  intros U l l1 l2 H. revert l2. induction H as [|a b l l1 Hab H IH]; intros l2 K; inversion K; subst; [reflexivity|]. f_equal; [eauto|now apply IH].
Qed.
Lemma polygons_unique t qs qs' : tree_polygons t qs -> tree_polygons t qs' -> qs = qs'.
Proof.
  intros (a & Ha & ->) (b & Hb & ->). f_equal. revert Ha Hb. apply forall2_unique. intros m x y. apply forall2_unique.
  intros f [[[p q] r] s] [[[p' q'] r'] s'] (A & B & C & D) (A' & B' & C' & D'). congruence.
Qed.
Lemma made_of_corner t qs qs' q p : made_of t qs -> made_of t qs' -> In q qs -> In p (polygon_corners q) -> exists q', In q' qs' /\ In p (polygon_corners q').
Proof.
  intros (a & b & T & Pa & S) (a' & b' & T' & Pa' & S') Hq Hp. rewrite (polygons_unique t b' b) in S' by assumption.
  apply (Permutation_in _ Pa) in Hq. apply In_nth_error in Hq. destruct Hq as [k Hk]. destruct (Forall2_nth_l _ _ _ _ _ S Hk) as (q1 & H1 & S1).
  destruct (Forall2_nth_r _ _ _ _ _ S' H1) as (q2 & H2 & S2). exists q2.
  split; [apply (Permutation_in _ (Permutation_sym Pa')); now apply nth_error_In in H2|].
  apply (same_polygon_corners _ _ _ S2). apply (same_polygon_corners q1 q); [now apply same_polygon_sym|exact Hp].
Qed.

Section Witness.
  Variable argsort : list R -> list nat.
  Hypothesis Hs : sorts argsort.
  Variable set_order : list nat -> list nat.
  Hypothesis Ho : forall l, Permutation l (set_order l).

  Lemma ey_unit : unit_vector e_y.
  Proof. apply unit_dot. vring. Qed.
  (** A rectangle whose normal is horizontal: its width and height are exchanged. *)
  Lemma exchanged : exists t t', mesh_rectangle argsort set_order 4 2 v0 2 1 None e_y false false = Ok t
    /\ mesh_rectangle argsort set_order 4 2 v0 2 1 None e_y false true = Ok t' /\ ~ (exists qs, made_of t qs /\ made_of t' qs).
  Proof.
    destruct (mesh_rectangle_ok argsort Hs set_order Ho 4 2 v0 2 1 None e_y false false 2 1) as (l & t & E & Lt & Fr & _ & Mo & _);
      try lra; try lia; try reflexivity; try discriminate; [cbn; lra|cbn; lra|exact ey_unit|exact start_side|].
    destruct (mesh_rectangle_ok argsort Hs set_order Ho 4 2 v0 2 1 None e_y false true 2 1) as (l' & t' & E' & Lt' & Fr' & _ & Mo' & _);
      try lra; try lia; try reflexivity; try discriminate; [cbn; lra|cbn; lra|exact ey_unit|exact up_side|].
    cbn [orb] in *. apply turns_plain_side in Lt. destruct Lt as [Ly Lz]. apply turns_flat_side in Lt'. destruct Lt' as [Ly' Lx']. rewrite Ly, Lz in Mo. rewrite Ly', Lx' in Mo'.
    exists t, t'. split; [exact E|]. split; [exact E'|]. intros (qs & Q & Q').
    set (P' := rectangle_node v0 (V 0 0 (-1)) e_x 4 2 2 1) in Mo'.
    destruct (made_of_corner t' _ qs (cell P' 0 0) (P' 0 0)%nat Mo' Q') as (q & Hq & Hp); [cbn; auto|cbn; auto|].
    destruct (made_of_corner t qs _ q (P' 0 0)%nat Q Mo Hq Hp) as (q2 & Hq2 & Hp2).
    apply cells_in in Hq2. destruct Hq2 as (i & j & Hi & Hj & ->). assert (j = 0)%nat by lia. subst j.
    assert (X : vz (P' 0%nat 0%nat) = 2) by (unfold P', rectangle_node; cbn; field).
    assert (Y : forall k jj, (jj <= 1)%nat -> vz (rectangle_node v0 e_x e_z 4 2 2 1 k jj) <= 1).
    { intros k jj Hjj. unfold rectangle_node. cbn [vz vadd vscale v0 e_x e_z]. assert (INR jj <= 1) by (change 1 with (INR 1); now apply le_INR). change (INR 1) with 1. lra. }
    cbn in Hp2. destruct Hp2 as [H|[H|[H|[H|[]]]]]; rewrite <- H in X; match type of X with vz (rectangle_node _ _ _ _ _ _ _ ?k ?jj) = _ => pose proof (Y k jj ltac:(lia)) as Z; rewrite X in Z end; lra.
  Qed.

  (** A normal which is not a unit vector. *)
  Lemma same_alignment c : align_vectors c start (V 1 1 0) = align_vectors c start (V 1 0 0).
  Proof.
    assert (U : norm (V 0 0 (-1)) = 1) by (apply unit_dot; vring).
    unfold align_vectors, parallel_same_direction, parallel_vectors, geom_tol.
    replace (cross start (V 1 1 0)) with (V 0 0 (-1)) by (unfold start; vring). replace (cross start (V 1 0 0)) with v0 by (unfold start; vring).
    replace (cross start e_x) with v0 by (unfold start; vring). replace (dot start (V 1 1 0)) with (-1) by (unfold start; vring). replace (dot start (V 1 0 0)) with (-1) by (unfold start; vring).
    rewrite U, (proj2 (norm_zero v0) eq_refl). rewrite (proj2 (Rltb_false 1 _)) by lra. rewrite (proj2 (Rltb_true 0 (/ 1000000))) by lra.
    rewrite (proj2 (Rltb_false 0 (-1))) by lra. cbn [andb]. replace (cross start e_y) with (V 0 0 (-1)) by (unfold start; vring).
    rewrite !(proj2 (Rleb_true _ _)) by lra. cbn [andb]. destruct (new_axis _ _); [|reflexivity]. f_equal.
    replace (-1) with (Ropp 1) by lra. rewrite acos_opp, acos_1. ring.
  Qed.
  Lemma not_unit : exists t, mesh_rectangle argsort set_order 1 1 v0 1 1 None (V 1 1 0) false false = Ok t
    /\ exists p ps, t_props t = Ok (p :: ps) /\ p_normal p = V 1 0 0.
  Proof.
    assert (Ux : unit_vector (V 1 0 0)) by (apply unit_dot; vring).
    assert (Ax : alignable start (V 1 0 0)) by (right; left; unfold start; vring).
    destruct (mesh_rectangle_ok argsort Hs set_order Ho 1 1 v0 1 1 None (V 1 0 0) false false 1 1) as (l & t & E & Lt & Fr & _ & Mo & ps & Ep & Lp & Fp);
      try lra; try lia; try reflexivity; try discriminate; [cbn; lra|cbn; lra|exact Ux|exact Ax|].
    exists t. split.
    - rewrite <- E. unfold mesh_rectangle. destruct (negb _); [reflexivity|]. cbn [refined bind andb].
      destruct (grid_rectangle_ok 1 1 1 1) as (m & Em & Fm & Cm); try lia; try (cbn; lra). cbn [Z.of_nat Pos.of_succ_nat] in Em. rewrite Em. cbn [bind].
      unfold finish. cbn [t_heal].
      destruct (heal_vertical argsort Hs set_order Ho m (cells (rectangle_node v0 e_y e_z 1 1 1 1) 1 1) (1 / INR 1 * (1 / INR 1)) (sqrt (1 / INR 1 * (1 / INR 1) + 1 / INR 1 * (1 / INR 1))) start)
        as (m1 & E1 & C1); [exact start_unit|reflexivity|apply cells_area; cbn; lra || lia|apply sqrt_pos|apply cells_rect; [exact start_frame|lia|lia]|
         apply (cells_spaced v0 e_y e_z start); [exact start_frame|lia|lia|cbn; lra|cbn; lra]|apply cells_nonempty; lia|rewrite Fm; apply grid_conformal|rewrite Fm; apply grid_consistent|exact Cm|].
      rewrite E1. cbn [bind]. unfold t_align.
      assert (C2 : Forall2 carried (leaves (t_translate (Leaf m1) v0)) [map (poly_map (fun p => vadd p v0)) (cells (rectangle_node v0 e_y e_z 1 1 1 1) 1 1)]).
      { constructor; [|constructor]. apply (carried_moved (fun p => vadd p v0)); [|exact C1]. intros x y. apply (motion_inj _ _ x y (motion_translate v0)). }
      destruct (carried_props (t_translate (Leaf m1) v0) [map (poly_map (fun p : vec => vadd p v0)) (cells (rectangle_node v0 e_y e_z 1 1 1 1) 1 1)] (1 / INR 1 * (1 / INR 1)) (sqrt (1 / INR 1 * (1 / INR 1) + 1 / INR 1 * (1 / INR 1))) start start_unit) as (ps' & Ep' & Lp' & Fp');
        [apply cells_area; cbn; lra || lia|apply sqrt_pos|constructor|exact C2| |].
      { cbn [concat]. rewrite app_nil_r. apply Forall_map. apply Forall_impl with (P := rectq (1 / INR 1 * (1 / INR 1)) (sqrt (1 / INR 1 * (1 / INR 1) + 1 / INR 1 * (1 / INR 1))) start);
          [intros q Hq; exact (rectq_moved _ _ _ _ _ q (motion_translate v0) Hq)|]. apply cells_rect; [exact start_frame|lia|lia]. }
      rewrite Ep'. cbn [bind]. destruct ps' as [|p ps']; [discriminate|]. inversion Fp' as [|? ? (_ & Hn & _) _]; subst. cbn [get nth_error bind]. rewrite Hn, same_alignment. reflexivity.
    - destruct ps as [|p ps]; [discriminate|]. exists p, ps. split; [exact Ep|]. inversion Fp as [|? ? (_ & Hn & _) _]; subst. exact Hn.
  Qed.
  (** The default normal: all the variants are the same rectangle. *)
  Lemma same_flat w h c nw0 nh0 r tr rf nw nh : 0 < w -> 0 < h -> (0 < nw0)%Z -> (0 < nh0)%Z ->
    refined w h nw0 nh0 r = Ok (Z.of_nat nw, Z.of_nat nh) -> (0 < nw)%nat -> (0 < nh)%nat -> / 1000000 <= w / INR nw -> / 1000000 <= h / INR nh ->
    tr && rf = false -> (rf = true -> Nat.even nw = true) -> (tr = true -> (2 <= nw)%nat) ->
    exists t, mesh_rectangle argsort set_order w h c nw0 nh0 r e_z tr rf = Ok t /\ is_rectangle w h nw nh c e_y e_x e_z t.
  Proof.
    intros. destruct (mesh_rectangle_ok argsort Hs set_order Ho w h c nw0 nh0 r e_z tr rf nw nh) as (l & t & E & Lt & Ir); try assumption.
    - exact ez_unit.
    - destruct (tr || rf); [now left|exact start_up].
    - exists t. split; [exact E|]. destruct (tr || rf).
      + destruct Lt as (_ & _ & _ & _ & _ & _ & Id & _). rewrite !Id in Ir by reflexivity. exact Ir.
      + apply turns_plain_up in Lt. destruct Lt as [Ly Lz]. now rewrite Ly, Lz in Ir.
  Qed.
End Witness.
