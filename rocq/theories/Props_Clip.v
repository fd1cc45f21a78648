(** C27, C28 and the clipping part of C26: clipping of meshes, collections and bodies. *)
From Coq Require Import Reals List Bool ZArith Arith Lra Lia Sorted.
From Verif Require Import Model_Base Model_Geometry Model_Mesh Spec_Mesh Model_Quality Spec_Quality Model_Tree Spec_Tree Spec_Clip
  Proofs_Geometry Proofs_Mesh Proofs_Mesh2 Proofs_Mesh3 Proofs_Tree Proofs_Tree2 Model_Clip Proofs_Clip Proofs_Clip2 Proofs_Clip3 Proofs_Clip4
  Proofs_Clip5 Proofs_Clip6 Proofs_Clip7 Props_Geometry Props_Quality.
Import ListNotations.
Open Scope R_scope.

(** ** One face *)

(** Every triangle and every strictly convex planar quadrangle, whatever the side of each corner, is replaced by
    pieces that are exactly the part of it below the plane; no exception is raised. The new vertices are numbered
    from [n]. *)
Theorem face_is_cut_exactly :
  forall p tol vs n f a b c d,
    0 < tol -> corners_at vs f (a, b, c, d) -> fa f = fd f \/ diagonals_meet (a, b, c, d) ->
    (forall x, In x vs -> height p x = 0 \/ tol < Rabs (height p x)) ->
    exists fs news, clip_face p vs (map (distance_to_point p) vs) tol n (if is_tri f then [fa f; fb f; fc f] else face_ids f) = Ok (fs, news)
      /\ forall vs', (forall i x, nth_error vs i = Some x -> nth_error vs' i = Some x) ->
         (forall k y, nth_error news k = Some y -> nth_error vs' (n + k)%nat = Some y) ->
         exists pieces, Forall2 (corners_at vs') fs pieces /\ clips p (a, b, c, d) pieces.
Proof.
  intros p tol vs n f a b c d Ht Hc Hq Hg.
  destruct (clip_one_face p tol Ht vs Hg n f (a, b, c, d) Hc Hq) as (fs & news & E & H). exists fs, news. split; [exact E|].
  intros vs' H1 H2. apply H. now split.
Qed.
Print Assumptions face_is_cut_exactly.
Example face_is_cut_exactly_ex : 0 < vicinity /\ corners_at (m_vertices square) (F 0 1 2 3) (V 0 0 1, V 1 0 1, V 1 0 (-1), V 0 0 (-1))
  /\ diagonals_meet (V 0 0 1, V 1 0 1, V 1 0 (-1), V 0 0 (-1)) /\ general_position water vicinity square
  /\ hull (V 0 0 1, V 1 0 1, V 1 0 (-1), V 0 0 (-1)) (V (1 / 2) 0 (-1 / 2)) /\ height water (V (1 / 2) 0 (-1 / 2)) < 0.
Proof.
  split; [apply vicinity_pos|]. split; [now repeat split|]. split.
  { exists (1 / 2), (1 / 2). split; [lra|]. split; [lra|]. apply vec_ext; cbn; lra. }
  split; [apply square_clippable|]. split.
  - exists (1 / 4), 0, (1 / 2), (1 / 4). repeat split; try lra. apply vec_ext; cbn; lra.
  - rewrite water_height. cbn. lra.
Qed.

(** ** Meshes *)

(** The pieces labelled [i] are the part of the face [i] below the plane, for every face; the clipped mesh is made of the
    pieces, up to 1e-8, except those with a very small area.
    Missing with respect to the whole property: the pieces with an area less than 1e-5 times the mean area, which are
    removed although they are below the plane, and the merging of the vertices. *)
Theorem clip_keeps_part_below_partial :
  forall argsort, sorts argsort -> forall p tol m, 0 < tol -> clippable p tol m ->
  exists m' ids, clip argsort p tol m = Ok (m', ids) /\ clipped p m m' ids.
Proof.
  intros argsort Hs p tol m Ht (Hv & Hc & Hg). destruct (polygons_exist m Hv) as (qs & P).
  exact (clip_spec argsort Hs p tol Ht m Hv Hc Hg qs P).
Qed.
Print Assumptions clip_keeps_part_below_partial.
Example clip_keeps_part_below_ex : sorts insertion_argsort /\ 0 < vicinity /\ clippable water vicinity square.
Proof. split; [apply insertion_sorts|]. split; [apply vicinity_pos|apply square_clippable]. Qed.

(** A face below the plane is removed when it is much smaller than the others. *)
Theorem clip_small_face_refuted :
  exists m, clippable water vicinity m /\ (forall x, In x (m_vertices m) -> height water x < 0)
    /\ forall argsort, exists m' ids, clip argsort water vicinity m = Ok (m', ids) /\ nb_faces m = 2%nat /\ nb_faces m' = 1%nat
         /\ ids = [0; 1]%nat.
Proof.
  exists small_and_large. split; [apply small_clippable|]. split.
  - intros x Hx. rewrite water_height. repeat (destruct Hx as [<-|Hx]; [cbn; lra|]). destruct Hx.
  - intros argsort. rewrite small_clip. eexists. eexists. split; [reflexivity|]. now repeat split.
Qed.
Print Assumptions clip_small_face_refuted.

(** A convex planar quadrangle with three aligned corners on the plane makes the clipping fail. *)
Theorem clip_aligned_corners_refuted :
  exists m, valid m /\ flat m /\ general_position water vicinity m /\ forall argsort, clip argsort water vicinity m = Err OtherException.
Proof.
  exists aligned_face. split; [|split; [|split]].
  - intros f i [<-|[]]; cbn; intros H; repeat (destruct H as [<-|H]; [lia|]); destruct H.
  - exact aligned_convex.
  - intros x Hx. rewrite water_height. unfold vicinity.
    repeat (destruct Hx as [<-|Hx]; [cbn; first [left; reflexivity|right; rewrite Rabs_right by lra; lra]|]). destruct Hx.
  - exact aligned_clip.
Qed.
Print Assumptions clip_aligned_corners_refuted.

(** So does a vertex at a distance of the plane equal to the tolerance. *)
Theorem clip_at_tolerance_refuted :
  exists m, valid m /\ convex_faces m /\ forall argsort, clip argsort water vicinity m = Err OtherException.
Proof.
  exists edge_case. split; [|split].
  - intros f i [<-|[]]; cbn; intros H; repeat (destruct H as [<-|H]; [lia|]); destruct H.
  - intros [|k] f a b c d Hf _; cbn in Hf; [injection Hf as <-; now left|destruct k; discriminate].
  - exact edge_clip.
Qed.
Print Assumptions clip_at_tolerance_refuted.

(** ** Collections *)

(** Clipping a collection (of any nesting) clips each of its meshes; the labels are shifted by the number of faces of the
    preceding meshes; the faces of the result are those of the clipped meshes, in the same order. *)
Theorem collection_clip_is_clip_of_parts :
  forall argsort, sorts argsort -> forall p t, (forall m, In m (leaves t) -> clippable p vicinity m) ->
  exists t' ids rs, t_clip argsort p t = Ok (t', ids)
    /\ Forall2 (fun m r => clip argsort p vicinity m = Ok r /\ clipped p m (fst r) (snd r)) (leaves t) rs
    /\ ids = shifted 0 (leaves t) (map snd rs)
    /\ all_valid t'
    /\ forall qs, tree_polygons t' qs <-> exists qss, Forall2 polygons_of (map fst rs) qss /\ qs = concat qss.
Proof.
  intros argsort Hs p t H. destruct (tree_clip_spec argsort Hs p t H) as (t' & ids & E & rs & F & Ei & V & P).
  exists t', ids, rs. auto.
Qed.
Print Assumptions collection_clip_is_clip_of_parts.
Example collection_clip_ex : sorts insertion_argsort /\ forall m, In m (leaves (Node Plain [Leaf square; Node Plain [Leaf small_and_large; Leaf square]])) ->
  clippable water vicinity m.
Proof.
  split; [apply insertion_sorts|]. intros m [<-|[<-|[<-|[]]]]; [apply square_clippable|apply small_clippable|apply square_clippable].
Qed.

(** ** Bodies *)

(** The body can be clipped, and if no small face is removed (one face for each label), then each dof has one row for each
    face of the clipped mesh: the row of the face it is a piece of. *)
Theorem body_clip_aligns_dofs_partial :
  forall argsort, sorts argsort -> forall p b,
    (forall m, In m (leaves (cb_mesh b)) -> clippable p vicinity m) ->
    (forall lid m, cb_lid b = Some lid -> In m (leaves lid) -> clippable p vicinity m) ->
    (forall d, In d (cb_dofs b) -> length (snd d) = t_nb_faces (cb_mesh b)) ->
    exists b' ids, body_clip argsort p b = Ok b' /\ t_clip argsort p (cb_mesh b) = Ok (cb_mesh b', ids)
      /\ Forall2 (fun d d' => fst d' = fst d /\ picks (snd d) ids (snd d')) (cb_dofs b) (cb_dofs b')
      /\ (t_nb_faces (cb_mesh b') = length ids ->
          (forall d, In d (cb_dofs b') -> length (snd d) = t_nb_faces (cb_mesh b'))
          /\ forall qs qs', tree_polygons (cb_mesh b) qs -> tree_polygons (cb_mesh b') qs' -> traced p qs qs' ids).
Proof.
  intros argsort Hs p b Hm Hl Hd. destruct (body_clip_total argsort Hs p b Hm Hl Hd) as (b' & E).
  destruct (body_clip_inv argsort p b b' E) as (ids & Et & _ & F). exists b', ids. split; [exact E|]. split; [exact Et|]. split; [exact F|].
  intros N. destruct (tree_clip_spec argsort Hs p (cb_mesh b) Hm) as (t' & ids' & Et' & R).
  rewrite Et in Et'. assert (t' = cb_mesh b' /\ ids' = ids) as [-> ->] by (split; congruence).
  split; [|intros qs qs'; exact (tree_traced argsort p _ _ _ qs qs' R N)].
  intros d' Hd'. apply In_nth_error in Hd'. destruct Hd' as (k & Hk). destruct (Forall2_nth_r _ _ _ _ _ F Hk) as (d & _ & _ & P).
  destruct (proj1 (Forall2_nth _ _ _) P) as [L _]. lia.
Qed.
Print Assumptions body_clip_aligns_dofs_partial.
Example body_clip_ex : let b := Body (Leaf square) (Some (Leaf square)) [(0%nat, [V 1 0 0; V 2 0 0])] in
  sorts insertion_argsort
  /\ (forall m, In m (leaves (cb_mesh b)) -> clippable water vicinity m)
  /\ (forall lid m, cb_lid b = Some lid -> In m (leaves lid) -> clippable water vicinity m)
  /\ (forall d, In d (cb_dofs b) -> length (snd d) = t_nb_faces (cb_mesh b)).
Proof.
  cbn zeta. split; [apply insertion_sorts|]. split; [intros m [<-|[]]; apply square_clippable|]. split.
  - intros lid m E H. cbn in E. injection E as <-. destruct H as [<-|[]]. apply square_clippable.
  - intros d [<-|[]]. reflexivity.
Qed.

(** Otherwise the dofs are not aligned: the body below has two rows for a single face, and the first row is the one of the
    removed face. *)
Theorem body_clip_misaligned_refuted :
  exists b, (forall m, In m (leaves (cb_mesh b)) -> clippable water vicinity m)
    /\ (forall d, In d (cb_dofs b) -> length (snd d) = t_nb_faces (cb_mesh b))
    /\ forall argsort, exists b', body_clip argsort water b = Ok b' /\ t_nb_faces (cb_mesh b') = 1%nat
         /\ map snd (cb_dofs b') = [[V 1 0 0; V 2 0 0]]
         /\ forall m m' a b' c d, cb_mesh b = Leaf m -> face_is m 1 a b' c d -> (forall b2, body_clip argsort water b = Ok b2 -> cb_mesh b2 = Leaf m' -> face_is m' 0 a b' c d).
Proof.
  exists small_body. split; [intros m [<-|[]]; apply small_clippable|]. split; [intros d [<-|[]]; reflexivity|].
  intros argsort. rewrite small_body_clip. eexists. split; [reflexivity|]. split; [reflexivity|]. split; [reflexivity|].
  intros m m' a b' c d E (f & Hf & X) b2 E2 Em. cbn in E. injection E as <-. apply Ok_inj' in E2. subst b2. cbn in Em. injection Em as <-.
  exists f. cbn in Hf. split; [exact Hf|exact X].
Qed.
Print Assumptions body_clip_misaligned_refuted.

(** A dof without one row for each face is refused. *)
Theorem body_clip_wrong_dof :
  forall argsort p b d, In d (cb_dofs b) -> length (snd d) <> t_nb_faces (cb_mesh b) -> body_clip argsort p b = Err ValueError.
Proof.
  intros argsort p b d Hd N. unfold body_clip.
  assert (E : forallb (fun d : nat * list vec => (length (snd d) =? t_nb_faces (cb_mesh b))%nat) (cb_dofs b) = false).
  { apply not_true_iff_false. intros H. rewrite forallb_forall in H. specialize (H d Hd). apply Nat.eqb_eq in H. contradiction. }
  now rewrite E.
Qed.
Print Assumptions body_clip_wrong_dof.
Example body_clip_wrong_dof_ex : In (0%nat, [V 1 0 0]) (cb_dofs (Body (Leaf square) None [(0%nat, [V 1 0 0])]))
  /\ length [V 1 0 0] <> t_nb_faces (Leaf square).
Proof. split; [now left|discriminate]. Qed.
