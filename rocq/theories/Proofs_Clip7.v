(** Examples and counter-examples for the clipping. *)
From Coq Require Import Reals List Bool ZArith Arith Lra Lia Sorted.
From Verif Require Import Model_Base Model_Geometry Model_Mesh Spec_Mesh Model_Quality Spec_Quality Model_Tree Spec_Tree Spec_Clip
  Proofs_Geometry Proofs_Mesh Proofs_Mesh2 Proofs_Mesh3 Proofs_Tree Proofs_Tree2 Model_Clip Proofs_Clip Proofs_Clip2 Proofs_Clip3 Proofs_Clip4
  Proofs_Clip5 Proofs_Clip6.
Import ListNotations.
Open Scope R_scope.

Definition water : plane := Plane e_z v0.
Lemma water_height x : height water x = vz x.
Proof. unfold height, water, dot, vsub; cbn. ring. Qed.
Lemma water_distance x : distance_to_point water x = vz x.
Proof. rewrite height_distance. apply water_height. Qed.
Lemma norm_of v t : 0 <= t -> dot v v = t * t -> norm v = t.
Proof. intros H E. unfold norm. rewrite E. now apply sqrt_square. Qed.
Lemma side_below' tol d : 0 < tol -> d < - tol -> side_of tol d = Below.
Proof.
  intros T H. unfold side_of. rewrite (proj2 (Rltb_false tol d)) by lra.
  rewrite (proj2 (Rltb_false (Rabs d) tol)) by (rewrite Rabs_left; lra). now rewrite (proj2 (Rltb_true d (- tol))).
Qed.
Lemma side_above' tol d : tol < d -> side_of tol d = Above.
Proof. intros H. unfold side_of. now rewrite (proj2 (Rltb_true tol d)). Qed.
Lemma side_on' tol d : 0 < tol -> d = 0 -> side_of tol d = On.
Proof.
  intros T ->. unfold side_of. rewrite (proj2 (Rltb_false tol 0)) by lra. now rewrite (proj2 (Rltb_true (Rabs 0) tol)) by (rewrite Rabs_R0; lra).
Qed.

(** A vertical square crossing the surface, and a triangle below it. *)
Definition square : mesh :=
  Mesh [V 0 0 1; V 1 0 1; V 1 0 (-1); V 0 0 (-1); V 0 0 (-2)] [F 0 1 2 3; F 3 2 4 3].
Lemma square_clippable : clippable water vicinity square.
Proof.
  unfold clippable, vicinity. split; [|split].
  - intros f i [<-|[<-|[]]]; cbn; intros H; repeat (destruct H as [<-|H]; [lia|]); destruct H.
  - intros [|[|k]] f a b c d Hf (f' & Hf' & A & B & C & E); cbn in Hf, Hf'; [| |destruct k; discriminate].
    + injection Hf as <-. injection Hf' as <-. cbn in A, B, C, E.
      injection A as <-. injection B as <-. injection C as <-. injection E as <-. right.
      exists (1 / 2), (1 / 2). split; [lra|]. split; [lra|]. apply vec_ext; cbn; lra.
    + injection Hf as <-. now left.
  - intros x Hx. rewrite water_height. right.
    repeat (destruct Hx as [<-|Hx]; [cbn; first [rewrite Rabs_right by lra; lra|rewrite Rabs_left by lra; lra]|]). destruct Hx.
Qed.

(** Three aligned corners on the plane. *)
Definition aligned_face : mesh := Mesh [V 0 0 0; V 1 0 0; V 2 0 0; V 1 0 1] [F 0 1 2 3].
Lemma aligned_sides : map (side_of vicinity) (map (distance_to_point water) (m_vertices aligned_face)) = [On; On; On; Above].
Proof.
  cbn [aligned_face m_vertices map]. rewrite !water_distance. cbn [vz]. unfold vicinity.
  rewrite !side_on' by lra. now rewrite side_above' by lra.
Qed.
Lemma aligned_clip argsort : clip argsort water vicinity aligned_face = Err OtherException.
Proof.
  unfold clip. rewrite aligned_sides.
  assert (Ed : map (distance_to_point water) (m_vertices aligned_face) = [0; 0; 0; 1]).
  { cbn [aligned_face m_vertices map]. rewrite !water_distance. reflexivity. }
  rewrite Ed.
  change (count is_above [On; On; On; Above] =? nb_vertices aligned_face)%nat with false.
  change (count (fun s => is_below s || is_on s) [On; On; On; Above] =? nb_vertices aligned_face)%nat with false. cbv iota.
  assert (Ep : partition_ids [On; On; On; Above] (m_faces aligned_face) = Ok ([], [0%nat], [])) by reflexivity.
  rewrite Ep. cbn [bind].
  assert (E1 : extract_faces aligned_face (map Z.of_nat []) = Ok (Mesh [] [], [])) by reflexivity.
  assert (E2 : extract_faces aligned_face (map Z.of_nat [0%nat]) = Ok (aligned_face, [0%nat; 1%nat; 2%nat; 3%nat])) by reflexivity.
  rewrite E1. cbn [bind]. rewrite E2. cbn [bind fst snd].
  change (0 <? nb_faces aligned_face)%nat with true. cbv iota.
  assert (E3 : mapM (get [0; 0; 0; 1]) [0; 1; 2; 3]%nat = Ok [0; 0; 0; 1]) by reflexivity. rewrite E3. cbn [bind].
  assert (E4 : clip_face water (m_vertices aligned_face) [0; 0; 0; 1] vicinity 4 [0; 1; 2; 3]%nat = Err OtherException).
  { unfold clip_face. rewrite E3. cbn [bind map]. unfold vicinity.
    rewrite !(side_on' _ 0) by lra. rewrite side_above' by lra. reflexivity. }
  unfold clip_crown.
  assert (E5 : clip_faces water (m_vertices aligned_face) [0; 0; 0; 1] vicinity (length (m_vertices aligned_face)) 0 (m_faces aligned_face)
    = bind (clip_face water (m_vertices aligned_face) [0; 0; 0; 1] vicinity 4 [0; 1; 2; 3]%nat)
        (fun r => bind (clip_faces water (m_vertices aligned_face) [0; 0; 0; 1] vicinity (4 + length (snd r)) 1 []) (fun r' =>
         Ok (map (fun g => (g, 0%nat)) (fst r) ++ fst r', snd r ++ snd r')))) by reflexivity.
  rewrite E5, E4. reflexivity.
Qed.
Lemma aligned_convex : flat aligned_face.
Proof.
  intros [|k] f a b c d Hf (f' & Hf' & A & B & C & E); cbn in Hf, Hf'; [|destruct k; discriminate].
  injection Hf as <-. injection Hf' as <-. cbn in A, B, C, E.
  injection A as <-. injection B as <-. injection C as <-. injection E as <-. right.
  exists (V 0 (-1) 0), 0, 1, 2, 1. split; [apply unit_dot; unfold dot; cbn; lra|].
  split; [lra|]. split; [lra|]. split; [lra|]. split; [lra|].
  split; [|split; [|split]]; apply vec_ext; cbn; lra.
Qed.

(** A small triangle and a large one, both below the plane. *)
Definition small_and_large : mesh :=
  Mesh [V 0 0 (-2); V (/ 1000) 0 (-2); V 0 (/ 1000) (-2); V 0 0 (-1); V 1 0 (-1); V 0 1 (-1)] [F 0 1 2 0; F 3 4 5 3].
Lemma small_sides : map (side_of vicinity) (map (distance_to_point water) (m_vertices small_and_large)) = [Below; Below; Below; Below; Below; Below].
Proof.
  cbn [small_and_large m_vertices map]. rewrite !water_distance. cbn [vz]. unfold vicinity. now rewrite !side_below' by lra.
Qed.
Lemma small_props : faces_props small_and_large = Ok [FProps (/ 2000000) e_z (V (/ 3000) (/ 3000) (-2)) (p_radius (props_of true (Q (V 0 0 (-2)) (V (/ 1000) 0 (-2)) (V 0 (/ 1000) (-2)) (V 0 0 (-2)))));
  FProps (/ 2) e_z (V (/ 3) (/ 3) (-1)) (p_radius (props_of true (Q (V 0 0 (-1)) (V 1 0 (-1)) (V 0 1 (-1)) (V 0 0 (-1)))))].
Proof.
  assert (N1 : norm (cross (vsub (V (/ 1000) 0 (-2)) (V 0 0 (-2))) (vsub (V 0 (/ 1000) (-2)) (V 0 0 (-2)))) = / 1000000) by (apply norm_of; [lra|unfold dot, cross, vsub; cbn; lra]).
  assert (N2 : norm (cross (vsub (V 1 0 (-1)) (V 0 0 (-1))) (vsub (V 0 1 (-1)) (V 0 0 (-1)))) = 1) by (apply norm_of; [lra|unfold dot, cross, vsub; cbn; lra]).
  unfold faces_props. cbn [small_and_large m_faces m_vertices mapM]. unfold face_props, face_points, get. cbn [nth_error fa fb fc fd bind is_tri Nat.eqb].
  unfold props_of, tri_props. cbn [qa qb qc qd]. rewrite N1, N2. unfold degenerate_tol.
  rewrite (Rabs_right (/ 1000000)) by lra. rewrite (Rabs_right 1) by lra.
  rewrite (proj2 (Rltb_false (/ 1000000) (/ 1000000000000))) by lra. rewrite (proj2 (Rltb_false 1 (/ 1000000000000))) by lra.
  cbn [p_radius]. do 2 f_equal; [|f_equal]; f_equal; try (apply vec_ext; cbn; lra); lra.
Qed.
Lemma small_clip argsort : clip argsort water vicinity small_and_large = Ok (Mesh (m_vertices small_and_large) [F 3 4 5 3], [0; 1]%nat).
Proof.
  unfold clip. rewrite small_sides.
  change (count is_above [Below; Below; Below; Below; Below; Below] =? nb_vertices small_and_large)%nat with false.
  change (count (fun s => is_below s || is_on s) [Below; Below; Below; Below; Below; Below] =? nb_vertices small_and_large)%nat with true. cbv iota.
  unfold finish.
  assert (E1 : remove_unused small_and_large = Ok small_and_large) by reflexivity. rewrite E1. cbn [bind].
  unfold remove_degenerated. rewrite (proj2 (Rltb_true 0 (/ 100000))) by lra. cbn [negb]. rewrite small_props. cbn [bind].
  set (ra := p_radius _). set (rb := p_radius _). cbn [map p_area length INR].
  assert (Em : Rsum [/ 2000000; / 2] / (1 + 1) * / 100000 = 1000001 / 400000000000) by (unfold Rsum; cbn [fold_right]; lra).
  rewrite Em. cbn [small_and_large m_faces m_vertices combine filter snd p_area].
  rewrite (proj2 (Rltb_true (/ 2000000) (1000001 / 400000000000))) by lra.
  rewrite (proj2 (Rltb_false (/ 2) (1000001 / 400000000000))) by lra. reflexivity.
Qed.
Definition small_body : clipped_body := Body (Leaf small_and_large) None [(0%nat, [V 1 0 0; V 2 0 0])].
Lemma small_body_clip argsort : body_clip argsort water small_body
  = Ok (Body (Leaf (Mesh (m_vertices small_and_large) [F 3 4 5 3])) None [(0%nat, [V 1 0 0; V 2 0 0])]).
Proof.
  unfold body_clip. change (negb _) with false. cbv iota. cbn [small_body cb_mesh cb_lid cb_dofs t_clip].
  rewrite small_clip. reflexivity.
Qed.
Lemma small_clippable : clippable water vicinity small_and_large.
Proof.
  unfold clippable, vicinity. split; [|split].
  - intros f i [<-|[<-|[]]]; cbn; intros H; repeat (destruct H as [<-|H]; [lia|]); destruct H.
  - intros [|[|k]] f a b c d Hf _; cbn in Hf; [| |destruct k; discriminate]; injection Hf as <-; now left.
  - intros x Hx. rewrite water_height. right.
    repeat (destruct Hx as [<-|Hx]; [cbn; first [rewrite Rabs_right by lra; lra|rewrite Rabs_left by lra; lra]|]). destruct Hx.
Qed.

(** A vertex at a distance equal to the tolerance. *)
Definition edge_case : mesh := Mesh [V 0 0 vicinity; V 1 0 (-1); V 0 1 (-1)] [F 0 1 2 0].
Lemma edge_side : side_of vicinity vicinity = Neither.
Proof.
  unfold side_of, vicinity. rewrite (proj2 (Rltb_false _ _)) by lra. rewrite (proj2 (Rltb_false _ _)) by (rewrite Rabs_right; lra).
  now rewrite (proj2 (Rltb_false _ _)) by lra.
Qed.
Lemma edge_sides : map (side_of vicinity) (map (distance_to_point water) (m_vertices edge_case)) = [Neither; Below; Below].
Proof.
  cbn [edge_case m_vertices map]. rewrite !water_distance. cbn [vz]. rewrite edge_side. unfold vicinity. now rewrite !side_below' by lra.
Qed.
Lemma edge_clip argsort : clip argsort water vicinity edge_case = Err OtherException.
Proof.
  unfold clip. rewrite edge_sides.
  assert (Ed : map (distance_to_point water) (m_vertices edge_case) = [vicinity; -1; -1]).
  { cbn [edge_case m_vertices map]. rewrite !water_distance. reflexivity. }
  rewrite Ed.
  change (count is_above [Neither; Below; Below] =? nb_vertices edge_case)%nat with false.
  change (count (fun s => is_below s || is_on s) [Neither; Below; Below] =? nb_vertices edge_case)%nat with false. cbv iota.
  assert (Ep : partition_ids [Neither; Below; Below] (m_faces edge_case) = Ok ([], [0%nat], [])) by reflexivity.
  rewrite Ep. cbn [bind].
  assert (E1 : extract_faces edge_case (map Z.of_nat []) = Ok (Mesh [] [], [])) by reflexivity.
  assert (E2 : extract_faces edge_case (map Z.of_nat [0%nat]) = Ok (edge_case, [0%nat; 1%nat; 2%nat])) by reflexivity.
  rewrite E1. cbn [bind]. rewrite E2. cbn [bind fst snd].
  change (0 <? nb_faces edge_case)%nat with true. cbv iota.
  assert (E3 : mapM (get [vicinity; -1; -1]) [0; 1; 2]%nat = Ok [vicinity; -1; -1]) by reflexivity. rewrite E3. cbn [bind].
  assert (E4 : clip_face water (m_vertices edge_case) [vicinity; -1; -1] vicinity 3 [0; 1; 2]%nat = Err OtherException).
  { unfold clip_face. rewrite E3. cbn [bind map]. rewrite edge_side. unfold vicinity. rewrite !side_below' by lra. reflexivity. }
  unfold clip_crown.
  assert (E5 : clip_faces water (m_vertices edge_case) [vicinity; -1; -1] vicinity (length (m_vertices edge_case)) 0 (m_faces edge_case)
    = bind (clip_face water (m_vertices edge_case) [vicinity; -1; -1] vicinity 3 [0; 1; 2]%nat)
        (fun r => bind (clip_faces water (m_vertices edge_case) [vicinity; -1; -1] vicinity (3 + length (snd r)) 1 []) (fun r' =>
         Ok (map (fun g => (g, 0%nat)) (fst r) ++ fst r', snd r ++ snd r')))) by reflexivity.
  rewrite E5, E4. reflexivity.
Qed.
