From Coq Require Import Reals List Bool ZArith Arith Lra Lia Permutation.
From Verif Require Import Model_Base Model_Geometry Model_Mesh Spec_Mesh Model_Tree Spec_Tree Spec_Clip Spec_Integrals
  Proofs_Geometry Proofs_Mesh Proofs_Mesh2 Proofs_Mesh3 Proofs_Tree Proofs_Tree2 Proofs_Clip4 Proofs_Clip5 Proofs_Clip6 Proofs_Clip7 Model_Integrals Proofs_Integrals Proofs_Integrals2.
Import ListNotations.
Open Scope R_scope.

(** ** Meshes whose opposite edges match *)
Definition face_edges (f : face) : list (nat * nat) := [(fa f, fb f); (fb f, fc f); (fc f, fd f); (fd f, fa f)].
Definition pair_dec : forall x y : nat * nat, {x = y} + {x <> y}.
Proof. decide equality; apply Nat.eq_dec. Defined.
Definition flipped (e : nat * nat) : nat * nat := (snd e, fst e).
Definition matched (fs : list face) : bool :=
  let l := flat_map face_edges fs in
  forallb (fun e => Nat.eqb (count_occ pair_dec l e) (count_occ pair_dec l (flipped e))) l.
Lemma flipped_flipped e : flipped (flipped e) = e. Proof. now destruct e. Qed.
Lemma count_flipped l e : count_occ pair_dec (map flipped l) e = count_occ pair_dec l (flipped e).
Proof.
  rewrite (count_occ_map flipped pair_dec pair_dec) with (l := l) (x := flipped e).
  - now rewrite flipped_flipped.
  - intros x y H. now rewrite <- (flipped_flipped x), H, flipped_flipped.
Qed.
Lemma matched_perm fs : matched fs = true -> Permutation (flat_map face_edges fs) (map flipped (flat_map face_edges fs)).
Proof.
  unfold matched. set (l := flat_map face_edges fs). intros H. rewrite forallb_forall in H.
  apply (Permutation_count_occ pair_dec). intros e. rewrite count_flipped.
  destruct (in_dec pair_dec e l) as [I|I]; [apply Nat.eqb_eq; now apply H|].
  destruct (in_dec pair_dec (flipped e) l) as [J|J].
  - specialize (H _ J). rewrite flipped_flipped in H. apply Nat.eqb_eq in H. now symmetry.
  - rewrite (proj1 (count_occ_not_In pair_dec l e) I), (proj1 (count_occ_not_In pair_dec l (flipped e)) J). reflexivity.
Qed.
Lemma matched_watertight m qs : polygons_of m qs -> matched (m_faces m) = true -> watertight qs.
Proof.
  intros P M. apply matched_perm in M. unfold watertight.
  set (at_ := fun i => nth i (m_vertices m) v0). set (g := fun e : nat * nat => (at_ (fst e), at_ (snd e))).
  assert (E : flat_map edges qs = map g (flat_map face_edges (m_faces m))).
  { clear M. unfold polygons_of in P. induction P as [|f q fs qs H P IH]; [reflexivity|]. cbn [flat_map]. rewrite map_app, IH. f_equal.
    destruct q as [[[a b] c] d]. destruct H as (A & B & C & D). cbn. unfold g, at_. cbn.
    now rewrite (nth_error_nth _ _ v0 A), (nth_error_nth _ _ v0 B), (nth_error_nth _ _ v0 C), (nth_error_nth _ _ v0 D). }
  rewrite E, map_map. rewrite (map_ext (fun x => swap (g x)) (fun x => g (flipped x))) by (intros [x y]; reflexivity).
  rewrite <- map_map with (f := flipped). now apply Permutation_map.
Qed.

(** ** A tetrahedron *)
Definition tetra : mesh := Mesh [V 0 0 0; V 1 0 0; V 0 1 0; V 0 0 1] [F 0 2 1 0; F 0 1 3 0; F 0 3 2 0; F 1 2 3 1].
Definition tetra_faces : list polygon :=
  [(V 0 0 0, V 0 1 0, V 1 0 0, V 0 0 0); (V 0 0 0, V 1 0 0, V 0 0 1, V 0 0 0); (V 0 0 0, V 0 0 1, V 0 1 0, V 0 0 0); (V 1 0 0, V 0 1 0, V 0 0 1, V 1 0 0)].
Lemma tri_proper a b c t : / 1000000000000 <= t -> dot (cross (vsub b a) (vsub c a)) (cross (vsub b a) (vsub c a)) = t * t -> proper_face (a, b, c, a).
Proof.
  intros H E. split; [now left|].
  assert (En : norm (cross (vsub b a) (vsub c a)) = 2 * norm (area_vector a b c a)).
  { transitivity (norm (vscale 2 (area_vector a b c a))); [|rewrite norm_scale, Rabs_right by lra; reflexivity].
    f_equal. unfold area_vector. clear. apply vec_ext; cbn; field. }
  rewrite <- En, (norm_of _ t); [exact H|lra|exact E].
Qed.
Ltac tri t := apply (tri_proper _ _ _ t); [try lra|unfold dot, cross, vsub; cbn; try field].
Lemma tetra_surface : proper_surface (Leaf tetra) tetra_faces.
Proof.
  split; [constructor|]. split.
  - exists [tetra_faces]. split; [|reflexivity]. constructor; [|constructor]. repeat constructor.
  - unfold tetra_faces. constructor; [tri 1|]. constructor; [tri 1|]. constructor; [tri 1|]. constructor; [|constructor]. tri (sqrt 3).
    + rewrite <- (Rmult_1_r (/ 1000000000000)). apply Rle_trans with (sqrt 1); [rewrite sqrt_1; lra|apply sqrt_le_1; lra].
    + rewrite sqrt_sqrt by lra. ring.
Qed.
Lemma tetra_watertight : watertight tetra_faces.
Proof. apply (matched_watertight tetra); [repeat constructor|reflexivity]. Qed.

Lemma tetra_volume : volume (Leaf tetra) = Ok (1 / 6).
Proof. rewrite (volume_value _ _ tetra_surface). f_equal. unfold tetra_faces, Rsum, signed_volume, triple, dot, cross. cbn. field. Qed.

(** The center of buoyancy of the tetrahedron, computed from the values at the centers of the faces. *)
Lemma face_center a b c : proper_face (a, b, c, a) -> p_center (face_of (a, b, c, a)) = vscale (/ 3) (vadd (vadd a b) c).
Proof.
  intros H. destruct (face_flux _ H) as (A & _). unfold face_of, props_of in *. cbn [quad_of] in *. rewrite tri_as_quad in *. unfold tri_props in *. cbn [qa qb qc] in *.
  destruct (Rltb _ _) in *; [cbn in A; lra|reflexivity].
Qed.
Lemma face_square a b c : proper_face (a, b, c, a) ->
  vscale (p_area (face_of (a, b, c, a))) (vmul (p_normal (face_of (a, b, c, a))) (vmul (p_center (face_of (a, b, c, a))) (p_center (face_of (a, b, c, a)))))
  = vmul (area_vector a b c a) (vmul (vscale (/ 3) (vadd (vadd a b) c)) (vscale (/ 3) (vadd (vadd a b) c))).
Proof.
  intros H. rewrite (face_center _ _ _ H). destruct (face_flux _ H) as (_ & _ & E & _). cbn [area_of] in E. rewrite <- E.
  apply vec_ext; cbn [vx vy vz vscale vmul]; ring.
Qed.
Lemma tetra_buoyancy : center_of_buoyancy (Leaf tetra) = Ok (Some (V (1 / 6) (1 / 6) (1 / 6))).
Proof.
  destruct tetra_surface as (F & P & G). unfold center_of_buoyancy. rewrite (buoyancy_value _ _ F P), tetra_volume. cbn [bind].
  assert (Reqb (1 / 6) 0 = false) as -> by (unfold Reqb; destruct (Req_EM_T (1 / 6) 0); [lra|reflexivity]).
  do 2 f_equal. unfold tetra_faces in *. rewrite Forall_forall in G. cbn [map]. rewrite !face_square by (apply G; cbn; auto 6).
  unfold vsum, fold_right, area_vector, vmul, vadd, vscale, cross, v0. cbn [vx vy vz]. apply vec_ext; cbn [vx vy vz]; field.
Qed.

(** ** A hull open at the free surface *)
Definition pyramid : mesh := Mesh [V 0 0 0; V 1 0 0; V 0 1 0; V 0 0 (-1)] [F 1 0 3 1; F 2 1 3 2; F 0 2 3 0].
Definition pyramid_faces : list polygon :=
  [(V 1 0 0, V 0 0 0, V 0 0 (-1), V 1 0 0); (V 0 1 0, V 1 0 0, V 0 0 (-1), V 0 1 0); (V 0 0 0, V 0 1 0, V 0 0 (-1), V 0 0 0)].
Definition pyramid_top : polygon := (V 0 0 0, V 1 0 0, V 0 1 0, V 0 0 0).
Lemma pyramid_surface : proper_surface (Leaf pyramid) pyramid_faces.
Proof.
  split; [constructor|]. split.
  - exists [pyramid_faces]. split; [|reflexivity]. constructor; [|constructor]. repeat constructor.
  - unfold pyramid_faces. constructor; [tri 1|]. constructor; [|constructor; [tri 1|constructor]]. tri (sqrt 3).
    + apply Rle_trans with (sqrt 1); [rewrite sqrt_1; lra|apply sqrt_le_1; lra].
    + rewrite sqrt_sqrt by lra. ring.
Qed.
Lemma pyramid_watertight : watertight (pyramid_faces ++ [pyramid_top]).
Proof.
  apply (matched_watertight (Mesh [V 0 0 0; V 1 0 0; V 0 1 0; V 0 0 (-1)] [F 1 0 3 1; F 2 1 3 2; F 0 2 3 0; F 0 1 2 0])); [repeat constructor|reflexivity].
Qed.
Lemma pyramid_lid : Forall horizontal_lid [pyramid_top].
Proof. constructor; [|constructor]. cbn. repeat split; try reflexivity. lra. Qed.

(** ** A closed surface with a quadrangle that is not planar *)
Definition pocket : mesh := Mesh [V 0 0 0; V 1 0 0; V 1 1 1; V 0 1 0] [F 0 1 2 3; F 0 2 1 0; F 0 3 2 0].
Definition pocket_faces : list polygon :=
  [(V 0 0 0, V 1 0 0, V 1 1 1, V 0 1 0); (V 0 0 0, V 1 1 1, V 1 0 0, V 0 0 0); (V 0 0 0, V 0 1 0, V 1 1 1, V 0 0 0)].
Lemma pocket_polygons : tree_polygons (Leaf pocket) pocket_faces.
Proof. exists [pocket_faces]. split; [|reflexivity]. constructor; [|constructor]. repeat constructor. Qed.
Lemma pocket_watertight : watertight pocket_faces.
Proof. apply (matched_watertight pocket); [repeat constructor|reflexivity]. Qed.
Lemma pocket_area : waterplane_area (Leaf pocket) = Ok (1 - 2 * sqrt 2 / sqrt 6).
Proof.
  rewrite (waterplane_value _ _ (filled_leaf _) pocket_polygons). f_equal. unfold pocket_faces. cbn [map]. rewrite !Rsum_cons, Rsum_nil.
  assert (S2 : / 1000000000000 <= sqrt 2) by (apply Rle_trans with (sqrt 1); [rewrite sqrt_1; lra|apply sqrt_le_1; lra]).
  assert (S6 : degenerate_tol <= sqrt 6).
  { apply Rle_trans with (sqrt 1); [rewrite sqrt_1; unfold degenerate_tol; lra|apply sqrt_le_1; lra]. }
  assert (P1 : proper_face (V 0 0 0, V 1 1 1, V 1 0 0, V 0 0 0)) by (tri (sqrt 2); rewrite sqrt_sqrt by lra; ring).
  assert (P2 : proper_face (V 0 0 0, V 0 1 0, V 1 1 1, V 0 0 0)) by (tri (sqrt 2); rewrite sqrt_sqrt by lra; ring).
  assert (X : forall q, proper_face q -> vz (p_normal (face_of q)) * p_area (face_of q) = vz (area_of q)).
  { intros q H. destruct (face_flux q H) as (_ & _ & E & _). rewrite <- E. cbn. ring. }
  rewrite (X _ P1), (X _ P2). unfold face_of, props_of, quad_props. cbn [quad_of qa qb qc qd].
  replace (norm (cross (vsub (V 1 1 1) (V 0 0 0)) (vsub (V 0 1 0) (V 1 0 0)))) with (sqrt 6) by (symmetry; norm_value 6).
  rewrite (proj2 (Rltb_false _ _)) by (rewrite Rabs_pos_eq by apply sqrt_pos; exact S6). cbn [p_area p_normal].
  replace (norm (cross (vsub (V 1 0 0) (V 0 0 0)) (vsub (V 1 1 1) (V 0 0 0)))) with (sqrt 2) by (symmetry; norm_value 2).
  replace (norm (cross (vsub (V 0 1 0) (V 0 0 0)) (vsub (V 1 1 1) (V 0 0 0)))) with (sqrt 2) by (symmetry; norm_value 2).
  unfold vscale, cross, vsub, area_of, area_vector. cbn. unfold degenerate_tol in S6. field. lra.
Qed.
Lemma pocket_open : 1 - 2 * sqrt 2 / sqrt 6 <> 0.
Proof.
  intros H. assert (P6 : 0 < sqrt 6) by (apply sqrt_lt_R0; lra). assert (E : 2 * sqrt 2 = sqrt 6).
  { apply (Rmult_eq_reg_r (/ sqrt 6)); [|apply Rinv_neq_0_compat; lra]. rewrite Rinv_r by lra. unfold Rdiv in H. lra. }
  assert (4 * 2 = 6); [|lra]. rewrite <- (sqrt_sqrt 2), <- (sqrt_sqrt 6) by lra. rewrite <- E. ring.
Qed.

(** ** A closed surface with a very small triangle *)
Definition tiny : R := / 10000000.
Definition needle : mesh := Mesh [V 0 0 0; V tiny 0 0; V 0 tiny 0; V 0 0 1] [F 0 2 1 0; F 0 1 3 0; F 0 3 2 0; F 1 2 3 1].
Definition needle_faces : list polygon :=
  [(V 0 0 0, V 0 tiny 0, V tiny 0 0, V 0 0 0); (V 0 0 0, V tiny 0 0, V 0 0 1, V 0 0 0); (V 0 0 0, V 0 0 1, V 0 tiny 0, V 0 0 0); (V tiny 0 0, V 0 tiny 0, V 0 0 1, V tiny 0 0)].
Lemma needle_polygons : tree_polygons (Leaf needle) needle_faces.
Proof. exists [needle_faces]. split; [|reflexivity]. constructor; [|constructor]. repeat constructor. Qed.
Lemma needle_watertight : watertight needle_faces.
Proof. apply (matched_watertight needle); [repeat constructor|reflexivity]. Qed.
Lemma needle_area : waterplane_area (Leaf needle) = Ok (- (tiny * tiny / 2)).
Proof.
  rewrite (waterplane_value _ _ (filled_leaf _) needle_polygons). f_equal. unfold needle_faces. cbn [map]. rewrite !Rsum_cons, Rsum_nil.
  assert (X : forall q, proper_face q -> vz (p_normal (face_of q)) * p_area (face_of q) = vz (area_of q)).
  { intros q H. destruct (face_flux q H) as (_ & _ & E & _). rewrite <- E. cbn. ring. }
  assert (T : 0 < tiny) by (unfold tiny; lra). assert (T1 : / 1000000000000 <= tiny) by (unfold tiny; lra).
  rewrite (X (V 0 0 0, V tiny 0 0, V 0 0 1, V 0 0 0)) by tri tiny.
  rewrite (X (V 0 0 0, V 0 0 1, V 0 tiny 0, V 0 0 0)) by tri tiny.
  assert (P : proper_face (V tiny 0 0, V 0 tiny 0, V 0 0 1, V tiny 0 0)).
  { tri (sqrt (2 * (tiny * tiny) + tiny * tiny * (tiny * tiny))).
    - apply Rle_trans with (sqrt (tiny * tiny)); [rewrite sqrt_square by lra; exact T1|apply sqrt_le_1; nra].
    - rewrite sqrt_sqrt by nra. ring. }
  rewrite (X _ P).
  assert (Z : p_area (face_of (V 0 0 0, V 0 tiny 0, V tiny 0 0, V 0 0 0)) = 0).
  { unfold face_of, props_of. cbn [quad_of]. rewrite tri_as_quad. unfold tri_props. cbn [qa qb qc].
    rewrite (norm_of _ (tiny * tiny)); [|nra|unfold dot, cross, vsub; cbn; ring].
    rewrite (proj2 (Rltb_true _ _)); [reflexivity|]. rewrite Rabs_right by nra. unfold tiny, degenerate_tol. lra. }
  rewrite Z. unfold area_of, area_vector, vscale, vadd, cross. cbn. field.
Qed.
