(** Meshes of revolution. *)
From Coq Require Import Reals List Bool ZArith Arith Lra Lia.
From Verif Require Import Model_Base Model_Geometry Model_Mesh Spec_Mesh Model_Quality Spec_Quality Model_Tree Spec_Tree
  Proofs_Geometry Proofs_Mesh Proofs_Mesh2 Proofs_Mesh3 Proofs_Quality Proofs_Tree Proofs_Symmetry Proofs_Tree2.
Import ListNotations.
Open Scope R_scope.

Lemma merged_healed argsort m : sorts argsort -> valid m -> m_vertices m <> [] ->
  exists m' ids, merge_duplicates argsort (/ 100000000) m = Ok (m', ids) /\ valid (heal_triangles m') /\ nb_faces (heal_triangles m') = nb_faces m
    /\ forall i a b c d, face_is m i a b c d -> exists a' b' c' d', face_is (heal_triangles m') i a' b' c' d' /\ near_polygon (/ 100000000) (a, b, c, d) (a', b', c', d').
Proof.
  intros Hs Vm Hn. destruct (merge_duplicates_ok argsort Hs (/ 100000000) m) as (m' & ids & E & V' & N & [M1 M2 M3 M4] & Fs); [lra|exact Vm|exact Hn|].
  exists m', ids. split; [exact E|]. split; [now apply heal_valid|]. split.
  { unfold nb_faces in *. cbn [heal_triangles m_faces]. now rewrite map_length, N. }
  intros i a b c d (f & Ef & A & B & C & D).
  destruct (Fs i f Ef) as (ka & kb & kc & kd & Ia & Ib & Ic & Id & Ef').
  destruct (M3 _ _ A) as (k1 & a' & A1 & A2 & A3). destruct (M3 _ _ B) as (k2 & b' & B1 & B2 & B3).
  destruct (M3 _ _ C) as (k3 & c' & C1 & C2 & C3). destruct (M3 _ _ D) as (k4 & d' & D1 & D2 & D3).
  assert (Hm' : face_is m' i a' b' c' d').
  { exists (F ka kb kc kd). cbn. split; [exact Ef'|]. split; [congruence|]. split; [congruence|]. split; congruence. }
  destruct (rotation_area m' (heal_triangles m') i _ (heal_face (F ka kb kc kd)) a' b' c' d' (heal_rotation _) eq_refl Ef')
    as (a2 & b2 & c2 & d2 & H2 & _ & R2); [cbn [heal_triangles m_faces]; now apply map_nth_error|exact Hm'|].
  exists a2, b2, c2, d2. split; [exact H2|]. exists a, b, c, d, a', b', c', d'. split; [reflexivity|].
  split; [exact R2|]. split; [exact A3|]. split; [exact B3|]. split; [exact C3|exact D3].
Qed.
Lemma slice_face n i : (S i < n)%nat -> nth_error (slice_faces n) i = Some (F i (i + n) (i + n + 1) (i + 1)).
Proof.
  intros H. unfold slice_faces. rewrite nth_error_map. assert (E : nth_error (seq 0 (n - 1)) i = Some i); [|now rewrite E].
  rewrite (nth_error_nth' _ 0%nat) by (rewrite seq_length; lia). now rewrite seq_nth by lia.
Qed.
(** The faces of the slice: the quadrangles between the profile and its copy turned by one step. *)
Lemma slice_valid profile a theta : profile <> [] ->
  valid (Mesh (profile ++ map (rotate_point a theta) profile) (slice_faces (length profile))).
Proof.
  intros Hp f i Hf Hi. cbn [m_vertices m_faces] in *. unfold slice_faces in Hf. apply in_map_iff in Hf. destruct Hf as (k & <- & Hk).
  apply in_seq in Hk. unfold nb_vertices. cbn [m_vertices]. rewrite app_length, map_length. cbn in Hi. intuition lia.
Qed.
Lemma slice_face_is profile a theta i p q : nth_error profile i = Some p -> nth_error profile (S i) = Some q ->
  face_is (Mesh (profile ++ map (rotate_point a theta) profile) (slice_faces (length profile))) i
    p (rotate_point a theta p) (rotate_point a theta q) q.
Proof.
  intros Ep Eq. assert (Hi : (S i < length profile)%nat) by (apply nth_error_Some; congruence).
  eexists. split; [cbn [m_faces]; now apply slice_face|]. cbn [m_vertices fa fb fc fd].
  split; [rewrite nth_error_app1 by lia; exact Ep|].
  split; [rewrite nth_error_app2 by lia; replace (i + length profile - length profile)%nat with i by lia; now apply map_nth_error|].
  split; [rewrite nth_error_app2 by lia; replace (i + length profile + 1 - length profile)%nat with (S i) by lia; now apply map_nth_error|].
  rewrite nth_error_app1 by lia. now replace (i + 1)%nat with (S i) by lia.
Qed.
Lemma profile_spec argsort profile a nphi : sorts argsort -> profile <> [] -> (2 <= nphi)%nat ->
  exists m, from_profile argsort profile a nphi
      = Ok (Node (Axial a) (Leaf m :: map (fun k => Leaf (rotate m a (2 * INR k * PI / INR nphi))) (seq 1 (nphi - 1))))
    /\ valid m /\ nb_faces m = (length profile - 1)%nat
    /\ forall i p q, nth_error profile i = Some p -> nth_error profile (S i) = Some q ->
       exists a' b' c' d', face_is m i a' b' c' d'
         /\ near_polygon (/ 100000000) (p, rotate_point a (2 * PI / INR nphi) p, rotate_point a (2 * PI / INR nphi) q, q) (a', b', c', d').
Proof.
  intros Hs Hp Hn. set (m0 := Mesh (profile ++ map (rotate_point a (2 * PI / INR nphi)) profile) (slice_faces (length profile))).
  assert (V0 : valid m0) by (now apply slice_valid).
  destruct (merged_healed argsort m0 Hs V0) as (m' & ids & E & V' & N & Fs).
  { cbn. destruct profile; [congruence|discriminate]. }
  exists (heal_triangles m'). split.
  - unfold from_profile. assert (Ep : exists p0 l0, profile = p0 :: l0) by (destruct profile as [|p0 l0]; [congruence|eauto]).
    destruct Ep as (p0 & l0 & Ep). rewrite Ep. rewrite <- Ep. destruct (Nat.eqb_spec nphi 0) as [?|_]; [lia|]. cbn zeta.
    assert (B : build_mesh (profile ++ map (rotate_point a (2 * PI / INR nphi)) profile) (slice_faces (length profile)) = Ok m0).
    { apply build_mesh_ok. split; [reflexivity|exact V0]. }
    rewrite B. cbn [bind]. rewrite E. cbn [bind fst]. unfold AxialSymmetricMesh, make_axial.
    destruct (Nat.ltb_spec (nphi - 1) 1) as [?|_]; [lia|].
    rewrite (mapM_map _ (fun k => Leaf (rotate (heal_triangles m') a (2 * INR k * PI / INR nphi)))); [reflexivity|].
    intros k _. cbn. now replace (INR (nphi - 1) + 1) with (INR nphi) by (rewrite minus_INR by lia; cbn; ring).
  - split; [exact V'|]. split; [rewrite N; unfold nb_faces; cbn; unfold slice_faces; now rewrite map_length, seq_length|].
    intros i p q Ei Ej. apply (Fs i). now apply slice_face_is.
Qed.
Lemma leaves_profile a m (f : nat -> R) ks :
  leaves (Node (Axial a) (Leaf m :: map (fun k => Leaf (rotate m a (f k))) ks)) = m :: map (fun k => rotate m a (f k)) ks.
Proof. cbn. f_equal. induction ks as [|k ks IH]; [reflexivity|]. cbn. now rewrite IH. Qed.
Lemma rotate_mesh_zero m a : rotate m a 0 = m.
Proof. destruct m as [vs fs]. unfold rotate. cbn. f_equal. rewrite <- (map_id vs) at 2. apply map_ext. intros p. apply rotate_zero. Qed.
