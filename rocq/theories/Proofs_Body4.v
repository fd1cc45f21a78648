(** Degrees of freedom and rotation centre of bodies. *)
From Coq Require Import Reals String Ascii List Bool Arith ZArith Lra Lia.
From Coquelicot Require Import Coquelicot.
From Verif Require Import Model_Base Model_Geometry Model_Mesh Spec_Mesh Model_Quality Spec_Quality Model_Tree Spec_Tree
  Proofs_Geometry Proofs_Mesh Proofs_Mesh2 Proofs_Mesh3 Proofs_Quality Proofs_Tree Proofs_Tree2 Proofs_Symmetry
  Spec_Clip Proofs_Clip4 Proofs_Clip5 Proofs_Clip6 Model_Integrals Spec_Integrals Proofs_Integrals Proofs_Integrals2 Model_Body Spec_Body Proofs_Body Proofs_Body2 Proofs_Body3.
Import ListNotations.
Open Scope R_scope.

Lemma dget_same {A} k (v : A) d : dget k (dset k v d) = Ok v.
Proof.
  induction d as [|[k' v'] d IH]; cbn; [now rewrite String.eqb_refl|]. destruct (String.eqb k k') eqn:E; cbn; [now rewrite String.eqb_refl|].
  now rewrite E.
Qed.
Lemma dget_other {A} k k' (v : A) d : k' <> k -> dget k' (dset k v d) = dget k' d.
Proof.
  intros N. induction d as [|[k1 v1] d IH]; cbn.
  - destruct (String.eqb k' k) eqn:E; [apply String.eqb_eq in E; contradiction|reflexivity].
  - destruct (String.eqb k k1) eqn:E; cbn.
    + apply String.eqb_eq in E. subst k1. destruct (String.eqb k' k) eqn:E'; [apply String.eqb_eq in E'; contradiction|reflexivity].
    + destruct (String.eqb k' k1); [reflexivity|exact IH].
Qed.
Lemma dget_in {A} k (d : list (string * A)) v : dget k d = Ok v -> In (k, v) d.
Proof.
  induction d as [|[k' v'] d IH]; cbn; [discriminate|]. destruct (String.eqb k k') eqn:E; intros H.
  - apply String.eqb_eq in E. subst. injection H as ->. now left.
  - right. auto.
Qed.

(** ** The velocity of a rotation is its derivative *)
Lemma rodrigues_derivative k a b : is_derive (fun t : R => k + sin t * a + 2 * (sin (t / 2) * sin (t / 2)) * b) 0 a.
Proof. auto_derive; trivial. unfold Rdiv. rewrite Rmult_0_l, sin_0, cos_0. ring. Qed.
Lemma rotation_derivative (a : axis) (c : vec) (x : vec -> R) : x = vx \/ x = vy \/ x = vz ->
  is_derive (fun theta => x (rotate_point a theta c)) 0 (x (rotation_velocity (ax_point a) (ax_vector a) c)).
Proof.
  intros H. set (w := cross (ax_vector a) (rotation_velocity (ax_point a) (ax_vector a) c)).
  apply (is_derive_ext (fun t : R => x c + sin t * x (rotation_velocity (ax_point a) (ax_vector a) c) + 2 * (sin (t / 2) * sin (t / 2)) * x w)).
  - intros t. symmetry. unfold w. destruct a as [[u1 u2 u3] [p1 p2 p3]]. destruct c as [c1 c2 c3].
    unfold rotation_velocity, rotate_point, rotate_vector, rotation_matrix, skew, mapply, cross.
    destruct H as [-> | [-> | ->]]; unfold dot; cbn [vx vy vz r1 r2 r3 vadd vsub vscale ax_vector ax_point madd3 id3 mscale3 mmul3 col1 col2 col3];
      unfold dot; cbn [vx vy vz r1 r2 r3 col1 col2 col3];
      generalize (sin t) (sin (t / 2)); intros; match goal with |- ?l = ?r => change (@eq R l r) end; ring.
  - apply rodrigues_derivative.
Qed.

(** ** Adding dofs *)
Lemma add_translation_value b dir name amp d :
  (match dir with Some d => Ok d | None => direction_of translation_directions name end) = Ok d ->
  add_translation_dof b dir name amp = Ok (set_dofs b (dset (default_name b "_translation" name) (repeat (vscale amp d) (fb_nb_faces b)) (fb_dofs b))).
Proof. intros E. unfold add_translation_dof. now rewrite E. Qed.

Lemma centers_length b cs : fb_centers b = Ok cs -> filled (fb_mesh b) -> all_valid (fb_mesh b) -> length cs = fb_nb_faces b.
Proof.
  unfold fb_centers. intros E F Av. destruct (t_props (fb_mesh b)) as [ps|] eqn:Ep; [|discriminate]. cbn in E. injection E as <-. rewrite map_length.
  unfold fb_nb_faces. destruct (tree_polygons_exist (fb_mesh b) Av) as [qs P]. rewrite (tree_props _ _ F P) in Ep. injection Ep as <-.
  rewrite map_length. exact (polygons_total qs _ P).
Qed.
Lemma broadcast_map {A B C} (f : A -> B -> C) (g : B -> A) l : broadcast f (map g l) l = Ok (map (fun c => f (g c) c) l).
Proof.
  unfold broadcast. rewrite map_length, Nat.eqb_refl. f_equal. induction l as [|c l IH]; [reflexivity|]. cbn. now rewrite IH.
Qed.
Lemma broadcast_maps {A B C D} (f : A -> B -> C) (g : D -> A) (h : D -> B) l :
  broadcast f (map g l) (map h l) = Ok (map (fun c => f (g c) (h c)) l).
Proof.
  unfold broadcast. rewrite !map_length, Nat.eqb_refl. f_equal. induction l as [|c l IH]; [reflexivity|]. cbn. now rewrite IH.
Qed.
Lemma allclose1_refl x : allclose1 x x = true.
Proof. unfold allclose1. apply Rleb_true. replace (x - x) with 0 by ring. rewrite Rabs_R0. pose proof (Rabs_pos x). lra. Qed.

Lemma infer_rotations b p cs : fb_centers b = Ok cs -> cs <> [] ->
  rotation_dof b "Roll" p (V 1 0 0) -> rotation_dof b "Pitch" p (V 0 1 0) -> rotation_dof b "Yaw" p (V 0 0 1) ->
  infer_from_dofs b = Ok p.
Proof.
  intros Ec Nc (r1 & c1 & D1 & C1 & ->) (r2 & c2 & D2 & C2 & ->) (r3 & c3 & D3 & C3 & ->).
  assert (c1 = cs /\ c2 = cs /\ c3 = cs) as (-> & -> & ->) by (repeat split; congruence). clear C1 C2 C3.
  unfold infer_from_dofs. rewrite Ec, D1, D2, D3. cbn [bind]. rewrite !broadcast_map. cbn [bind]. 
  assert (X : forall f g : vec -> R, (forall c, f c = g c) -> map f cs = map g cs) by (intros; now apply map_ext).
  destruct p as [p1 p2 p3]. unfold rotation_velocity, cross. cbn [vx vy vz vsub].
  rewrite (X (fun c => 0 * _ - 1 * (vx c - p1) + vx c) (fun _ => p1)) by (intros; ring).
  rewrite (X (fun c => - (1 * (vx c - p1) - 0 * _) + vx c) (fun _ => p1)) by (intros; ring).
  rewrite (X (fun c => 0 * (vz c - p3) - 1 * (vy c - p2) + vy c) (fun _ => p2)) by (intros; ring).
  rewrite (X (fun c => - (1 * (vy c - p2) - 0 * (vx c - p1)) + vy c) (fun _ => p2)) by (intros; ring).
  rewrite (X (fun c => - (1 * (vz c - p3) - 0 * (vy c - p2)) + vz c) (fun _ => p3)) by (intros; ring).
  rewrite (X (fun c => 0 * (vx c - p1) - 1 * (vz c - p3) + vz c) (fun _ => p3)) by (intros; ring).
  destruct cs as [|c cs]; [contradiction|].
  rewrite !broadcast_maps. unfold get. cbn [map nth_error bind].
  rewrite !allclose1_refl.
  assert (Y : forall p, forallb (fun v => allclose1 v p) (p :: map (fun _ => p) cs) = true).
  { intros p. apply forallb_forall. intros x [<-|Hx]; [apply allclose1_refl|]. apply in_map_iff in Hx. destruct Hx as (y & <- & _). apply allclose1_refl. }
  assert (Z : forall f : vec -> bool, (forall c, f c = true) -> forallb (fun e => e) (true :: map f cs) = true).
  { intros f Hf. apply forallb_forall. intros x [<-|Hx]; [reflexivity|]. apply in_map_iff in Hx. destruct Hx as (y & <- & _). apply Hf. }
  rewrite !Y, !Z by (intros; first [reflexivity|apply allclose1_refl]). reflexivity.
Qed.

(** ** The six rigid dofs *)
Lemma cross_swap p c d : cross (vsub p c) d = rotation_velocity p d c.
Proof. unfold rotation_velocity, cross. apply vec_ext; cbn; ring. Qed.
Lemma add_rotation_value b ax name amp p d cs : (0 < fb_nb_faces b)%nat -> fb_centers b = Ok cs ->
  (match ax with Some a => Ok (ax_point a, ax_vector a)
   | None => bind (direction_of rotation_directions name) (fun d => Ok (default_rotation_point b, d)) end) = Ok (p, d) ->
  add_rotation_dof b ax name amp
  = Ok (set_dofs b (dset (default_name b "_rotation" name) (map (fun c => vscale amp (rotation_velocity p d c)) cs) (fb_dofs b))).
Proof.
  intros N Ec E. unfold add_rotation_dof. rewrite E. cbn [bind]. destruct (Nat.eqb_spec (fb_nb_faces b) 0) as [H|H]; [lia|].
  rewrite Ec. cbn [bind fst snd]. do 3 f_equal. apply map_ext. intros c. now rewrite cross_swap.
Qed.
Definition rigid_dofs (b : fbody) (cs : list vec) : list (string * list vec) :=
  let p := default_rotation_point b in
  let n := fb_nb_faces b in
  let rot d := map (fun c => vscale 1 (rotation_velocity p d c)) cs in
  dset "Yaw" (rot (V 0 0 1)) (dset "Pitch" (rot (V 0 1 0)) (dset "Roll" (rot (V 1 0 0))
  (dset "Heave" (repeat (vscale 1 (V 0 0 1)) n) (dset "Sway" (repeat (vscale 1 (V 0 1 0)) n) (dset "Surge" (repeat (vscale 1 (V 1 0 0)) n) (fb_dofs b)))))).
Lemma add_rigid_value b cs : (0 < fb_nb_faces b)%nat -> fb_centers b = Ok cs -> add_all_rigid_body_dofs b = Ok (set_dofs b (rigid_dofs b cs)).
Proof.
  intros N Ec. unfold add_all_rigid_body_dofs.
  rewrite (add_translation_value b None (Some "Surge"%string) 1 (V 1 0 0) eq_refl). cbn [bind].
  rewrite (add_translation_value _ None (Some "Sway"%string) 1 (V 0 1 0) eq_refl). cbn [bind].
  rewrite (add_translation_value _ None (Some "Heave"%string) 1 (V 0 0 1) eq_refl). cbn [bind].
  erewrite (add_rotation_value _ None (Some "Roll"%string) 1 _ (V 1 0 0) cs); [|exact N|exact Ec|reflexivity]. cbn [bind].
  erewrite (add_rotation_value _ None (Some "Pitch"%string) 1 _ (V 0 1 0) cs); [|exact N|exact Ec|reflexivity]. cbn [bind].
  erewrite (add_rotation_value _ None (Some "Yaw"%string) 1 _ (V 0 0 1) cs); [|exact N|exact Ec|reflexivity]. reflexivity.
Qed.
Lemma vscale_one v : vscale 1 v = v.
Proof. apply vec_ext; cbn; ring. Qed.
Lemma str_neq a b : String.eqb a b = false -> a <> b.
Proof. intros H E. apply String.eqb_eq in E. congruence. Qed.
Ltac dgets := repeat first [rewrite dget_same | rewrite dget_other by (apply str_neq; reflexivity)].
Lemma rigid_rotations b b' : (0 < fb_nb_faces b)%nat -> add_all_rigid_body_dofs b = Ok b' ->
  exists cs, fb_centers b = Ok cs /\ b' = set_dofs b (rigid_dofs b cs)
  /\ rotation_dof b' "Roll" (default_rotation_point b) (V 1 0 0)
  /\ rotation_dof b' "Pitch" (default_rotation_point b) (V 0 1 0) /\ rotation_dof b' "Yaw" (default_rotation_point b) (V 0 0 1)
  /\ dget "Surge" (fb_dofs b') = Ok (repeat (V 1 0 0) (fb_nb_faces b)) /\ dget "Sway" (fb_dofs b') = Ok (repeat (V 0 1 0) (fb_nb_faces b))
  /\ dget "Heave" (fb_dofs b') = Ok (repeat (V 0 0 1) (fb_nb_faces b))
  /\ (forall n, ~ In n rigid_names -> dget n (fb_dofs b') = dget n (fb_dofs b)).
Proof.
  intros N E. destruct (fb_centers b) as [cs|e] eqn:Ec.
  - exists cs. split; [reflexivity|]. rewrite (add_rigid_value b cs N Ec) in E. assert (b' = set_dofs b (rigid_dofs b cs)) as -> by congruence. clear E.
    split; [reflexivity|]. unfold rotation_dof. cbn [set_dofs fb_dofs fb_mesh]. 
    assert (Rv : forall p d, map (fun c => vscale 1 (rotation_velocity p d c)) cs = map (rotation_velocity p d) cs).
    { intros. apply map_ext. intros. apply vscale_one. }
    unfold rigid_dofs. rewrite !Rv, !vscale_one. change (fb_centers (set_dofs b _)) with (fb_centers b).
    split; [eexists; exists cs; dgets; repeat split; exact Ec|]. split; [eexists; exists cs; dgets; repeat split; exact Ec|].
    split; [eexists; exists cs; dgets; repeat split; exact Ec|]. split; [now dgets|]. split; [now dgets|]. split; [now dgets|].
    intros n Hn. assert (forall s, In s rigid_names -> n <> s) as Hs by (intros s Hs ->; contradiction).
    rewrite !dget_other by (apply Hs; cbn; tauto). reflexivity.
  - exfalso. unfold add_all_rigid_body_dofs in E.
    rewrite (add_translation_value b None (Some "Surge"%string) 1 (V 1 0 0) eq_refl) in E. cbn [bind] in E.
    rewrite (add_translation_value _ None (Some "Sway"%string) 1 (V 0 1 0) eq_refl) in E. cbn [bind] in E.
    rewrite (add_translation_value _ None (Some "Heave"%string) 1 (V 0 0 1) eq_refl) in E. cbn [bind] in E.
    unfold add_rotation_dof at 1 in E. cbn [bind direction_of dget str_lower] in E.
    match type of E with context [if Nat.eqb ?x 0 then _ else _] => change x with (fb_nb_faces b) in E end.
    destruct (Nat.eqb_spec (fb_nb_faces b) 0); [lia|]. 
    match type of E with context [fb_centers ?x] => change (fb_centers x) with (fb_centers b) in E end. rewrite Ec in E. cbn in E. discriminate.
Qed.

(** ** Moving a body *)
Lemma surface_centers b qs : proper_surface (fb_mesh b) qs -> fb_centers b = Ok (map (fun q => p_center (face_of q)) qs).
Proof. intros (F & P & _). unfold fb_centers. rewrite (tree_props _ _ F P). cbn [bind]. now rewrite map_map. Qed.
Lemma proper_area q : proper_face q -> p_area (face_of q) <> 0.
Proof. intros P. destruct (face_flux q P) as (A & _). lra. Qed.
Lemma translate_center v q : proper_face q -> p_center (face_of (poly_map (fun x => vadd x v) q)) = vadd (p_center (face_of q)) v.
Proof. intros P. destruct q as [[[a b] c] d]. exact (proj1 (proj2 (proj2 (translation_props v false (Q a b c d) (proper_area _ P))))). Qed.
Lemma rotate_center a th q : proper_axis a -> proper_face q -> p_center (face_of (poly_map (rotate_point a th) q)) = rotate_point a th (p_center (face_of q)).
Proof. intros U P. destruct q as [[[x b] c] d]. exact (proj1 (proj2 (proj2 (rotation_props a th false (Q x b c d) U (proper_area _ P))))). Qed.
Lemma mirror_center p q : proper_plane p -> proper_face q -> p_center (face_of (poly_flip (poly_map (mirror_point p) q))) = mirror_point p (p_center (face_of q)).
Proof.
  intros U P. pose proof (proper_area q P) as A. destruct q as [[[a b] c] d]. destruct P as [[->|Pc] _].
  - assert (T : forall x y z, face_of (x, y, z, x) = props_of true (Q x y z x)) by (intros; now apply (props_of_one_face true)).
    cbn [poly_map poly_flip]. rewrite !T in *.
    exact (proj1 (proj2 (proj2 (mirror_props p true (Q d b c d) U (fun _ => eq_refl) (or_introl eq_refl) A)))).
  - exact (proj1 (proj2 (proj2 (mirror_props p false (Q a b c d) U ltac:(discriminate) (or_intror Pc) A)))).
Qed.
Lemma translated_rotation b qs name p d v : proper_surface (fb_mesh b) qs -> rotation_dof b name p d -> rotation_dof (fb_translate b v) name (vadd p v) d.
Proof.
  intros S (rows & cs & D & C & ->). rewrite (surface_centers b qs S) in C. assert (cs = map (fun q => p_center (face_of q)) qs) as -> by congruence.
  pose proof (translate_surface _ v _ S) as S'. eexists. eexists. split; [exact D|]. split; [exact (surface_centers (fb_translate b v) _ S')|].
  rewrite !map_map. apply map_ext_in. intros q Hq. destruct S as (_ & _ & G). rewrite Forall_forall in G. rewrite translate_center by auto.
  unfold rotation_velocity. f_equal. generalize (p_center (face_of q)). clear. intros c. vring.
Qed.
Lemma dget_map {A B} (f : A -> B) k d : dget k (map (fun e => (fst e, f (snd e))) d) = match dget k d with Ok v => Ok (f v) | Err e => Err e end.
Proof. induction d as [|[k' v] d IH]; [reflexivity|]. cbn. destruct (String.eqb k k'); [reflexivity|exact IH]. Qed.
Lemma rotated_rotation b qs name p d a th : proper_axis a -> proper_surface (fb_mesh b) qs -> rotation_dof b name p d ->
  rotation_dof (fb_rotate b a th) name (rotate_point a th p) (rotate_vector a th d).
Proof.
  intros U S (rows & cs & D & C & ->). rewrite (surface_centers b qs S) in C. assert (cs = map (fun q => p_center (face_of q)) qs) as -> by congruence.
  pose proof (rotate_surface a th U _ _ S) as S'. eexists. eexists. split; [cbn [fb_rotate fb_dofs]; rewrite dget_map, D; reflexivity|].
  split; [exact (surface_centers (fb_rotate b a th) _ S')|].
  rewrite !map_map. apply map_ext_in. intros q Hq. destruct S as (_ & _ & G). rewrite Forall_forall in G. rewrite rotate_center by auto.
  unfold rotation_velocity. rewrite rotate_point_sub, rotate_vector_cross by exact U. reflexivity.
Qed.
Lemma mirrored_rotation b b' qs name p d pl : proper_plane pl -> proper_surface (fb_mesh b) qs -> rotation_dof b name p d -> fb_mirror b pl = Ok b' ->
  reversed_rotation_dof b' name (mirror_point pl p) (mirror_vector pl d).
Proof.
  intros U S (rows & cs & D & C & ->) E. rewrite (surface_centers b qs S) in C. assert (cs = map (fun q => p_center (face_of q)) qs) as -> by congruence.
  unfold fb_mirror in E. destruct (t_mirror (fb_mesh b) pl) as [t|] eqn:Et; [|discriminate]. cbn [bind] in E.
  destruct (option_bind (fb_lid b) (fun l => t_mirror l pl)) as [lid|] eqn:El; [|discriminate]. cbn [bind] in E. injection E as <-.
  pose proof (mirror_surface pl U _ _ _ Et S) as S'. eexists. eexists.
  split; [cbn [fb_dofs]; rewrite (dget_map (map (mirror_vector pl))), D; reflexivity|].
  split; [refine (surface_centers (FB _ t _ _ _ _ _ _ _ _) _ S')|].
  rewrite !map_map. apply map_ext_in. intros q Hq. destruct S as (_ & _ & G). rewrite Forall_forall in G. rewrite mirror_center by auto.
  unfold rotation_velocity. rewrite mirror_point_sub, mirror_vector_cross by exact U.
  generalize (mirror_vector pl (cross d (vsub (p_center (face_of q)) p))). clear. vring.
Qed.
