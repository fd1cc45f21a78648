(** Proofs about symmetric meshes: copies and transformations. *)
From Coq Require Import Reals List Bool ZArith Arith Lra Lia.
From Verif Require Import Model_Base Model_Geometry Model_Mesh Spec_Mesh Model_Quality Spec_Quality Model_Tree Spec_Tree
  Proofs_Geometry Proofs_Mesh Proofs_Mesh2 Proofs_Mesh3 Proofs_Quality Proofs_Tree.
Import ListNotations.
Open Scope R_scope.

Lemma Reqb_true a b : Reqb a b = true <-> a = b.
Proof. unfold Reqb. destruct (Req_EM_T a b); split; congruence. Qed.
Lemma sequence_ok_map {A B} (f : A -> B) l : sequence (map (fun x => Ok (f x)) l) = Ok (map f l).
Proof. rewrite sequence_map. now apply mapM_map. Qed.

(** ** Depth *)
Lemma depth_child k l x : In x l -> (depth x < depth (Node k l))%nat.
Proof.
  intros H. cbn [depth]. assert (G : (list_max (map depth l) <= list_max (map depth l))%nat) by lia.
  apply list_max_le in G. rewrite Forall_forall in G. specialize (G (depth x) (in_map depth l x H)). lia.
Qed.
Lemma map_depth (f : tree -> tree) l : (forall x, In x l -> depth (f x) = depth x) ->
  map depth (map f l) = map depth l.
Proof. intros H. rewrite map_map. now apply map_ext_in. Qed.
Lemma translate_depth v t : depth (t_translate t v) = depth t.
Proof.
  induction t as [m|k l IH] using tree_induction; [reflexivity|]. cbn [t_translate depth].
  now rewrite (map_depth (fun x => t_translate x v)).
Qed.
Lemma rotate_depth b th t : depth (t_rotate t b th) = depth t.
Proof.
  induction t as [m|k l IH] using tree_induction; [reflexivity|]. cbn [t_rotate depth].
  now rewrite (map_depth (fun x => t_rotate x b th)).
Qed.
Lemma mirror_depth q t : forall t', t_mirror t q = Ok t' -> depth t' = depth t.
Proof.
  induction t as [m|k l IH] using tree_induction; intros t' H.
  - cbn in H. apply Ok_inj' in H. now subst.
  - cbn [t_mirror] in H. destruct (match k with Plain => _ | _ => _ end) as [k'|e]; cbn [bind] in H; [|discriminate].
    rewrite sequence_map in H. destruct (mapM _ l) as [l'|e] eqn:E; cbn [bind] in H; [|discriminate]. apply Ok_inj' in H. subst t'.
    cbn [depth]. do 2 f_equal. clear k k'. revert l' E. induction l as [|x l IHl]; intros l' E.
    + cbn in E. apply Ok_inj' in E. now subst.
    + cbn [mapM] in E. destruct (t_mirror x q) as [x'|e] eqn:Ex; cbn [bind] in E; [|discriminate].
      destruct (mapM _ l) as [l2|e]; cbn [bind] in E; [|discriminate]. apply Ok_inj' in E. subst l'. cbn [map].
      rewrite (IH x (or_introl eq_refl) x' Ex), (IHl (fun y Hy => IH y (or_intror Hy)) l2 eq_refl). reflexivity.
Qed.

(** ** A symmetric tree is its own copy *)
Lemma copy_symmetric t : symmetric t -> forall n, (depth t <= n)%nat -> copy_within n t = Ok t.
Proof.
  intros H. induction H as [m|l Hl IH|p a b Ha IH Hz Hb|v i a r Ha IH Hz Hr|ax a r Ha IH Hr]; intros n Hn; [destruct n; reflexivity|..];
    (destruct n as [|n]; [cbn [depth] in Hn; lia|]); cbn [copy_within].
  - rewrite sequence_map. rewrite (mapM_map _ (fun x => x)); [cbn [bind]; now rewrite map_id|].
    intros x Hx. apply IH; [exact Hx|]. pose proof (depth_child Plain l x Hx). lia.
  - assert (Da : (depth a <= n)%nat) by (pose proof (depth_child (Reflection p) [a; b] a (or_introl eq_refl)); lia).
    rewrite IH by exact Da. cbn [bind]. unfold make_reflection. rewrite (proj2 (Reqb_true _ _) Hz). cbn [negb].
    rewrite IH by exact Da. cbn [bind]. rewrite Hb. reflexivity.
  - assert (Da : (depth a <= n)%nat).
    { pose proof (depth_child (Translation v i) (a :: map (fun i => t_translate a (vscale (INR i) v)) (seq 1 r)) a (or_introl eq_refl)). lia. }
    rewrite IH by exact Da. cbn [bind length]. rewrite map_length, seq_length. unfold make_translation.
    replace (S r - 1)%nat with r by lia. rewrite (proj2 (Nat.ltb_ge r 1) Hr), (proj2 (Reqb_true _ _) Hz). cbn [negb].
    rewrite (mapM_map _ (fun i => t_translate a (vscale (INR i) v))); [reflexivity|]. intros j _. rewrite IH by exact Da. reflexivity.
  - assert (Da : (depth a <= n)%nat).
    { pose proof (depth_child (Axial ax) (a :: map (fun i => t_rotate a ax (2 * INR i * PI / (INR r + 1))) (seq 1 r)) a (or_introl eq_refl)). lia. }
    rewrite IH by exact Da. cbn [bind length]. rewrite map_length, seq_length. unfold make_axial.
    replace (S r - 1)%nat with r by lia. rewrite (proj2 (Nat.ltb_ge r 1) Hr).
    rewrite (mapM_map _ (fun i => t_rotate a ax (2 * INR i * PI / (INR r + 1)))); [reflexivity|]. intros j _. rewrite IH by exact Da. reflexivity.
Qed.
Lemma copy_ok t : symmetric t -> copy t = Ok t.
Proof. intros H. apply copy_symmetric; [exact H|lia]. Qed.

(** More depth than needed changes nothing: the bound of the model is never reached. *)
Lemma bind_ext {A B} (r : result A) (f g : A -> result B) : (forall a, r = Ok a -> f a = g a) -> bind r f = bind r g.
Proof. destruct r; cbn; auto. Qed.
Lemma copy_within_depth : forall n t t', copy_within n t = Ok t' -> (depth t' <= depth t)%nat.
Proof.
  induction n as [|n IH]; intros t t' H.
  - destruct t as [m|k l]; cbn in H; [|discriminate]. apply Ok_inj' in H. now subst.
  - destruct t as [m|k l]; [cbn in H; apply Ok_inj' in H; now subst|]. cbn [copy_within] in H.
    destruct k as [|p|v i|a].
    + rewrite sequence_map in H. destruct (mapM (copy_within n) l) as [l'|e] eqn:E; cbn [bind] in H; [|discriminate].
      apply Ok_inj' in H. subst t'. cbn [depth]. apply le_n_S. apply list_max_le, Forall_forall. intros d Hd.
      apply in_map_iff in Hd. destruct Hd as (y & <- & Hy). apply In_nth_error in Hy. destruct Hy as [j Hj].
      pose proof (mapM_length _ _ _ E) as Hlen. apply mapM_ok in E. destruct E as [_ E].
      destruct (nth_error l j) as [x|] eqn:Ex; [|apply nth_error_None in Ex; assert (j < length l')%nat by (apply nth_error_Some; congruence); lia].
      destruct (E j x Ex) as (y' & E1 & E2). assert (y' = y) by congruence. subst y'. apply IH in E1.
      pose proof (depth_child Plain l x (nth_error_In _ _ Ex)). cbn [depth] in H. lia.
    + destruct l as [|x l]; [discriminate|]. destruct (copy_within n x) as [c|e] eqn:E; cbn [bind] in H; [|discriminate].
      unfold make_reflection in H. destruct (negb _); [discriminate|].
      destruct (copy_within n c) as [c2|e] eqn:E2; cbn [bind] in H; [|discriminate].
      destruct (t_mirror c2 p) as [o|e] eqn:E3; cbn [bind] in H; [|discriminate]. apply Ok_inj' in H. subst t'.
      apply IH in E. apply IH in E2. apply mirror_depth in E3. cbn. lia.
    + destruct l as [|x l]; [discriminate|]. destruct (copy_within n x) as [c|e] eqn:E; cbn [bind] in H; [|discriminate].
      unfold make_translation in H. destruct (Nat.ltb _ _); [discriminate|]. destruct (negb _); [discriminate|].
      destruct (mapM _ _) as [os|e] eqn:E2; cbn [bind] in H; [|discriminate]. apply Ok_inj' in H. subst t'.
      apply IH in E. cbn [depth map]. apply le_n_S. apply list_max_le, Forall_forall. intros d [<-|Hd]; [cbn; lia|].
      apply in_map_iff in Hd. destruct Hd as (y & <- & Hy). apply In_nth_error in Hy. destruct Hy as [j Hj].
      pose proof (mapM_length _ _ _ E2) as Hlen. apply mapM_ok in E2. destruct E2 as [_ E2].
      destruct (nth_error (seq 1 (length (x :: l) - 1)) j) as [q|] eqn:Ex; [|apply nth_error_None in Ex; assert (j < length os)%nat by (apply nth_error_Some; congruence); lia].
      destruct (E2 j q Ex) as (y' & E3 & E4). assert (y' = y) by congruence. subst y'.
      destruct (copy_within n c) as [c2|e] eqn:E5; cbn [bind] in E3; [|discriminate]. apply Ok_inj' in E3. subst y.
      rewrite translate_depth. apply IH in E5. cbn. lia.
    + destruct l as [|x l]; [discriminate|]. destruct (copy_within n x) as [c|e] eqn:E; cbn [bind] in H; [|discriminate].
      unfold make_axial in H. destruct (Nat.ltb _ _); [discriminate|].
      destruct (mapM _ _) as [os|e] eqn:E2; cbn [bind] in H; [|discriminate]. apply Ok_inj' in H. subst t'.
      apply IH in E. cbn [depth map]. apply le_n_S. apply list_max_le, Forall_forall. intros d [<-|Hd]; [cbn; lia|].
      apply in_map_iff in Hd. destruct Hd as (y & <- & Hy). apply In_nth_error in Hy. destruct Hy as [j Hj].
      pose proof (mapM_length _ _ _ E2) as Hlen. apply mapM_ok in E2. destruct E2 as [_ E2].
      destruct (nth_error (seq 1 (length (x :: l) - 1)) j) as [q|] eqn:Ex; [|apply nth_error_None in Ex; assert (j < length os)%nat by (apply nth_error_Some; congruence); lia].
      destruct (E2 j q Ex) as (y' & E3 & E4). assert (y' = y) by congruence. subst y'.
      destruct (copy_within n c) as [c2|e] eqn:E5; cbn [bind] in E3; [|discriminate]. apply Ok_inj' in E3. subst y.
      rewrite rotate_depth. apply IH in E5. cbn. lia.
Qed.
Lemma copy_enough_depth : forall n m t, (depth t <= n)%nat -> (depth t <= m)%nat -> copy_within n t = copy_within m t.
Proof.
  induction n as [|n IH]; intros m t Hn Hm.
  - destruct t as [x|k l]; [now destruct m|cbn [depth] in Hn; lia].
  - destruct t as [x|k l]; [now destruct m|]. destruct m as [|m]; [cbn [depth] in Hm; lia|]. cbn [copy_within].
    assert (C : forall x, In x l -> copy_within n x = copy_within m x).
    { intros x Hx. pose proof (depth_child k l x Hx). apply IH; lia. }
    assert (D : forall x c, In x l -> copy_within m x = Ok c -> copy_within n c = copy_within m c).
    { intros x c Hx Hc. pose proof (depth_child k l x Hx). apply copy_within_depth in Hc. apply IH; lia. }
    destruct k as [|p|v i|a].
    + rewrite !sequence_map. now rewrite (mapM_ext _ (copy_within m)).
    + destruct l as [|x l]; [reflexivity|]. rewrite (C x) by now left. apply bind_ext. intros c Hc. unfold make_reflection.
      now rewrite (D x c (or_introl eq_refl) Hc).
    + destruct l as [|x l]; [reflexivity|]. rewrite (C x) by now left. apply bind_ext. intros c Hc. unfold make_translation.
      now rewrite (D x c (or_introl eq_refl) Hc).
    + destruct l as [|x l]; [reflexivity|]. rewrite (C x) by now left. apply bind_ext. intros c Hc. unfold make_axial.
      now rewrite (D x c (or_introl eq_refl) Hc).
Qed.

(** ** The constructors build symmetric trees *)
Lemma make_reflection_symmetric half p t : symmetric half -> ReflectionSymmetricMesh half p = Ok t -> symmetric t /\ exists o, t = Node (Reflection p) [half; o].
Proof.
  intros H E. unfold ReflectionSymmetricMesh, make_reflection in E. destruct (Reqb _ _) eqn:Z; cbn [negb] in E; [|discriminate].
  apply Reqb_true in Z. rewrite (copy_ok half H) in E. cbn [bind] in E. destruct (t_mirror half p) as [o|e] eqn:M; cbn [bind] in E; [|discriminate].
  apply Ok_inj' in E. subst t. split; [now constructor|now exists o].
Qed.
Lemma make_translation_symmetric slice v i n t : symmetric slice -> TranslationalSymmetricMesh slice v i n = Ok t ->
  symmetric t /\ t = Node (Translation v i) (slice :: map (fun i => t_translate slice (vscale (INR i) v)) (seq 1 n)).
Proof.
  intros H E. unfold TranslationalSymmetricMesh, make_translation in E. destruct (Nat.ltb n 1) eqn:L; [discriminate|].
  apply Nat.ltb_ge in L. destruct (Reqb _ _) eqn:Z; cbn [negb] in E; [|discriminate]. apply Reqb_true in Z.
  rewrite (mapM_map _ (fun i => t_translate slice (vscale (INR i) v))) in E by (intros; rewrite (copy_ok slice H); reflexivity).
  cbn [bind] in E. apply Ok_inj' in E. subst t. split; [now constructor|reflexivity].
Qed.
Lemma make_axial_symmetric slice a n t : symmetric slice -> AxialSymmetricMesh slice a n = Ok t ->
  symmetric t /\ t = Node (Axial a) (slice :: map (fun i => t_rotate slice a (2 * INR i * PI / (INR n + 1))) (seq 1 n)).
Proof.
  intros H E. unfold AxialSymmetricMesh, make_axial in E. destruct (Nat.ltb n 1) eqn:L; [discriminate|].
  apply Nat.ltb_ge in L.
  rewrite (mapM_map _ (fun i => t_rotate slice a (2 * INR i * PI / (INR n + 1)))) in E by (intros; rewrite (copy_ok slice H); reflexivity).
  cbn [bind] in E. apply Ok_inj' in E. subst t. split; [now constructor|reflexivity].
Qed.

(** ** Commutation of the transformations *)
Lemma translate_mirror_point p v x : pl_c (plane_translate p v) = pl_c p + dot v (pl_normal p) ->
  mirror_point (plane_translate p v) (vadd x v) = vadd (mirror_point p x) v.
Proof.
  intros H. unfold mirror_point. rewrite H. cbn [plane_translate pl_normal]. generalize (pl_c p) as c. clear.
  intros c. destruct p as [n q]. cbn [pl_normal]. vring.
Qed.
Lemma mirror_vector_translate p v w : mirror_vector (plane_translate p v) w = mirror_vector p w.
Proof. reflexivity. Qed.

Lemma mapM_bind_map {A B} (f : A -> result B) (g : B -> B) l :
  mapM (fun x => bind (f x) (fun o => Ok (g o))) l = bind (mapM f l) (fun os => Ok (map g os)).
Proof.
  induction l as [|x l IH]; [reflexivity|]. cbn [mapM]. destruct (f x) as [o|e]; cbn [bind]; [|reflexivity].
  rewrite IH. destruct (mapM f l); reflexivity.
Qed.
Lemma map_pair {A} (f g : A -> A) l : map f (map g l) = map (fun x => f (g x)) l.
Proof. apply map_map. Qed.

Lemma mirror_translate_plane p q v : pl_c (plane_translate p v) = pl_c p + dot v (pl_normal p) ->
  plane_mirror (plane_translate q v) (plane_translate p v) = plane_translate (plane_mirror q p) v.
Proof.
  intros H. unfold plane_mirror. cbn [plane_translate pl_normal pl_point]. fold (plane_translate p v).
  now rewrite translate_mirror_point.
Qed.
Lemma mirror_translate_axis p a v : pl_c (plane_translate p v) = pl_c p + dot v (pl_normal p) ->
  axis_mirror (axis_translate a v) (plane_translate p v) = axis_translate (axis_mirror a p) v.
Proof.
  intros H. unfold axis_mirror. cbn [axis_translate ax_vector ax_point]. now rewrite translate_mirror_point.
Qed.
(** Mirror, then translation. *)
Lemma mirror_translate p v a : pl_c (plane_translate p v) = pl_c p + dot v (pl_normal p) ->
  t_mirror (t_translate a v) (plane_translate p v) = bind (t_mirror a p) (fun o => Ok (t_translate o v)).
Proof.
  intros Hc. induction a as [m|k l IH] using tree_induction.
  - cbn [t_translate t_mirror bind]. do 2 f_equal. unfold mirror, translate, flip_normals. cbn. f_equal.
    rewrite !map_map. apply map_ext. intros x. now apply translate_mirror_point.
  - cbn [t_translate t_mirror]. rewrite !sequence_map, mapM_map_in.
    rewrite (mapM_ext _ (fun x => bind (t_mirror x p) (fun o => Ok (t_translate o v)))) by exact IH.
    rewrite (mapM_bind_map (fun x => t_mirror x p) (fun o => t_translate o v)).
    destruct k as [|q|s [|]|ax]; cbn [bind]; try reflexivity; (destruct (mapM _ l); cbn [bind t_translate]; [|reflexivity]);
      try reflexivity.
    + rewrite mirror_translate_plane by exact Hc. reflexivity.
    + rewrite mirror_translate_axis by exact Hc. reflexivity.
Qed.
Lemma translate_translate a v w : t_translate (t_translate a w) v = t_translate (t_translate a v) w.
Proof.
  assert (G : forall x, vadd (vadd x w) v = vadd (vadd x v) w) by (intros; vring).
  induction a as [m|k l IH] using tree_induction.
  - cbn [t_translate]. f_equal. unfold translate. cbn. f_equal. rewrite !map_map. apply map_ext. exact G.
  - cbn [t_translate]. f_equal.
    + destruct k as [|q|s i|ax]; try reflexivity; [unfold plane_translate|unfold axis_translate]; cbn; now rewrite G.
    + rewrite !map_map. now apply map_ext_in.
Qed.
Lemma rotate_point_translate a v th x : rotate_point (axis_translate a v) th (vadd x v) = vadd (rotate_point a th x) v.
Proof.
  unfold rotate_point, axis_translate. cbn [ax_point]. change (rotate_vector (Axis (ax_vector a) (vadd (ax_point a) v)) th) with (rotate_vector a th).
  replace (vsub (vadd x v) (vadd (ax_point a) v)) with (vsub x (ax_point a)) by (destruct a as [u p]; cbn; vring).
  generalize (rotate_vector a th (vsub x (ax_point a))). intros y. destruct a as [u p]. cbn. clear. revert y p v. intros u1 u2 u3. vring.
Qed.
Lemma rotate_translate a v th x : (forall p, ~ In (Reflection p) (kinds x)) ->
  t_rotate (t_translate x v) (axis_translate a v) th = t_translate (t_rotate x a th) v.
Proof.
  induction x as [m|k l IH] using tree_induction; intros Hk.
  - cbn [t_translate t_rotate]. f_equal. unfold rotate, translate. cbn. f_equal. rewrite !map_map. apply map_ext. intros y. apply rotate_point_translate.
  - cbn [t_translate t_rotate]. f_equal.
    + destruct k as [|q|s i|ax]; try reflexivity.
      * exfalso. apply (Hk q). now left.
      * f_equal. unfold axis_rotate. change (axis_translate ax v) with (Axis (ax_vector ax) (vadd (ax_point ax) v)). cbn [ax_vector ax_point].
        now rewrite rotate_point_translate.
    + rewrite !map_map. apply map_ext_in. intros y Hy. apply IH; [exact Hy|]. intros p Hp. apply (Hk p). cbn [kinds]. right.
      apply in_concat. exists (kinds y). split; [now apply in_map|exact Hp].
Qed.

Lemma kinds_in k l x q : In x l -> In q (kinds x) -> In q (kinds (Node k l)).
Proof. intros Hx Hq. cbn [kinds]. right. apply in_concat. exists (kinds x). split; [now apply in_map|exact Hq]. Qed.
Lemma plane_c_translate p v : positive_plane p -> positive_plane (plane_translate p v) ->
  pl_c (plane_translate p v) = pl_c p + dot v (pl_normal p).
Proof.
  unfold positive_plane, pl_c. cbn [plane_translate pl_normal pl_point]. intros H1 H2.
  rewrite !Rabs_right by lra. rewrite dot_add_r, (dot_sym v). reflexivity.
Qed.
Lemma unmixed_inv k l : unmixed (Node k l) -> (forall x, In x l -> unmixed x) /\
  (forall a, k = Axial a -> forall x p, In x l -> ~ In (Reflection p) (kinds x)).
Proof. inversion 1; auto. Qed.

Lemma symmetric_translate t v : symmetric t -> unmixed t ->
  (forall p, In (Reflection p) (kinds t) -> positive_plane p /\ positive_plane (plane_translate p v)) ->
  symmetric (t_translate t v).
Proof.
  intros H. induction H as [m|l Hl IH|p a b Ha IH Hz Hb|w i a r Ha IH Hz Hr|ax a r Ha IH Hr]; intros Hu Hp;
    cbn [t_translate]; try apply unmixed_inv in Hu.
  - constructor.
  - constructor. intros y Hy. apply in_map_iff in Hy. destruct Hy as (x & <- & Hx). apply IH; [exact Hx|now apply Hu|].
    intros q Hq. apply Hp. now apply kinds_in with x.
  - cbn [map]. constructor; [|exact Hz|].
    + apply IH; [apply Hu; now left|]. intros q Hq. apply Hp. apply kinds_in with a; [now left|exact Hq].
    + destruct (Hp p) as [P1 P2]; [now left|]. rewrite mirror_translate by now apply plane_c_translate. rewrite Hb. reflexivity.
  - cbn [map]. rewrite map_map.
    rewrite (map_ext _ (fun j => t_translate (t_translate a v) (vscale (INR j) w))) by (intros j; apply translate_translate).
    constructor; [|exact Hz|exact Hr]. apply IH; [apply Hu; now left|]. intros q Hq. apply Hp. apply kinds_in with a; [now left|exact Hq].
  - cbn [map]. rewrite map_map.
    rewrite (map_ext _ (fun j => t_rotate (t_translate a v) (axis_translate ax v) (2 * INR j * PI / (INR r + 1)))).
    + constructor; [|exact Hr]. apply IH; [apply Hu; now left|]. intros q Hq. apply Hp. apply kinds_in with a; [now left|exact Hq].
    + intros j. symmetry. apply rotate_translate. intros p. apply (proj2 Hu ax eq_refl a p). now left.
Qed.

(** ** Rotations *)
Lemma rotate_point_add b th x w : rotate_point b th (vadd x w) = vadd (rotate_point b th x) (rotate_vector b th w).
Proof.
  unfold rotate_point. replace (vsub (vadd x w) (ax_point b)) with (vadd (vsub x (ax_point b)) w) by (destruct b as [u p]; cbn; vring).
  rewrite rotate_vector_add. generalize (rotate_vector b th (vsub x (ax_point b))) (rotate_vector b th w) (ax_point b). clear.
  intros u1 u2 u3. vring.
Qed.
Lemma rotate_translate_tree b th w a : t_translate (t_rotate a b th) (rotate_vector b th w) = t_rotate (t_translate a w) b th.
Proof.
  induction a as [m|k l IH] using tree_induction.
  - cbn [t_translate t_rotate]. f_equal. unfold rotate, translate. cbn. f_equal. rewrite !map_map. apply map_ext.
    intros y. now rewrite rotate_point_add.
  - cbn [t_translate t_rotate]. f_equal.
    + destruct k as [|q|s i|ax]; try reflexivity.
      * f_equal. unfold plane_rotate, plane_translate. cbn. now rewrite rotate_vector_add.
      * f_equal. unfold axis_rotate, axis_translate. cbn. now rewrite rotate_point_add.
    + rewrite !map_map. now apply map_ext_in.
Qed.
Lemma rotate_conjugate a b th s v : proper_axis b ->
  rotate_vector (axis_rotate a b th) s (rotate_vector b th v) = rotate_vector b th (rotate_vector a s v).
Proof.
  intros Hb. rewrite (rotate_vector_formula (axis_rotate a b th)), (rotate_vector_formula a s v). cbn [axis_rotate ax_vector].
  rewrite !rotate_vector_cross by exact Hb. rewrite !rotate_vector_add, !rotate_vector_scale. reflexivity.
Qed.
Lemma rotate_point_add' b th w x : rotate_point b th (vadd w x) = vadd (rotate_vector b th w) (rotate_point b th x).
Proof.
  unfold rotate_point. replace (vsub (vadd w x) (ax_point b)) with (vadd w (vsub x (ax_point b))) by (destruct b as [u p]; cbn; vring).
  rewrite rotate_vector_add. generalize (rotate_vector b th (vsub x (ax_point b))) (rotate_vector b th w) (ax_point b). clear.
  intros u1 u2 u3. vring.
Qed.
Lemma rotate_conjugate_point a b th s x : proper_axis b ->
  rotate_point (axis_rotate a b th) s (rotate_point b th x) = rotate_point b th (rotate_point a s x).
Proof.
  intros Hb. transitivity (vadd (rotate_vector b th (rotate_vector a s (vsub x (ax_point a)))) (rotate_point b th (ax_point a))).
  - unfold rotate_point at 1. cbn [axis_rotate ax_point]. rewrite rotate_point_sub.
    change (Axis (rotate_vector b th (ax_vector a)) (rotate_point b th (ax_point a))) with (axis_rotate a b th).
    now rewrite rotate_conjugate.
  - rewrite <- rotate_point_add'. reflexivity.
Qed.
Lemma rotate_rotate_tree a b th s x : proper_axis b ->
  t_rotate (t_rotate x b th) (axis_rotate a b th) s = t_rotate (t_rotate x a s) b th.
Proof.
  intros Hb. induction x as [m|k l IH] using tree_induction.
  - cbn [t_rotate]. f_equal. unfold rotate. cbn. f_equal. rewrite !map_map. apply map_ext. intros y. now apply rotate_conjugate_point.
  - cbn [t_rotate]. f_equal.
    + destruct k as [|q|w i|ax]; try reflexivity.
      * f_equal. unfold plane_rotate. cbn [pl_normal pl_point]. now rewrite !rotate_conjugate.
      * f_equal. now apply rotate_conjugate.
      * f_equal. apply (f_equal2 Axis); [exact (rotate_conjugate a b th s _ Hb)|exact (rotate_conjugate_point a b th s _ Hb)].
    + rewrite !map_map. now apply map_ext_in.
Qed.

(** The axis is Oz: the rotation of points is linear. *)
Definition linear_axis (b : axis) : Prop := forall th, rotate_vector b th (ax_point b) = ax_point b.
Lemma rotate_point_linear b th x : linear_axis b -> rotate_point b th x = rotate_vector b th x.
Proof.
  intros H. unfold rotate_point. rewrite rotate_vector_sub, H. generalize (rotate_vector b th x) (ax_point b). clear. intros u1 u2. vring.
Qed.
Lemma mirror_rotate_vector p b th x : proper_axis b ->
  mirror_vector (plane_rotate p b th) (rotate_vector b th x) = rotate_vector b th (mirror_vector p x).
Proof.
  intros Hb. unfold mirror_vector. cbn [plane_rotate pl_normal]. rewrite rotate_vector_dot by exact Hb.
  now rewrite rotate_vector_sub, rotate_vector_scale.
Qed.
Lemma mirror_rotate_linear p b th x : proper_axis b ->
  mirror_point (plane_rotate p b th) (rotate_vector b th x) = rotate_vector b th (mirror_point p x).
Proof.
  intros Hb. unfold mirror_point, pl_c. cbn [plane_rotate pl_normal pl_point]. rewrite !rotate_vector_dot by exact Hb.
  now rewrite rotate_vector_sub, rotate_vector_scale.
Qed.
Lemma mirror_rotate p b th : proper_axis b -> linear_axis b -> forall a o, t_mirror a p = Ok o ->
  t_mirror (t_rotate a b th) (plane_rotate p b th) = Ok (t_rotate o b th).
Proof.
  intros Hb Hl. assert (G : forall x, mirror_point (plane_rotate p b th) (rotate_point b th x) = rotate_point b th (mirror_point p x)).
  { intros x. rewrite !rotate_point_linear by exact Hl. now apply mirror_rotate_linear. }
  induction a as [m|k l IH] using tree_induction; intros o H.
  - cbn [t_mirror] in H. apply Ok_inj' in H. subst o. cbn [t_rotate t_mirror]. do 2 f_equal. unfold mirror, rotate, flip_normals. cbn. f_equal.
    rewrite !map_map. apply map_ext. exact G.
  - cbn [t_mirror] in H. rewrite sequence_map in H.
    destruct (match k with Plain => _ | _ => _ end) as [k'|e] eqn:Ek; cbn [bind] in H; [|discriminate].
    destruct (mapM (fun x => t_mirror x p) l) as [os|e] eqn:El; cbn [bind] in H; [|discriminate]. apply Ok_inj' in H. subst o.
    cbn [t_rotate t_mirror]. rewrite sequence_map, mapM_map_in.
    assert (E : mapM (fun x => t_mirror (t_rotate x b th) (plane_rotate p b th)) l = Ok (map (fun x => t_rotate x b th) os)).
    { apply mapM_ok. apply mapM_ok in El. destruct El as [L El]. split; [now rewrite map_length|]. intros j x Hx.
      destruct (El j x Hx) as (y & Y1 & Y2). exists (t_rotate y b th). split; [apply IH; [now apply nth_error_In in Hx|exact Y1]|].
      now rewrite nth_error_map, Y2. }
    rewrite E. destruct k as [|q|w [|]|ax]; try discriminate; apply Ok_inj' in Ek; subst k'; cbn [bind]; do 3 f_equal.
    + apply (f_equal2 Plane); [exact (mirror_rotate_vector p b th _ Hb)|exact (mirror_rotate_linear p b th _ Hb)].
    + now apply mirror_rotate_vector.
    + apply (f_equal2 Axis); [exact (mirror_rotate_vector p b th _ Hb)|exact (G _)].
Qed.
Lemma vertical_rotate_z b th x : vertical_axis b -> vz (rotate_vector b th x) = vz x.
Proof.
  intros (Hb & Hx & Hy). rewrite rotate_vector_formula. destruct b as [[ux uy uz] p]. cbn in *. subst. ring.
Qed.
Lemma vertical_linear b : vertical_axis b -> vx (ax_point b) = 0 -> vy (ax_point b) = 0 -> linear_axis b.
Proof.
  intros (Hb & Hx & Hy) Px Py th. rewrite rotate_vector_formula. destruct b as [[ux uy uz] [px py pz]]. cbn in *. subst.
  apply vec_ext; cbn; ring.
Qed.
Lemma symmetric_rotate t b th : symmetric t -> vertical_axis b ->
  linear_axis b \/ (forall p, ~ In (Reflection p) (kinds t)) -> symmetric (t_rotate t b th).
Proof.
  intros H Hv. pose proof (proj1 Hv) as Hb.
  induction H as [m|l Hl IH|p a o Ha IH Hz Ho|w i a r Ha IH Hz Hr|ax a r Ha IH Hr]; intros Hor; cbn [t_rotate].
  - constructor.
  - constructor. intros y Hy. apply in_map_iff in Hy. destruct Hy as (x & <- & Hx). apply IH; [exact Hx|].
    destruct Hor as [Hor|Hor]; [now left|right]. intros q Hq. apply (Hor q). now apply kinds_in with x.
  - destruct Hor as [Hor|Hor]; [|exfalso; apply (Hor p); now left]. cbn [map]. constructor.
    + apply IH. now left.
    + cbn [plane_rotate pl_normal]. now rewrite vertical_rotate_z.
    + now apply mirror_rotate.
  - cbn [map]. rewrite map_map.
    rewrite (map_ext _ (fun j => t_translate (t_rotate a b th) (vscale (INR j) (rotate_vector b th w)))).
    + constructor; [|now rewrite vertical_rotate_z|exact Hr]. apply IH.
      destruct Hor as [Hor|Hor]; [now left|right]. intros q Hq. apply (Hor q). apply kinds_in with a; [now left|exact Hq].
    + intros j. rewrite <- rotate_translate_tree. now rewrite rotate_vector_scale.
  - cbn [map]. rewrite map_map.
    rewrite (map_ext _ (fun j => t_rotate (t_rotate a b th) (axis_rotate ax b th) (2 * INR j * PI / (INR r + 1)))).
    + constructor; [|exact Hr]. apply IH.
      destruct Hor as [Hor|Hor]; [now left|right]. intros q Hq. apply (Hor q). apply kinds_in with a; [now left|exact Hq].
    + intros j. symmetry. now apply rotate_rotate_tree.
Qed.

(** ** Mirrors *)
Lemma mirror_conjugate_vector p q x : proper_plane q ->
  mirror_vector (plane_mirror p q) (mirror_vector q x) = mirror_vector q (mirror_vector p x).
Proof.
  intros Hq. unfold mirror_vector at 1. cbn [plane_mirror pl_normal]. rewrite mirror_vector_dot by exact Hq.
  unfold mirror_vector at 4. generalize (2 * dot x (pl_normal p)) as k. intros k. destruct p as [n pt], q as [n' pt']. cbn [pl_normal].
  clear. unfold mirror_vector. cbn [pl_normal]. vring.
Qed.
Lemma mirror_conjugate_point p q x : proper_plane q -> positive_plane p -> positive_plane (plane_mirror p q) ->
  mirror_point (plane_mirror p q) (mirror_point q x) = mirror_point q (mirror_point p x).
Proof.
  intros Hq H1 H2.
  assert (Cp : pl_c p = dot (pl_point p) (pl_normal p)) by (unfold pl_c; rewrite Rabs_right by (apply Rle_ge, H1); apply dot_sym).
  assert (Cq : pl_c (plane_mirror p q) = dot (mirror_point q (pl_point p)) (mirror_vector q (pl_normal p)))
    by (unfold pl_c; rewrite Rabs_right by (apply Rle_ge, H2); apply dot_sym).
  unfold mirror_point at 1. rewrite Cq. cbn [plane_mirror pl_normal].
  replace (dot (mirror_point q x) (mirror_vector q (pl_normal p)) - dot (mirror_point q (pl_point p)) (mirror_vector q (pl_normal p)))
    with (dot (vsub x (pl_point p)) (pl_normal p)).
  2:{ rewrite <- (mirror_vector_dot q (vsub x (pl_point p)) (pl_normal p) Hq), <- mirror_point_sub.
      generalize (mirror_point q x) (mirror_point q (pl_point p)) (mirror_vector q (pl_normal p)). clear. intros u1 u2 u3. vring. }
  unfold mirror_point at 3. rewrite Cp.
  replace (dot x (pl_normal p) - dot (pl_point p) (pl_normal p)) with (dot (vsub x (pl_point p)) (pl_normal p))
    by (destruct p as [n pt]; cbn; clear; vring).
  generalize (2 * dot (vsub x (pl_point p)) (pl_normal p)) as k. intros k. unfold mirror_point, mirror_vector.
  generalize (pl_c q) (pl_normal p) (pl_normal q). clear. intros c u1 u2. vring.
Qed.
Lemma mirror_mirror_tree p q : proper_plane q -> positive_plane p -> positive_plane (plane_mirror p q) ->
  forall a o a' o', t_mirror a p = Ok o -> t_mirror a q = Ok a' -> t_mirror o q = Ok o' ->
  t_mirror a' (plane_mirror p q) = Ok o'.
Proof.
  intros Hq H1 H2. pose proof (fun x => mirror_conjugate_point p q x Hq H1 H2) as G.
  induction a as [m|k l IH] using tree_induction; intros o a' o' Eo Ea Eo'.
  - cbn [t_mirror] in *. apply Ok_inj' in Eo. subst o. apply Ok_inj' in Ea. subst a'. cbn [t_mirror] in *. apply Ok_inj' in Eo'. subst o'.
    do 2 f_equal. unfold mirror, flip_normals. cbn. rewrite !map_map. f_equal. apply map_ext. exact G.
  - cbn [t_mirror] in Eo, Ea. rewrite sequence_map in Eo, Ea.
    destruct (match k with Plain => _ | _ => _ end) as [k1|e] eqn:E1 in Eo; cbn [bind] in Eo; [|discriminate].
    destruct (match k with Plain => _ | _ => _ end) as [k2|e] eqn:E2 in Ea; cbn [bind] in Ea; [|discriminate].
    destruct (mapM (fun x => t_mirror x p) l) as [l1|e] eqn:L1; cbn [bind] in Eo; [|discriminate].
    destruct (mapM (fun x => t_mirror x q) l) as [l2|e] eqn:L2; cbn [bind] in Ea; [|discriminate].
    apply Ok_inj' in Eo. subst o. apply Ok_inj' in Ea. subst a'. cbn [t_mirror] in *. rewrite sequence_map in *.
    destruct (match k1 with Plain => _ | _ => _ end) as [k3|e] eqn:E3 in Eo'; cbn [bind] in Eo'; [|discriminate].
    destruct (mapM (fun x => t_mirror x q) l1) as [l3|e] eqn:L3; cbn [bind] in Eo'; [|discriminate].
    apply Ok_inj' in Eo'. subst o'.
    assert (E : mapM (fun x => t_mirror x (plane_mirror p q)) l2 = Ok l3).
    { apply mapM_ok. apply mapM_ok in L1, L2, L3. destruct L1 as [N1 L1], L2 as [N2 L2], L3 as [N3 L3].
      split; [congruence|]. intros j x Hx.
      destruct (nth_error l j) as [y|] eqn:Ey; [|apply nth_error_None in Ey; assert (j < length l2)%nat by (apply nth_error_Some; congruence); lia].
      destruct (L1 j y Ey) as (y1 & A1 & B1). destruct (L2 j y Ey) as (y2 & A2 & B2). destruct (L3 j y1 B1) as (y3 & A3 & B3).
      assert (x = y2) by congruence. subst x. exists y3. split; [|exact B3].
      apply (IH y (nth_error_In _ _ Ey) y1 y2 y3 A1 A2 A3). }
    rewrite E.
    destruct k as [|r|w [|]|ax]; try discriminate; apply Ok_inj' in E1; apply Ok_inj' in E2; subst k1 k2; apply Ok_inj' in E3; subst k3;
      cbn [bind]; try reflexivity; do 3 f_equal.
    + apply (f_equal2 Plane); [exact (mirror_conjugate_vector p q _ Hq)|exact (G _)].
    + now apply mirror_conjugate_vector.
    + apply (f_equal2 Axis); [exact (mirror_conjugate_vector p q _ Hq)|exact (G _)].
Qed.
Lemma mirror_point_add q x w : mirror_point q (vadd x w) = vadd (mirror_point q x) (mirror_vector q w).
Proof.
  unfold mirror_point, mirror_vector. generalize (pl_c q) as c. destruct q as [n pt]. cbn [pl_normal]. clear. intros c. vring.
Qed.
Lemma mirror_translated_tree q w a : t_mirror (t_translate a w) q = bind (t_mirror a q) (fun a' => Ok (t_translate a' (mirror_vector q w))).
Proof.
  induction a as [m|k l IH] using tree_induction.
  - cbn [t_translate t_mirror bind]. do 2 f_equal. unfold mirror, translate, flip_normals. cbn. f_equal.
    rewrite !map_map. apply map_ext. intros x. apply mirror_point_add.
  - cbn [t_translate t_mirror]. rewrite !sequence_map, mapM_map_in.
    rewrite (mapM_ext _ (fun x => bind (t_mirror x q) (fun o => Ok (t_translate o (mirror_vector q w))))) by exact IH.
    rewrite (mapM_bind_map (fun x => t_mirror x q) (fun o => t_translate o (mirror_vector q w))).
    destruct k as [|p|s [|]|ax]; cbn [bind]; try reflexivity; (destruct (mapM _ l); cbn [bind t_translate]; [|reflexivity]); try reflexivity; do 3 f_equal.
    + unfold plane_mirror, plane_translate. cbn. now rewrite mirror_point_add.
    + unfold axis_mirror, axis_translate. cbn. now rewrite mirror_point_add.
Qed.
Lemma mirror_vector_scale q k w : mirror_vector q (vscale k w) = vscale k (mirror_vector q w).
Proof. unfold mirror_vector. destruct q as [n pt]. cbn [pl_normal]. clear. vring. Qed.
Lemma vertical_mirror_z q w : vz (pl_normal q) = 0 -> vz w = 0 -> vz (mirror_vector q w) = 0.
Proof. intros H1 H2. unfold mirror_vector. destruct q as [[a b c] pt], w as [x y z]. cbn in *. subst. ring. Qed.
Lemma symmetric_mirror t q : symmetric t -> proper_plane q -> vz (pl_normal q) = 0 ->
  (forall a, ~ In (Axial a) (kinds t)) ->
  (forall p, In (Reflection p) (kinds t) -> positive_plane p /\ positive_plane (plane_mirror p q)) ->
  forall t', t_mirror t q = Ok t' -> symmetric t'.
Proof.
  intros H Hq Hz. induction H as [m|l Hl IH|p a o Ha IH Hn Ho|w i a r Ha IH Hw Hr|ax a r Ha IH Hr]; intros Hax Hp t' E.
  - cbn in E. apply Ok_inj' in E. subst. constructor.
  - cbn [t_mirror bind] in E. rewrite sequence_map in E. destruct (mapM _ l) as [l'|e] eqn:El; cbn [bind] in E; [|discriminate].
    apply Ok_inj' in E. subst t'. constructor. intros y Hy. apply In_nth_error in Hy. destruct Hy as [j Hj].
    apply mapM_ok in El. destruct El as [N El].
    destruct (nth_error l j) as [x|] eqn:Ex; [|apply nth_error_None in Ex; assert (j < length l')%nat by (apply nth_error_Some; congruence); lia].
    destruct (El j x Ex) as (y' & A & B). assert (y' = y) by congruence. subst y'. pose proof (nth_error_In _ _ Ex) as Hx.
    apply (IH x Hx); [|..]; [| |exact A].
    + intros b Hb. apply (Hax b). now apply kinds_in with x.
    + intros p Hpp. apply Hp. now apply kinds_in with x.
  - cbn [t_mirror bind] in E. rewrite sequence_map in E. cbn [mapM] in E.
    destruct (t_mirror a q) as [a'|e] eqn:Ea; cbn [bind] in E; [|discriminate].
    destruct (t_mirror o q) as [o'|e] eqn:Eo; cbn [bind] in E; [|discriminate]. apply Ok_inj' in E. subst t'.
    destruct (Hp p) as [P1 P2]; [now left|]. constructor.
    + apply IH; [| |reflexivity].
      * intros b Hb. apply (Hax b). apply kinds_in with a; [now left|exact Hb].
      * intros p' Hpp. apply Hp. apply kinds_in with a; [now left|exact Hpp].
    + cbn [plane_mirror pl_normal]. now apply vertical_mirror_z.
    + now apply (mirror_mirror_tree p q Hq P1 P2 a o).
  - cbn [t_mirror] in E. destruct i; [discriminate|]. cbn [bind] in E. rewrite sequence_map in E. cbn [mapM] in E.
    destruct (t_mirror a q) as [a'|e] eqn:Ea; cbn [bind] in E; [|discriminate].
    rewrite mapM_map_in in E.
    rewrite (mapM_map _ (fun j => t_translate a' (vscale (INR j) (mirror_vector q w)))) in E.
    2:{ intros j _. rewrite mirror_translated_tree, Ea. cbn [bind]. now rewrite mirror_vector_scale. }
    cbn [bind] in E. apply Ok_inj' in E. subst t'. constructor; [|now apply vertical_mirror_z|exact Hr].
    apply IH; [| |reflexivity].
    + intros b Hb. apply (Hax b). apply kinds_in with a; [now left|exact Hb].
    + intros p' Hpp. apply Hp. apply kinds_in with a; [now left|exact Hpp].
  - exfalso. apply (Hax ax). now left.
Qed.
Lemma mirror_total t q : (forall v, ~ In (Translation v true) (kinds t)) -> exists t', t_mirror t q = Ok t'.
Proof.
  induction t as [m|k l IH] using tree_induction; intros H; [eexists; reflexivity|]. cbn [t_mirror]. rewrite sequence_map.
  destruct (mapM_total (fun x => t_mirror x q) l) as [l' El].
  { intros x Hx. apply IH; [exact Hx|]. intros v Hv. apply (H v). now apply kinds_in with x. }
  rewrite El. destruct k as [|p|v [|]|a]; cbn [bind]; try (eexists; reflexivity). exfalso. apply (H v). now left.
Qed.
