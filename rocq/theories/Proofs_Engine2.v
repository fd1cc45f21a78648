From Coq Require Import Reals List Bool ZArith Arith Lia Lra.
From Verif Require Import Model_Base Model_Ring Model_Block Spec_Block Proofs_Block Proofs_Block2 Model_Geometry Proofs_Geometry
  Model_Mesh Spec_Mesh Proofs_Mesh Model_Quality Model_Tree Spec_Tree Proofs_Tree Proofs_Symmetry Model_Engine Spec_Engine
  Proofs_Engine.
Import ListNotations.
Open Scope nat_scope.

Lemma mapM_through {X Y Z} (g : X -> result Y) (h : Y -> Z) f l :
  (forall x, In x l -> f x = bind (g x) (fun y => Ok (h y))) ->
  mapM f l = bind (mapM g l) (fun ys => Ok (map h ys)).
Proof.
  induction l as [|x l IH]; intros H; [reflexivity|]. cbn [mapM].
  rewrite (H x (or_introl eq_refl)). destruct (g x); cbn [bind]; [|reflexivity].
  rewrite IH by (intros; apply H; now right). destruct (mapM g l); reflexivity.
Qed.
Lemma concatenate_map {X Y} (h : X -> Y) ls : concatenate (map (map h) ls) = bind (concatenate ls) (fun l => Ok (map h l)).
Proof. destruct ls as [|l ls]; [reflexivity|]. unfold concatenate. cbn [map bind]. now rewrite concat_map. Qed.
Lemma concatenate_through {X Y Z} (g : X -> result (list Y)) (h : Y -> Z) f l :
  (forall x, In x l -> f x = bind (g x) (fun y => Ok (map h y))) ->
  bind (mapM f l) concatenate = bind (bind (mapM g l) concatenate) (fun ys => Ok (map h ys)).
Proof.
  intros H. rewrite (mapM_through g (map h) f l H). destruct (mapM g l); cbn [bind]; [|reflexivity].
  apply concatenate_map.
Qed.

Lemma t_panels_raw t : t_panels t = bind (t_raw t) (fun l => Ok (map panel_raw l)).
Proof.
  induction t as [m|k l IH] using tree_induction.
  - cbn [t_panels t_raw]. unfold mesh_panels, mesh_raw. apply mapM_through. intros f _.
    destruct (face_points (m_vertices m) f); reflexivity.
  - cbn [t_panels t_raw]. rewrite !sequence_map. now apply concatenate_through.
Qed.

Lemma face_points_map (f : vec -> vec) vs fc :
  face_points (map f vs) fc = bind (face_points vs fc) (fun q => Ok (moved_quad f q)).
Proof.
  unfold face_points, get.
  rewrite !nth_error_map.
  repeat (match goal with |- context [option_map f ?x] => destruct x; cbn [option_map bind]; try reflexivity end).
Qed.
Lemma mesh_raw_move f m m' : m_vertices m' = map f (m_vertices m) -> m_faces m' = m_faces m ->
  mesh_raw m' = bind (mesh_raw m) (fun l => Ok (map (img (moved_quad f)) l)).
Proof.
  intros E1 E2. unfold mesh_raw. rewrite E1, E2. apply mapM_through. intros fc _.
  rewrite face_points_map. destruct (face_points (m_vertices m) fc); reflexivity.
Qed.
Lemma raw_translate t v : t_raw (t_translate t v) = bind (t_raw t) (fun l => Ok (map (img (moved_quad (fun x => vadd x v))) l)).
Proof.
  induction t as [m|k l IH] using tree_induction.
  - now apply mesh_raw_move.
  - cbn [t_translate t_raw]. rewrite !sequence_map.
    rewrite <- (concatenate_through t_raw _ (fun x => t_raw (t_translate x v)) l IH).
    f_equal. clear IH. induction l as [|x l IHl]; [reflexivity|]. cbn [map mapM]. now rewrite IHl.
Qed.
Lemma raw_rotate t a th : t_raw (t_rotate t a th) = bind (t_raw t) (fun l => Ok (map (img (moved_quad (rotate_point a th))) l)).
Proof.
  induction t as [m|k l IH] using tree_induction.
  - now apply mesh_raw_move.
  - cbn [t_rotate t_raw]. rewrite !sequence_map.
    rewrite <- (concatenate_through t_raw _ (fun x => t_raw (t_rotate x a th)) l IH).
    f_equal. clear IH. induction l as [|x l IHl]; [reflexivity|]. cbn [map mapM]. now rewrite IHl.
Qed.
Lemma is_tri_flip f : is_tri (flip_face f) = is_tri f.
Proof. unfold is_tri, flip_face. cbn. apply Nat.eqb_sym. Qed.
Lemma get_cases {X} (l : list X) i : (exists x, get l i = Ok x) \/ get l i = Err IndexError.
Proof. unfold get. destruct (nth_error l i); eauto. Qed.
Lemma raw_mirror q t : forall t' , t_mirror t q = Ok t' -> t_raw t' = bind (t_raw t) (fun l => Ok (map (img (mirrored_quad q)) l)).
Proof.
  induction t as [m|k l IH] using tree_induction; intros t' H.
  - cbn [t_mirror] in H. apply Ok_inj' in H. subst t'. cbn [t_raw]. unfold mesh_raw, mirror, flip_normals. cbn [m_vertices m_faces].
    rewrite <- (mapM_through (fun f => bind (face_points (m_vertices m) f) (fun q => Ok (is_tri f, q))) (img (mirrored_quad q))
                 (fun f => bind (face_points (m_vertices m) f) (fun q0 => Ok (is_tri f, mirrored_quad q q0)))).
    + induction (m_faces m) as [|f fs IHf]; [reflexivity|]. cbn [map mapM]. rewrite IHf.
      rewrite is_tri_flip, face_points_map.
      assert (E : bind (bind (face_points (m_vertices m) (flip_face f)) (fun q0 : quad => Ok (moved_quad (mirror_point q) q0)))
                (fun q0 : quad => Ok (is_tri f, q0)) =
              bind (face_points (m_vertices m) f) (fun q0 : quad => Ok (is_tri f, mirrored_quad q q0))).
      { unfold face_points, flip_face. cbn [fa fb fc fd].
        destruct (get_cases (m_vertices m) (fa f)) as [[a Ea]|Ea]; destruct (get_cases (m_vertices m) (fb f)) as [[b Eb]|Eb];
        destruct (get_cases (m_vertices m) (fc f)) as [[c Ec]|Ec]; destruct (get_cases (m_vertices m) (fd f)) as [[d Ed]|Ed];
        rewrite Ea, Eb, Ec, Ed; reflexivity. }
      rewrite E. reflexivity.
    + intros f _. destruct (face_points (m_vertices m) f); reflexivity.
  - cbn [t_mirror] in H.
    destruct (match k with Plain => _ | _ => _ end) as [k'|]; [|discriminate]. cbn [bind] in H.
    rewrite sequence_map in H. destruct (mapM (fun x => t_mirror x q) l) as [l'|] eqn:E; [|discriminate].
    cbn [bind] in H. apply Ok_inj' in H. subst t'. cbn [t_raw]. rewrite !sequence_map.
    assert (E' : mapM t_raw l' = mapM (fun x => bind (t_raw x) (fun r => Ok (map (img (mirrored_quad q)) r))) l).
    { clear k k'. revert l' E. induction l as [|x l IHl]; intros l' E.
      - cbn in E. apply Ok_inj' in E. now subst l'.
      - cbn [mapM] in E. destruct (t_mirror x q) as [x'|] eqn:Ex; [|discriminate]. cbn [bind] in E.
        destruct (mapM (fun x => t_mirror x q) l) as [l0|] eqn:El; [|discriminate]. cbn [bind] in E.
        apply Ok_inj' in E. subst l'. cbn [mapM]. rewrite (IH x (or_introl eq_refl) x' Ex).
        rewrite (IHl (fun y Hy => IH y (or_intror Hy)) l0 eq_refl). reflexivity. }
    rewrite E'. apply concatenate_through. reflexivity.
Qed.

(** ** Invariance of the coefficients *)
Section Invariance.
Context {A : coeffs}.
Variable P : bool -> quad -> Prop.
Variable G : bool -> panel -> panel -> A * A.
Definition within (r : list raw) : Prop := Forall (fun x => P (fst x) (snd x)) r.
Lemma within_nth r i t q : within r -> nth_error r i = Some (t, q) -> P t q.
Proof. intros H E. unfold within in H. rewrite Forall_forall in H. exact (H _ (nth_error_In _ _ E)). Qed.
Lemma within_img f r : (forall tri q, P tri q -> P tri (f q)) -> within r -> within (map (img f) r).
Proof.
  intros H W. unfold within in *. rewrite Forall_forall in *. intros x Hx. apply in_map_iff in Hx. destruct Hx as ([t q] & <- & Hy).
  apply H. exact (W _ Hy).
Qed.
Definition coef (same : bool) (r1 r2 : list raw) := coefficient G same (map panel_raw r1) (map panel_raw r2).

Lemma coef_nth same r1 r2 i j : coef same r1 r2 i j =
  match nth_error r1 i, nth_error r2 j with
  | Some a, Some b => Some (G (same && (i =? j)) (panel_raw a) (panel_raw b))
  | _, _ => None
  end.
Proof.
  unfold coef, coefficient. rewrite !nth_error_map.
  destruct (nth_error r1 i); [|reflexivity]. destruct (nth_error r2 j); reflexivity.
Qed.
Lemma coef_invariant f same r1 r2 i j : invariant_under P G f -> within r1 -> within r2 ->
  coef same (map (img f) r1) (map (img f) r2) i j = coef same r1 r2 i j.
Proof.
  intros [_ H] W1 W2. rewrite !coef_nth, !nth_error_map.
  destruct (nth_error r1 i) as [[t1 q1]|] eqn:E1; cbn [option_map]; [|reflexivity].
  destruct (nth_error r2 j) as [[t2 q2]|] eqn:E2; cbn [option_map]; [|reflexivity].
  unfold panel_raw, img. cbn [fst snd]. apply f_equal; exact (H _ _ _ _ _ (within_nth _ _ _ _ W1 E1) (within_nth _ _ _ _ W2 E2)).
Qed.
Lemma img_compose f g r : map (img f) (map (img g) r) = map (img (fun q => f (g q))) r.
Proof. rewrite map_map. apply map_ext. intros [t q]. reflexivity. Qed.
Lemma img_ext f g r : (forall q, f q = g q) -> map (img f) r = map (img g) r.
Proof. intros H. apply map_ext. intros [t q]. unfold img. cbn. now rewrite H. Qed.
Lemma img_id f r : (forall q, f q = q) -> map (img f) r = r.
Proof. intros H. transitivity (map (fun x => x) r); [apply map_ext|apply map_id]. intros [t q]. unfold img. cbn. now rewrite H. Qed.
(** Moving the first list amounts to moving the second one backwards. *)
Lemma coef_move f g h same r1 r2 i j : invariant_under P G f -> (forall tri q, P tri q -> P tri (g q)) -> within r1 -> within r2 ->
  (forall q, f (g q) = h q) ->
  coef same (map (img f) r1) (map (img h) r2) i j = coef same r1 (map (img g) r2) i j.
Proof.
  intros HI HG W1 W2 HC. rewrite <- (coef_invariant f same r1 (map (img g) r2) i j HI W1 (within_img g _ HG W2)).
  rewrite img_compose. now rewrite (img_ext _ h _ HC).
Qed.
Lemma coef_move_back f g h same r1 r2 i j : invariant_under P G f -> (forall tri q, P tri q -> P tri (g q)) -> within r1 -> within r2 ->
  (forall q, f (g q) = h q) ->
  coef same (map (img h) r1) (map (img f) r2) i j = coef same (map (img g) r1) r2 i j.
Proof.
  intros HI HG W1 W2 HC. rewrite <- (coef_invariant f same (map (img g) r1) r2 i j HI (within_img g _ HG W1) W2).
  rewrite img_compose. now rewrite (img_ext _ h _ HC).
Qed.
End Invariance.

Lemma moved_compose f g q : moved_quad f (moved_quad g q) = moved_quad (fun x => f (g x)) q.
Proof. reflexivity. Qed.
Lemma moved_ext f g q : (forall x, f x = g x) -> moved_quad f q = moved_quad g q.
Proof. intros H. unfold moved_quad. now rewrite !H. Qed.
Lemma moved_id f q : (forall x, f x = x) -> moved_quad f q = q.
Proof. intros H. unfold moved_quad. rewrite !H. now destruct q. Qed.
Lemma mirrored_involution p q : proper_plane p -> mirrored_quad p (mirrored_quad p q) = q.
Proof. intros H. unfold mirrored_quad. cbn [qa qb qc qd]. rewrite !(mirror_involution p) by exact H. now destruct q. Qed.
Lemma mirrored_ext p p' q : (forall x, mirror_point p x = mirror_point p' x) -> mirrored_quad p q = mirrored_quad p' q.
Proof. intros H. unfold mirrored_quad. now rewrite !H. Qed.
