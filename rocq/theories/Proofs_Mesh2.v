(** Proofs about meshes: slices, healing, triangulation, orientation. *)
From Coq Require Import Reals List Bool ZArith Lra Lia Permutation.
From Verif Require Import Model_Base Model_Geometry Model_Mesh Spec_Mesh Proofs_Geometry Proofs_Mesh.
Import ListNotations.
Open Scope R_scope.

Lemma degenerate_tol_pos : 0 < degenerate_tol.
Proof. unfold degenerate_tol. apply Rinv_0_lt_compat. lra. Qed.
(** A triangle seen as a quadrangle with twice the same corner has the same properties. *)
Lemma tri_as_quad a b c : quad_props (Q a b c a) = tri_props (Q a b c a).
Proof.
  unfold quad_props, tri_props. cbn [qa qb qc qd].
  replace (cross (vsub c a) (vsub a b)) with (cross (vsub b a) (vsub c a)) by vring.
  set (n := cross (vsub b a) (vsub c a)).
  replace (norm (cross (vsub a a) (vsub c a))) with 0.
  2:{ symmetry. apply norm_zero. vring. }
  destruct (Rltb (Rabs (norm n)) degenerate_tol) eqn:E; [reflexivity|]. apply Rltb_false in E.
  pose proof degenerate_tol_pos as T. pose proof (norm_pos n) as P. rewrite Rabs_pos_eq in E by exact P.
  f_equal; [f_equal; field|].
  generalize (vscale (/ 3) (vadd (vadd a b) c)) (vscale (/ 3) (vadd (vadd c a) a)). intros [x y z] [x' y' z'].
  unfold vscale, vadd; cbn. apply vec_ext; cbn; field; lra.
Qed.
Lemma props_of_one_face tri q : (tri = true -> qa q = qd q) -> props_of false q = props_of tri q.
Proof.
  intros H. destruct tri; [|reflexivity]. destruct q as [a b c d]. specialize (H eq_refl). cbn in H. subst d.
  unfold props_of. now rewrite tri_as_quad.
Qed.
Lemma extract_one_face_spec m z i a b c d ps x : index_of (nb_faces m) z i -> face_is m i a b c d ->
  faces_props m = Ok ps -> nth_error ps i = Some x ->
  exists m', extract_one_face m z = Ok m' /\ valid m' /\ nb_faces m' = 1%nat /\ face_is m' 0 a b c d
    /\ faces_props m' = Ok [x].
Proof.
  intros Hi H Hps Hx. apply face_is_points in H. destruct H as (f & Hf & Hp).
  unfold extract_one_face. rewrite (geti_ok _ _ i f Hi Hf). cbn [bind]. rewrite Hp. cbn [bind].
  assert (Vm : valid (Mesh [a; b; c; d] [F 0 1 2 3])).
  { intros g j [<-|[]] Hj. cbn in *. lia. }
  exists (Mesh [a; b; c; d] [F 0 1 2 3]). split.
  { apply build_mesh_ok. split; [reflexivity|exact Vm]. }
  split; [exact Vm|]. split; [reflexivity|]. split.
  { exists (F 0 1 2 3). cbn. auto 6. }
  unfold faces_props. cbn. unfold face_props, face_points. cbn. f_equal. f_equal.
  change (is_tri (F 0 1 2 3)) with false.
  apply mapM_ok in Hps. destruct Hps as [_ N]. destruct (N i f Hf) as (y & Hy & Hy'). rewrite Hx in Hy'. injection Hy' as <-.
  unfold face_props in Hy. rewrite Hp in Hy. cbn [bind] in Hy. apply Ok_inj' in Hy. rewrite <- Hy.
  apply props_of_one_face. intros T. apply Nat.eqb_eq in T. apply face_points_ok in Hp. destruct Hp as (Ha & _ & _ & Hd).
  cbn in *. congruence.
Qed.
Lemma extract_one_face_out_of_range m z : (forall i, ~ index_of (nb_faces m) z i) -> extract_one_face m z = Err IndexError.
Proof. intros N. unfold extract_one_face. now rewrite geti_err. Qed.

(** ** Slices *)
Lemma positions_aux {A} (test : A -> bool) l n k :
  In k (map fst (filter (fun p => test (snd p)) (combine (seq n (length l)) l))) <->
  (n <= k)%nat /\ exists x, nth_error l (k - n) = Some x /\ test x = true.
Proof.
  revert n. induction l as [|a l IH]; intros n; cbn.
  - split; [easy|]. intros (_ & x & H & _). destruct (k - n)%nat; discriminate.
  - destruct (test a) eqn:T; cbn.
    + rewrite IH. split.
      * intros [<-|(L & x & H & Tx)].
        -- split; [lia|]. exists a. now rewrite Nat.sub_diag.
        -- split; [lia|]. exists x. replace (k - n)%nat with (S (k - S n)) by lia. now split.
      * intros (L & x & H & Tx). destruct (Nat.eq_dec n k) as [->|Nk]; [now left|]. right. split; [lia|].
        exists x. replace (k - n)%nat with (S (k - S n)) in H by lia. now split.
    + rewrite IH. split.
      * intros (L & x & H & Tx). split; [lia|]. exists x. replace (k - n)%nat with (S (k - S n)) by lia. now split.
      * intros (L & x & H & Tx). destruct (Nat.eq_dec n k) as [->|Nk].
        -- rewrite Nat.sub_diag in H. cbn in H. injection H as ->. congruence.
        -- split; [lia|]. exists x. replace (k - n)%nat with (S (k - S n)) in H by lia. now split.
Qed.
Lemma positions_In {A} (test : A -> bool) l k :
  In k (positions test l) <-> exists x, nth_error l k = Some x /\ test x = true.
Proof. unfold positions. rewrite positions_aux, Nat.sub_0_r. split; [now intros (_ & H)|]. intros H. split; [lia|exact H]. Qed.
Lemma positions_sub {A} (test : A -> bool) l n :
  exists g, map fst (filter (fun p => test (snd p)) (combine (seq n (length l)) l)) = filter g (seq n (length l)).
Proof.
  revert n. induction l as [|a l IH]; intros n; [now exists (fun _ => true)|]. destruct (IH (S n)) as [g Hg].
  exists (fun i => if Nat.eqb i n then test a else g i). cbn. rewrite Nat.eqb_refl.
  assert (E : filter (fun i => if (i =? n)%nat then test a else g i) (seq (S n) (length l)) = filter g (seq (S n) (length l))).
  { apply filter_ext_in. intros i Hi. apply in_seq in Hi. destruct (Nat.eqb_spec i n); [lia|reflexivity]. }
  rewrite E. destruct (test a); cbn; now rewrite Hg.
Qed.
Lemma positions_NoDup {A} (test : A -> bool) l : NoDup (positions test l).
Proof. unfold positions. destruct (positions_sub test l 0) as [g ->]. apply NoDup_filter, seq_NoDup. Qed.
Lemma positions_lt {A} (test : A -> bool) l k : In k (positions test l) -> (k < length l)%nat.
Proof. rewrite positions_In. intros (x & H & _). apply nth_error_Some. congruence. Qed.

Section Slices.
  Variable set_order : list nat -> list nat.
  Hypothesis order_perm : forall l, Permutation l (set_order l).

  Lemma others_In n ids i : In i (others set_order n ids) <-> (i < n)%nat /\ ~ In i ids.
  Proof.
    unfold others. split.
    - intros H. apply (Permutation_in _ (Permutation_sym (order_perm _))) in H. apply filter_In in H. destruct H as [H1 H2].
      apply in_seq in H1. split; [lia|]. intros H. apply memb_In in H. rewrite H in H2. discriminate.
    - intros [L N]. apply (Permutation_in _ (order_perm _)). apply filter_In. split; [apply in_seq; lia|].
      destruct (memb i ids) eqn:E; [|reflexivity]. exfalso. now apply N, memb_In.
  Qed.
  Lemma others_splits n ids : NoDup ids -> (forall i, In i ids -> (i < n)%nat) -> splits n ids (others set_order n ids).
  Proof.
    intros N L. split.
    - assert (ND : NoDup (others set_order n ids)).
      { unfold others. eapply Permutation_NoDup; [apply order_perm|]. apply NoDup_filter, seq_NoDup. }
      assert (D : forall i, In i ids -> ~ In i (others set_order n ids)).
      { intros i Hi H. apply others_In in H. tauto. }
      revert D. clear L. induction N as [|i l Hi N IH]; intros D; cbn; [exact ND|]. constructor.
      + rewrite in_app_iff. intros [H|H]; [contradiction|]. now apply (D i); [left|].
      + assert (forall l', NoDup l -> NoDup l' -> (forall j, In j l -> ~ In j l') -> NoDup (l ++ l')) as AP.
        { clear. induction 1 as [|j l Hj N IH]; intros N' D; cbn; [exact N'|]. constructor.
          - rewrite in_app_iff. intros [H|H]; [contradiction|]. now apply (D j); [left|].
          - apply IH; [exact N'|]. intros j' Hj'. apply D. now right. }
        apply AP; [exact N|exact ND|]. intros j Hj. apply D. now right.
    - intros i. rewrite in_app_iff, others_In. split.
      + intros [H|[H _]]; [now apply L|exact H].
      + intros H. destruct (in_dec Nat.eq_dec i ids); [now left|right; now split].
  Qed.
  Lemma extract_selects m ids : valid m -> (forall i, In i ids -> (i < nb_faces m)%nat) ->
    exists m', extract m ids = Ok m' /\ selects m ids m'.
  Proof.
    intros Vm L. unfold extract. destruct (extract_faces_spec m (map Z.of_nat ids) Vm) as (m' & u & E & Vm' & _ & Nf & G & _).
    { intros z Hz. apply in_map_iff in Hz. destruct Hz as (i & <- & Hi). exists i. split; [now apply L|now left]. }
    rewrite E. cbn [bind fst]. exists m'. split; [reflexivity|]. split; [exact Vm'|]. split.
    - unfold nb_faces in Nf. rewrite map_length in Nf. exact Nf.
    - intros k i a b c d Hk H. apply (G k (Z.of_nat i) i); [now apply map_nth_error| |exact H].
      split; [|now left]. apply L. eapply nth_error_In; eauto.
  Qed.
  Lemma extract_two m ids : valid m -> NoDup ids -> (forall i, In i ids -> (i < nb_faces m)%nat) ->
    exists m1 m2 rest, extract m ids = Ok m1 /\ extract m (others set_order (nb_faces m) ids) = Ok m2
      /\ splits (nb_faces m) ids rest /\ selects m ids m1 /\ selects m rest m2.
  Proof.
    intros Vm N L. destruct (extract_selects m ids Vm L) as (m1 & E1 & S1).
    destruct (extract_selects m (others set_order (nb_faces m) ids) Vm) as (m2 & E2 & S2).
    { intros i Hi. apply others_In in Hi. tauto. }
    exists m1, m2, (others set_order (nb_faces m) ids). split; [exact E1|]. split; [exact E2|].
    split; [now apply others_splits|]. now split.
  Qed.
  Lemma sliced_by_plane_spec m p ps : valid m -> faces_props m = Ok ps ->
    exists parts, sliced_by_plane set_order m p = Ok parts
      /\ (parts = [m] \/ exists m1 m2 ids1 ids2, parts = [m1; m2] /\ splits (nb_faces m) ids1 ids2
            /\ selects m ids1 m1 /\ selects m ids2 m2
            /\ (forall i x, nth_error ps i = Some x -> (In i ids1 <-> distance_to_point p (p_center x) < 0))
            /\ ids1 <> [] /\ ids2 <> []).
  Proof.
    intros Vm Hps. unfold sliced_by_plane. rewrite Hps. cbn [bind].
    set (side := positions _ ps).
    assert (Lp : length ps = nb_faces m) by (now apply mapM_length in Hps).
    assert (L : forall i, In i side -> (i < nb_faces m)%nat) by (intros i Hi; rewrite <- Lp; eapply positions_lt; eauto).
    destruct (extract_two m side Vm (positions_NoDup _ _) L) as (m1 & m2 & rest & E1 & E2 & S0 & S1 & S2).
    destruct (Nat.eqb_spec (length side) 0) as [Z|Z]; cbn [orb]; [exists [m]; split; [reflexivity|now left]|].
    destruct (Nat.eqb_spec (length side) (nb_faces m)) as [Z'|Z']; cbn [orb]; [exists [m]; split; [reflexivity|now left]|].
    rewrite E1, E2. cbn [bind]. exists [m1; m2]. split; [reflexivity|]. right. exists m1, m2, side, rest.
    split; [reflexivity|]. split; [exact S0|]. split; [exact S1|]. split; [exact S2|]. split; [|split].
    - intros i x Hx. unfold side. rewrite positions_In. split.
      + intros (y & Hy & T). rewrite Hx in Hy. injection Hy as <-. now apply Rltb_true.
      + intros H. exists x. split; [exact Hx|now apply Rltb_true].
    - intros E. now rewrite E in Z.
    - intros ->. destruct S0 as [ND In0]. rewrite app_nil_r in *. apply Z'.
      assert (P : Permutation side (seq 0 (nb_faces m))).
      { apply NoDup_Permutation; [exact ND|apply seq_NoDup|]. intros i. rewrite In0, in_seq. lia. }
      apply Permutation_length in P. now rewrite seq_length in P.
  Qed.
  Lemma extract_lid_spec m p ps : valid m -> faces_props m = Ok ps ->
    exists hull lid ids_hull ids_lid, extract_lid set_order m p = Ok (hull, lid)
      /\ splits (nb_faces m) ids_lid ids_hull /\ selects m ids_lid lid /\ selects m ids_hull hull
      /\ (forall i x, nth_error ps i = Some x -> (In i ids_lid <-> face_on_plane p x = true)).
  Proof.
    intros Vm Hps. unfold extract_lid. rewrite Hps. cbn [bind]. set (side := positions _ ps).
    assert (Lp : length ps = nb_faces m) by (now apply mapM_length in Hps).
    assert (L : forall i, In i side -> (i < nb_faces m)%nat) by (intros i Hi; rewrite <- Lp; eapply positions_lt; eauto).
    destruct (extract_two m side Vm (positions_NoDup _ _) L) as (m1 & m2 & rest & E1 & E2 & S0 & S1 & S2).
    rewrite E1, E2. cbn [bind]. exists m2, m1, rest, side. split; [reflexivity|]. split; [exact S0|].
    split; [exact S1|]. split; [exact S2|]. intros i x Hx. unfold side. rewrite positions_In. split.
    - intros (y & Hy & T). rewrite Hx in Hy. injection Hy as <-. exact T.
    - intros H. now exists x.
  Qed.
End Slices.

(** ** Healing *)
Lemma heal_rotation f : rotation_of f (heal_face f).
Proof.
  destruct f as [a b c d]. unfold heal_face, roll_quad, is_tri, roll, rotation_of. cbn.
  destruct (Nat.eqb a d); cbn; [destruct (Nat.eqb a d); cbn; [destruct (Nat.eqb a d)|]|]; auto.
  all: destruct (Nat.eqb d c); cbn; [destruct (Nat.eqb d c); cbn|]; auto; destruct (Nat.eqb c b); cbn; auto.
Qed.
Lemma heal_tri f : is_tri (heal_face f) = true <-> has_repeated_corner f.
Proof.
  assert (RT : forall f, is_tri f = true -> roll_quad f = f) by (intros g E; unfold roll_quad; now rewrite E).
  assert (RF : forall f, is_tri f = false -> roll_quad f = roll f) by (intros g E; unfold roll_quad; now rewrite E).
  assert (EQ : forall g, is_tri g = true <-> fa g = fd g) by (intros g; apply Nat.eqb_eq).
  assert (NE : forall g, is_tri g = false <-> fa g <> fd g) by (intros g; apply Nat.eqb_neq).
  unfold heal_face, has_repeated_corner. destruct (is_tri f) eqn:E1.
  { rewrite !(RT f E1), E1. apply EQ in E1. split; [auto|reflexivity]. }
  rewrite (RF f E1). apply NE in E1. destruct (is_tri (roll f)) eqn:E2.
  { rewrite !(RT _ E2), E2. apply EQ in E2. cbn in E2. split; [auto|reflexivity]. }
  rewrite (RF _ E2). apply NE in E2. cbn in E2. destruct (is_tri (roll (roll f))) eqn:E3.
  { rewrite !(RT _ E3), E3. apply EQ in E3. cbn in E3. split; [auto|reflexivity]. }
  rewrite (RF _ E3). apply NE in E3. cbn in E3. rewrite EQ. cbn. split; [auto|].
  intros [H|[H|[H|H]]]; congruence.
Qed.
Lemma heal_idempotent f : is_tri f = true -> heal_face f = f.
Proof. intros T. unfold heal_face, roll_quad. now rewrite !T. Qed.
Lemma rotation_area m m' k f g a b c d : rotation_of f g -> m_vertices m' = m_vertices m ->
  nth_error (m_faces m) k = Some f -> nth_error (m_faces m') k = Some g ->
  face_is m k a b c d ->
  exists a' b' c' d', face_is m' k a' b' c' d' /\ area_vector a' b' c' d' = area_vector a b c d
    /\ ((a', b', c', d') = (a, b, c, d) \/ (a', b', c', d') = (b, c, d, a)
        \/ (a', b', c', d') = (c, d, a, b) \/ (a', b', c', d') = (d, a, b, c)).
Proof.
  intros R Ev Hf Hg (f' & Hf' & Ha & Hb & Hc & Hd). rewrite Hf in Hf'. injection Hf' as <-. unfold face_is. rewrite Ev.
  destruct R as [->|[->|[->| ->]]].
  - exists a, b, c, d. split; [exists f; auto 6|]. split; [reflexivity|auto].
  - exists b, c, d, a. split; [eexists; split; [exact Hg|cbn; auto 6]|]. split; [unfold area_vector; vring|auto].
  - exists c, d, a, b. split; [eexists; split; [exact Hg|cbn; auto 6]|]. split; [unfold area_vector; vring|auto].
  - exists d, a, b, c. split; [eexists; split; [exact Hg|cbn; auto 6]|]. split; [unfold area_vector; vring|auto].
Qed.
Lemma rotation_ids f g i : rotation_of f g -> (In i [fa g; fb g; fc g; fd g] <-> In i [fa f; fb f; fc f; fd f]).
Proof. intros [->|[->|[->| ->]]]; cbn; tauto. Qed.
Lemma heal_valid m : valid m -> valid (heal_triangles m).
Proof.
  intros Vm f i Hf Hi. cbn in Hf. apply in_map_iff in Hf. destruct Hf as (g & <- & Hg). cbn.
  apply (Vm g); [exact Hg|]. now apply (rotation_ids g (heal_face g)); [apply heal_rotation|].
Qed.

(** ** Flipping *)
Lemma flip_involutive m : flip_normals (flip_normals m) = m.
Proof.
  unfold flip_normals. cbn. rewrite map_map. destruct m as [vs fs]. cbn. f_equal.
  rewrite <- (map_id fs) at 2. apply map_ext. now intros [a b c d].
Qed.
Lemma flip_valid m : valid m -> valid (flip_normals m).
Proof.
  intros Vm f i Hf Hi. cbn in Hf. apply in_map_iff in Hf. destruct Hf as (g & <- & Hg). cbn.
  apply (Vm g); [exact Hg|]. cbn in Hi. cbn. tauto.
Qed.
Lemma flip_face_is m k a b c d : face_is m k a b c d -> face_is (flip_normals m) k d c b a.
Proof.
  intros (f & Hf & Ha & Hb & Hc & Hd). exists (flip_face f). split; [cbn; now apply map_nth_error|]. cbn. auto.
Qed.
Lemma area_vector_flip a b c d : area_vector d c b a = vopp (area_vector a b c d).
Proof. unfold area_vector. vring. Qed.

(** ** Triangulation *)
Lemma triangulate_valid m : valid m -> valid (triangulate m).
Proof.
  intros Vm f i Hf Hi. cbn in Hf. apply in_app_iff in Hf. destruct Hf as [Hf|Hf].
  - apply in_map_iff in Hf. destruct Hf as (g & <- & Hg). apply (Vm g i Hg). destruct (is_tri g); [exact Hi|].
    cbn in *. tauto.
  - apply in_map_iff in Hf. destruct Hf as (g & <- & Hg). apply filter_In in Hg. destruct Hg as [Hg _].
    apply (Vm g i Hg). cbn in *. tauto.
Qed.
Lemma triangulate_all_tri m f : In f (m_faces (triangulate m)) -> fa f = fd f.
Proof.
  cbn. rewrite in_app_iff, !in_map_iff. intros [(g & <- & Hg)|(g & <- & Hg)].
  - destruct (is_tri g) eqn:E; [now apply Nat.eqb_eq|reflexivity].
  - reflexivity.
Qed.
Lemma filter_position {A} (test : A -> bool) (l : list A) k x :
  nth_error l k = Some x -> test x = true ->
  nth_error (filter test l) (length (filter test (firstn k l))) = Some x.
Proof.
  revert k. induction l as [|a l IH]; intros [|k]; cbn; try discriminate.
  - intros H T; injection H as ->. now rewrite T.
  - intros H T. destruct (test a); cbn; now apply IH.
Qed.
Lemma triangulate_quad m k f a b c d : nth_error (m_faces m) k = Some f -> is_tri f = false -> face_is m k a b c d ->
  face_is (triangulate m) k a c d a
  /\ exists j, (nb_faces m <= j)%nat /\ face_is (triangulate m) j a b c a.
Proof.
  intros Hf T (f' & Hf' & Ha & Hb & Hc & Hd). rewrite Hf in Hf'. injection Hf' as <-. split.
  - exists (second_half f). cbn. split; [|auto]. rewrite nth_error_app1.
    + erewrite map_nth_error by exact Hf. now rewrite T.
    + rewrite map_length. apply nth_error_Some. congruence.
  - exists (nb_faces m + length (filter (fun f => negb (is_tri f)) (firstn k (m_faces m))))%nat. split; [lia|].
    exists (first_half f). cbn. split; [|auto]. rewrite nth_error_app2; rewrite map_length; unfold nb_faces; [|lia].
    rewrite Nat.add_comm, Nat.add_sub. apply map_nth_error. apply filter_position; [exact Hf|now rewrite T].
Qed.
Lemma triangulate_tri m k f a b c d : nth_error (m_faces m) k = Some f -> is_tri f = true -> face_is m k a b c d ->
  face_is (triangulate m) k a b c d.
Proof.
  intros Hf T (f' & Hf' & Ha & Hb & Hc & Hd). rewrite Hf in Hf'. injection Hf' as <-. exists f. cbn. split; [|auto].
  rewrite nth_error_app1.
  - erewrite map_nth_error by exact Hf. now rewrite T.
  - rewrite map_length. apply nth_error_Some. congruence.
Qed.
Lemma triangulate_count m : nb_faces (triangulate m) = (nb_faces m + length (quadrangles_ids m))%nat.
Proof.
  unfold nb_faces. cbn. rewrite app_length, !map_length. f_equal. unfold quadrangles_ids, positions. rewrite map_length.
  generalize 0%nat. induction (m_faces m) as [|f l IH]; intros n; [reflexivity|]. cbn. destruct (is_tri f); cbn; [apply IH|].
  f_equal. apply IH.
Qed.
Lemma area_split a b c d : vadd (area_vector a b c a) (area_vector a c d a) = area_vector a b c d.
Proof. unfold area_vector. vring. Qed.
(** The sum of the area vectors of all the faces. *)
Definition quad_area_vector (q : quad) : vec := area_vector (qa q) (qb q) (qc q) (qd q).
Lemma vadd_comm u v : vadd u v = vadd v u. Proof. vring. Qed.
Lemma vadd_assoc u v w : vadd u (vadd v w) = vadd (vadd u v) w. Proof. vring. Qed.
Lemma vsum_app l l' : vsum (l ++ l') = vadd (vsum l) (vsum l').
Proof.
  induction l as [|a l IH].
  - change (vsum ([] ++ l')) with (vsum l'). change (vsum []) with v0. generalize (vsum l'). vring.
  - change (vsum ((a :: l) ++ l')) with (vadd a (vsum (l ++ l'))). rewrite IH. apply vadd_assoc.
Qed.
Lemma vsum_cons a l : vsum (a :: l) = vadd a (vsum l). Proof. reflexivity. Qed.
Lemma triangulate_total m qs : all_points m = Ok qs -> exists qs', all_points (triangulate m) = Ok qs'
  /\ vsum (map quad_area_vector qs') = vsum (map quad_area_vector qs).
Proof.
  unfold all_points, triangulate. cbn [m_vertices m_faces]. set (vs := m_vertices m).
  assert (G : forall fs qs, mapM (face_points vs) fs = Ok qs ->
    exists l1 l2, mapM (face_points vs) (map (fun f => if is_tri f then f else second_half f) fs) = Ok l1
      /\ mapM (face_points vs) (map first_half (filter (fun f => negb (is_tri f)) fs)) = Ok l2
      /\ vadd (vsum (map quad_area_vector l1)) (vsum (map quad_area_vector l2)) = vsum (map quad_area_vector qs)).
  { induction fs as [|f fs IH]; cbn [mapM map filter].
    - intros l H. apply Ok_inj' in H. subst l. exists [], []. split; [reflexivity|]. split; [reflexivity|]. unfold vsum. cbn [map fold_right]. apply vec_ext; cbn; ring.
    - intros l. destruct (face_points vs f) as [q|] eqn:E; cbn [bind]; [|discriminate].
      destruct (mapM (face_points vs) fs) as [qs0|]; cbn [bind]; [|discriminate]. intros H. apply Ok_inj' in H. subst l.
      destruct (IH qs0 eq_refl) as (l1 & l2 & E1 & E2 & S0). rewrite E1. destruct (is_tri f) eqn:T; cbn [negb].
      + rewrite E. cbn [bind]. exists (q :: l1), l2. split; [reflexivity|]. split; [exact E2|]. cbn [map]. rewrite !vsum_cons, <- S0. now rewrite vadd_assoc.
      + destruct q as [a b c d]. apply face_points_ok in E. destruct E as (Ha & Hb & Hc & Hd). cbn in Ha, Hb, Hc, Hd.
        replace (face_points vs (second_half f)) with (Ok (Q a c d a)).
        2:{ symmetry. apply face_points_ok. cbn. auto. }
        cbn [bind map mapM]. rewrite E2. replace (face_points vs (first_half f)) with (Ok (Q a b c a)).
        2:{ symmetry. apply face_points_ok. cbn. auto. }
        cbn [bind]. exists (Q a c d a :: l1), (Q a b c a :: l2). split; [reflexivity|]. split; [reflexivity|].
        cbn [map]. rewrite !vsum_cons, <- S0.
        change (quad_area_vector (Q a b c d)) with (area_vector a b c d). change (quad_area_vector (Q a c d a)) with (area_vector a c d a).
        change (quad_area_vector (Q a b c a)) with (area_vector a b c a). rewrite <- (area_split a b c d).
        generalize (area_vector a b c a) (area_vector a c d a) (vsum (map quad_area_vector l1)) (vsum (map quad_area_vector l2)). vring. }
  intros H. destruct (G _ _ H) as (l1 & l2 & E1 & E2 & S0). exists (l1 ++ l2). split.
  - rewrite mapM_app, E1, E2. reflexivity.
  - rewrite map_app, vsum_app. exact S0.
Qed.
(** The computed properties of faces. *)
Lemma area_normal_tri q : tri_props q <> (0, v0, v0) -> qa q = qd q ->
  let '(a, n, c) := tri_props q in vscale a n = quad_area_vector q /\ unit_vector n.
Proof.
  intros N E. destruct q as [a b c d]. cbn in E. subst d. unfold tri_props in *. cbn [qa qb qc qd] in *.
  set (n := cross (vsub b a) (vsub c a)) in *.
  destruct (Rltb (Rabs (norm n)) degenerate_tol) eqn:T; [congruence|]. apply Rltb_false in T.
  pose proof degenerate_tol_pos. pose proof (norm_pos n). rewrite Rabs_pos_eq in T by assumption.
  assert (L : norm n <> 0) by lra. split.
  - transitivity (vscale (1 / 2) n).
    + set (l := norm n) in *. clearbody l. clearbody n. destruct n as [x y z]. unfold vscale; cbn. apply vec_ext; cbn; field; exact L.
    + unfold n, quad_area_vector, area_vector. cbn. vring.
  - unfold unit_vector. rewrite norm_scale, Rabs_pos_eq by (left; apply Rinv_0_lt_compat; lra). now field.
Qed.
Lemma norm_triangle u v : norm (vadd u v) <= norm u + norm v.
Proof.
  assert (CS : dot u v <= norm u * norm v).
  { apply Rle_trans with (Rabs (dot u v)); [apply Rle_abs|].
    rewrite <- (Rabs_pos_eq (norm u * norm v)) by (apply Rmult_le_pos; apply norm_pos).
    apply Rsqr_le_abs_0. unfold Rsqr.
    replace (norm u * norm v * (norm u * norm v)) with ((norm u * norm u) * (norm v * norm v)) by ring.
    rewrite !norm_sq. assert (P := dot_pos (cross u v)). rewrite lagrange in P. rewrite (dot_sym v u) in P. lra. }
  apply Rsqr_incr_0_var.
  - unfold Rsqr. rewrite norm_sq. replace (dot (vadd u v) (vadd u v)) with (dot u u + 2 * dot u v + dot v v) by vring.
    rewrite <- !norm_sq. nra.
  - pose proof (norm_pos u). pose proof (norm_pos v). lra.
Qed.
Lemma quad_area_pos q : Rltb (Rabs (norm (cross (vsub (qc q) (qa q)) (vsub (qd q) (qb q))))) degenerate_tol = false ->
  0 < norm (cross (vsub (qb q) (qa q)) (vsub (qc q) (qa q))) * (1 / 2) + norm (cross (vsub (qd q) (qa q)) (vsub (qc q) (qa q))) * (1 / 2).
Proof.
  intros T. apply Rltb_false in T. rewrite Rabs_pos_eq in T by apply norm_pos.
  set (u := cross (vsub (qb q) (qa q)) (vsub (qc q) (qa q))). set (v := cross (vsub (qd q) (qa q)) (vsub (qc q) (qa q))).
  assert (E : cross (vsub (qc q) (qa q)) (vsub (qd q) (qb q)) = vadd u (vscale (-1) v)).
  { unfold u, v. destruct q as [a b c d]. cbn. vring. }
  rewrite E in T. pose proof (norm_triangle u (vscale (-1) v)) as I. rewrite norm_scale, (Rabs_left (-1)) in I by lra.
  pose proof degenerate_tol_pos. lra.
Qed.
(** A face that is not degenerate, its normal is along its area vector. *)
Lemma normal_direction tri q : (tri = true -> qa q = qd q) -> p_area (props_of tri q) <> 0 ->
  unit_vector (p_normal (props_of tri q)) /\ exists k, 0 < k /\ quad_area_vector q = vscale k (p_normal (props_of tri q)).
Proof.
  intros H. rewrite <- (props_of_one_face tri q H). unfold props_of, quad_props.
  set (n := cross (vsub (qc q) (qa q)) (vsub (qd q) (qb q))).
  destruct (Rltb (Rabs (norm n)) degenerate_tol) eqn:T; cbn [p_area p_normal]; [now intros []|]. intros _.
  apply Rltb_false in T. rewrite Rabs_pos_eq in T by apply norm_pos. pose proof degenerate_tol_pos.
  assert (L : 0 < norm n) by lra. split.
  - unfold unit_vector. rewrite norm_scale, Rabs_pos_eq by (left; now apply Rinv_0_lt_compat). field. lra.
  - exists (norm n / 2). split; [lra|]. transitivity (vscale (1 / 2) n).
    + unfold n, quad_area_vector, area_vector. destruct q as [a b c d]. cbn. vring.
    + set (l := norm n) in *. clearbody l n. destruct n as [x y z]. unfold vscale; cbn. apply vec_ext; cbn; field; lra.
Qed.
(** Splitting a quadrangle: the areas add up, unless a half is degenerate. *)
Lemma area_of_halves a b c d :
  p_area (props_of false (Q a b c d)) <> 0 ->
  p_area (props_of true (Q a b c a)) <> 0 -> p_area (props_of true (Q a c d a)) <> 0 ->
  p_area (props_of false (Q a b c d)) = p_area (props_of true (Q a b c a)) + p_area (props_of true (Q a c d a)).
Proof.
  unfold props_of, quad_props, tri_props. cbn [qa qb qc qd].
  destruct (Rltb (Rabs (norm (cross (vsub c a) (vsub d b)))) degenerate_tol); cbn [p_area]; [now intros []|].
  destruct (Rltb (Rabs (norm (cross (vsub b a) (vsub c a)))) degenerate_tol); cbn [p_area]; [now intros _ []|].
  destruct (Rltb (Rabs (norm (cross (vsub c a) (vsub d a)))) degenerate_tol); cbn [p_area]; [now intros _ _ []|].
  intros _ _ _. replace (norm (cross (vsub d a) (vsub c a))) with (norm (cross (vsub c a) (vsub d a))); [lra|].
  apply norm_eq. vring.
Qed.
