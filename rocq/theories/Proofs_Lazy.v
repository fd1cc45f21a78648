(** Proofs about the lazily computed properties of meshes. *)
From Coq Require Import Reals List Bool ZArith Arith Lra Lia.
From Verif Require Import Model_Base Model_Geometry Model_Mesh Model_Quality Model_Tree Model_Clip Model_Quadrature
  Spec_Mesh Proofs_Geometry Proofs_Mesh Model_Lazy Spec_Lazy.
Import ListNotations.
Open Scope nat_scope.

(** ** The pure functions *)

Lemma positions_In {A} (test : A -> bool) (l : list A) i :
  In i (positions test l) <-> exists x, nth_error l i = Some x /\ test x = true.
Proof.
  unfold positions. rewrite in_map_iff. split.
  - intros ([j x] & E & H). cbn in E. subst j. apply filter_In in H. destruct H as [H T]. cbn in T.
    exists x. split; [|exact T].
    apply In_nth_error in H. destruct H as (k & H).
    assert (Hk : k < length l).
    { assert (k < length (combine (seq 0 (length l)) l)) by (apply nth_error_Some; congruence).
      rewrite combine_length, seq_length in *. lia. }
    assert (nth_error (combine (seq 0 (length l)) l) k = Some (k, nth k l x)).
    { rewrite (nth_error_nth' _ (k, x)) by (rewrite combine_length, seq_length; lia).
      rewrite combine_nth by (rewrite seq_length; reflexivity). rewrite seq_nth by lia. reflexivity. }
    rewrite H in H0. injection H0 as -> E. rewrite (nth_error_nth' l x) by lia. congruence.
  - intros (x & N & T). exists (i, x). split; [reflexivity|]. apply filter_In. split; [|exact T].
    apply nth_error_In with (n := i).
    assert (i < length l) by (apply nth_error_Some; congruence).
    rewrite (nth_error_nth' _ (i, x)) by (rewrite combine_length, seq_length; lia).
    rewrite combine_nth by (rewrite seq_length; reflexivity). rewrite seq_nth by lia.
    rewrite (nth_error_nth' l x) in N by lia. injection N as ->. reflexivity.
Qed.
Lemma memb_In x l : memb x l = true <-> In x l.
Proof.
  unfold memb. rewrite existsb_exists. split.
  - intros (y & H & E). apply Nat.eqb_eq in E. subst. exact H.
  - intros H. exists x. split; [exact H|apply Nat.eqb_refl].
Qed.
Lemma memb_positions {A} (test : A -> bool) (l : list A) i x : nth_error l i = Some x -> memb i (positions test l) = test x.
Proof.
  intros N. destruct (test x) eqn:T.
  - apply memb_In, positions_In. eauto.
  - destruct (memb i (positions test l)) eqn:M; [|reflexivity].
    apply memb_In, positions_In in M. destruct M as (y & N' & T'). congruence.
Qed.
Lemma positions_get {A} (test : A -> bool) (l : list A) : exists fs, mapM (get l) (positions test l) = Ok fs.
Proof.
  apply mapM_total. intros i H. apply positions_In in H. destruct H as (x & N & _). exists x. unfold get. rewrite N. reflexivity.
Qed.
Lemma nth_combine_seq {A} (l : list A) k j x : nth_error (combine (seq 0 (length l)) l) k = Some (j, x) -> j = k /\ nth_error l k = Some x.
Proof.
  intros H. assert (Hk : k < length l).
  { assert (k < length (combine (seq 0 (length l)) l)) by (apply nth_error_Some; congruence).
    rewrite combine_length, seq_length in *. lia. }
  rewrite (nth_error_nth' _ (j, x)) in H by (rewrite combine_length, seq_length; lia).
  rewrite combine_nth in H by (rewrite seq_length; reflexivity). rewrite seq_nth in H by lia.
  injection H as <- E. split; [reflexivity|]. rewrite (nth_error_nth' l x) by lia. congruence.
Qed.
Lemma map_snd_seq {A} (l : list A) : map snd (combine (seq 0 (length l)) l) = l.
Proof. generalize 0. induction l as [|a l IH]; intros n; [reflexivity|]. cbn. rewrite IH. reflexivity. Qed.

Lemma props_with_right_ids m : props_with_ids m (triangles_ids m, quadrangles_ids m) = faces_props m.
Proof.
  unfold props_with_ids. cbn [fst snd]. unfold triangles_ids, quadrangles_ids.
  destruct (positions_get is_tri (m_faces m)) as [fs1 E1]. rewrite E1. cbn [bind].
  destruct (positions_get (fun f => negb (is_tri f)) (m_faces m)) as [fs2 E2]. rewrite E2. cbn [bind].
  transitivity (mapM (fun jf : nat * face => face_props (m_vertices m) (snd jf)) (combine (seq 0 (nb_faces m)) (m_faces m))).
  - apply mapM_ext. intros [j f] H. apply In_nth_error in H. destruct H as (k & H).
    apply nth_combine_seq in H. destruct H as [-> N]. cbn [fst snd]. unfold face_props.
    destruct (face_points (m_vertices m) f) as [q|e]; [|reflexivity]. cbn [bind].
    rewrite (memb_positions _ _ _ _ N), (memb_positions _ _ _ _ N). unfold props_of.
    destruct (is_tri f); cbn [negb]; destruct (_ q) as [[a n] c]; reflexivity.
  - rewrite <- (mapM_map_in (face_props (m_vertices m)) (fun jf : nat * face => snd jf)).
    unfold nb_faces. rewrite map_snd_seq. reflexivity.
Qed.

Lemma list_nth_ext {A} (l l' : list A) : (forall k, nth_error l k = nth_error l' k) -> l = l'.
Proof.
  revert l'. induction l as [|a l IH]; intros [|b l'] H; [reflexivity|specialize (H 0); discriminate|specialize (H 0); discriminate|].
  assert (H0 := H 0). injection H0 as ->. f_equal. apply IH. intros k. exact (H (S k)).
Qed.
Lemma map_combine_fst {A B} (f : A -> B) (g : nat -> A -> B) (l : list A) :
  (forall k x, nth_error l k = Some x -> g k x = f x) ->
  map (fun jx => g (fst jx) (snd jx)) (combine (seq 0 (length l)) l) = map f l.
Proof.
  intros H. apply list_nth_ext. intros k. rewrite !nth_error_map.
  destruct (nth_error (combine (seq 0 (length l)) l) k) as [[j x]|] eqn:E; cbn [option_map fst snd].
  - apply nth_combine_seq in E. destruct E as [-> N]. rewrite N. cbn. rewrite (H _ _ N). reflexivity.
  - apply nth_error_None in E. rewrite combine_length, seq_length in E.
    rewrite (proj2 (nth_error_None l k)) by lia. reflexivity.
Qed.
Lemma positions_filter {A} (test : A -> bool) (l : list A) : mapM (get l) (positions test l) = Ok (filter test l).
Proof.
  assert (G : forall (l0 : list A) l n, (forall k x, nth_error l k = Some x -> nth_error l0 (n + k) = Some x) ->
    mapM (get l0) (map fst (filter (fun p => test (snd p)) (combine (seq n (length l)) l))) = Ok (filter test l)).
  { intros l0. clear. induction l as [|a l IH]; intros n H; [reflexivity|].
    cbn [length seq combine filter map snd fst].
    assert (T : forall k y, nth_error l k = Some y -> nth_error l0 (S n + k) = Some y).
    { intros k y N. rewrite <- (H (S k) y N). f_equal. lia. }
    assert (IH' := IH (S n) T). destruct (test a); [|exact IH'].
    cbn [map fst mapM]. unfold get at 1. specialize (H 0 a eq_refl). rewrite Nat.add_0_r in H. rewrite H. cbn [bind].
    rewrite IH'. reflexivity. }
  apply G. intros k x N. exact N.
Qed.
Lemma triangulate_right_ids m : triangulate_ids (quadrangles_ids m) m = Ok (triangulate m).
Proof.
  unfold triangulate_ids, quadrangles_ids. rewrite positions_filter. cbn [bind]. unfold triangulate. cbv zeta.
  do 3 f_equal. unfold nb_faces.
  rewrite (map_combine_fst (fun f => if is_tri f then f else second_half f)
    (fun j f => if memb j (positions (fun f0 => negb (is_tri f0)) (m_faces m)) then second_half f else f)); [reflexivity|].
  intros k f N. rewrite (memb_positions _ _ _ _ N). destruct (is_tri f); reflexivity.
Qed.

Lemma remove_degenerated_right rtol m ps : Rltb 0 rtol = true -> faces_props m = Ok ps ->
  remove_degenerated rtol m = Ok (remove_degenerated_areas rtol ps m).
Proof. intros T H. unfold remove_degenerated. rewrite T, H. reflexivity. Qed.

(** Quadrangles with the first corner repeated have the properties of triangles. *)
Lemma tri_as_quad q : qa q = qd q -> quad_props q = tri_props q.
Proof.
  destruct q as [a b c d]. cbn [qa qd]. intros ->. unfold quad_props, tri_props. cbn [qa qb qc qd].
  assert (E : cross (vsub c d) (vsub d b) = cross (vsub b d) (vsub c d)) by vring. rewrite E.
  destruct (Rltb _ _) eqn:T; [reflexivity|].
  set (n := cross (vsub b d) (vsub c d)) in *.
  assert (Z : norm (cross (vsub d d) (vsub c d)) = 0%R).
  { replace (cross (vsub d d) (vsub c d)) with v0 by vring. apply norm_zero. reflexivity. }
  rewrite Z. apply Rltb_false in T. assert (P := norm_pos n).
  assert (0 < norm n)%R by (rewrite Rabs_right in T by lra; unfold degenerate_tol in T; lra).
  f_equal; [f_equal; lra|]. apply vec_ext; cbn; field; lra.
Qed.
Lemma props_tri_as_quad tri q : (tri = true -> qa q = qd q) -> props_of false q = props_of tri q.
Proof. intros H. unfold props_of. destruct tri; [|reflexivity]. rewrite tri_as_quad by auto. reflexivity. Qed.

Lemma props_valid m ps : faces_props m = Ok ps -> valid m.
Proof.
  intros H. apply points_valid. intros f Hf. apply In_nth_error in Hf. destruct Hf as (k & N).
  destruct (proj2 (proj1 (mapM_ok _ _ _) H) k f N) as (p & E & _). unfold face_props in E.
  destruct (face_points (m_vertices m) f); [eauto|discriminate].
Qed.
Lemma mapM_geti_range {A} (l : list A) ids r : mapM (geti l) ids = Ok r -> forall z, In z ids -> exists i, index_of (length l) z i.
Proof.
  intros H z Hz. apply In_nth_error in Hz. destruct Hz as (k & N).
  destruct (proj2 (proj1 (mapM_ok _ _ _) H) k z N) as (x & E & _). unfold geti in E.
  destruct (py_index (length l) z) as [i|] eqn:P; [|discriminate]. exists i. apply py_index_spec. exact P.
Qed.
Lemma extract_props m ids m' used ps : faces_props m = Ok ps -> extract_faces m ids = Ok (m', used) ->
  exists ps', mapM (geti ps) ids = Ok ps' /\ faces_props m' = Ok ps'.
Proof.
  intros H X. assert (Va := props_valid _ _ H).
  assert (R : forall z, In z ids -> exists i, index_of (nb_faces m) z i).
  { unfold extract_faces in X. destruct (mapM (geti (m_faces m)) ids) as [fs|] eqn:E; [|discriminate].
    exact (mapM_geti_range _ _ _ E). }
  destruct (extract_faces_spec m ids Va R) as (m1 & u1 & X1 & V1 & _ & L1 & _ & P1 & _).
  rewrite X in X1. apply Ok_inj' in X1. injection X1 as <- <-.
  destruct (valid_faces_props m' V1) as [ps' H'].
  assert (LP : length ps = nb_faces m) by exact (mapM_length _ _ _ H).
  exists ps'. split; [|exact H'].
  apply mapM_ok. split; [rewrite <- L1; exact (mapM_length _ _ _ H')|].
  intros k z N. destruct (R z (nth_error_In _ _ N)) as (i & I).
  destruct (nth_error ps i) as [x|] eqn:Ni.
  - exists x. split; [apply (geti_ok ps z i x); [rewrite LP; exact I|exact Ni]|]. eapply P1; eauto.
  - apply nth_error_None in Ni. destruct I. lia.
Qed.
Lemma extract_one_props m i m' ps : faces_props m = Ok ps -> extract_one_face m i = Ok m' ->
  exists x, geti ps i = Ok x /\ faces_props m' = Ok [x].
Proof.
  intros H X. unfold extract_one_face in X. destruct (geti (m_faces m) i) as [f|] eqn:G; [|discriminate]. cbn [bind] in X.
  destruct (face_points (m_vertices m) f) as [q|] eqn:P; [|discriminate]. cbn [bind] in X.
  unfold geti in G. destruct (py_index (length (m_faces m)) i) as [k|] eqn:I; [|discriminate].
  unfold get in G. destruct (nth_error (m_faces m) k) as [f'|] eqn:N; [|discriminate]. apply Ok_inj' in G. subst f'.
  destruct (proj2 (proj1 (mapM_ok _ _ _) H) k f N) as (x & E & Nx).
  assert (LP : length ps = length (m_faces m)) by exact (mapM_length _ _ _ H).
  exists x. split; [unfold geti; rewrite LP, I; unfold get; rewrite Nx; reflexivity|].
  unfold face_props in E. rewrite P in E. cbn [bind] in E. apply Ok_inj' in E. subst x.
  destruct q as [a b c d]. cbn [quad_points] in X.
  cbn in X. apply Ok_inj' in X. subst m'. transitivity (Ok [props_of false (Q a b c d)]); [reflexivity|].
  rewrite (props_tri_as_quad (is_tri f)); [reflexivity|]. intros T. unfold is_tri in T. apply Nat.eqb_eq in T.
  apply face_points_ok in P. rewrite T in P. cbn [qa qb qc qd] in *. destruct P as (Pa & _ & _ & Pd). congruence.
Qed.

(** ** Deterministic actions *)

Section Sim.
  Variable argsort : list R -> list nat.
  Variable py_hash : list quad -> Z.

  (** Every entry of the dictionary is what would be computed now. *)
  Definition fresh (m : mesh) (q : qmethod) (c : cache) : Prop :=
    (forall i, c_ids c = Some i -> i = (triangles_ids m, quadrangles_ids m))
    /\ (forall r, c_props c = Some r -> exists l, r = Rows l /\ faces_props m = Ok l)
    /\ (forall x, c_nodes c = Some x -> x = nodes_center m)
    /\ (forall d, c_diameter c = Some d -> nodes_diameter m = Ok d)
    /\ (forall x, c_quadrature c = Some x -> quadrature_of m q = Ok x)
    /\ (forall h, c_hash c = Some h -> mesh_hash py_hash m = Ok h).
  Lemma fresh_empty m q : fresh m q empty_cache.
  Proof. repeat split; discriminate. Qed.

  (** The outcome does not depend on what is in the dictionary (except for the
      presence of the quadrature), and the dictionary is right afterwards. *)
  Definition det {A} (x : act A) : Prop := forall m q d, exists r m' q' d',
    forall c, fresh m q c -> c_quadrature c = d ->
    exists c', x (Obj m c q) = (r, Obj m' c' q') /\ fresh m' q' c' /\ c_quadrature c' = d'.
  (** The same, but the dictionary may be wrong unless an exception is raised. *)
  Definition spoils {A} (x : act A) : Prop := forall m q d, exists r m' q' d',
    forall c, fresh m q c -> c_quadrature c = d ->
    exists c', x (Obj m c q) = (r, Obj m' c' q')
      /\ match r with Ok _ => True | Err _ => fresh m' q' c' /\ c_quadrature c' = d' end.

  Lemma det_spoils {A} (x : act A) : det x -> spoils x.
  Proof.
    intros H m q d. destruct (H m q d) as (r & m' & q' & d' & K). exists r, m', q', d'. intros c F D.
    destruct (K c F D) as (c' & E & F' & D'). exists c'. split; [exact E|]. destruct r; auto.
  Qed.
  Lemma det_ret {A} (a : A) : det (ret a).
  Proof. intros m q d. exists (Ok a), m, q, d. intros c F D. exists c. auto. Qed.
  Lemma det_raise {A} e : det (@raise A e).
  Proof. intros m q d. exists (Err e), m, q, d. intros c F D. exists c. auto. Qed.
  Lemma det_lift {A} (r : result A) : det (lift r).
  Proof. intros m q d. exists r, m, q, d. intros c F D. exists c. auto. Qed.
  Lemma det_the_mesh : det the_mesh.
  Proof. intros m q d. exists (Ok m), m, q, d. intros c F D. exists c. auto. Qed.
  Lemma det_andthen {A B} (x : act A) (f : A -> act B) : det x -> (forall a, det (f a)) -> det (andthen x f).
  Proof.
    intros Hx Hf m q d. destruct (Hx m q d) as ([a|e] & m' & q' & d' & K).
    - destruct (Hf a m' q' d') as (r & m2 & q2 & d2 & K2). exists r, m2, q2, d2. intros c F D.
      destruct (K c F D) as (c' & E & F' & D'). destruct (K2 c' F' D') as (c2 & E2 & F2 & D2).
      exists c2. unfold andthen. rewrite E. auto.
    - exists (Err e), m', q', d'. intros c F D. destruct (K c F D) as (c' & E & F' & D').
      exists c'. unfold andthen. rewrite E. auto.
  Qed.
  Lemma spoils_andthen {A B} (x : act A) (f : A -> act B) : det x -> (forall a, spoils (f a)) -> spoils (andthen x f).
  Proof.
    intros Hx Hf m q d. destruct (Hx m q d) as ([a|e] & m' & q' & d' & K).
    - destruct (Hf a m' q' d') as (r & m2 & q2 & d2 & K2). exists r, m2, q2, d2. intros c F D.
      destruct (K c F D) as (c' & E & F' & D'). destruct (K2 c' F' D') as (c2 & E2 & F2).
      exists c2. unfold andthen. rewrite E. auto.
    - exists (Err e), m', q', d'. intros c F D. destruct (K c F D) as (c' & E & F' & D').
      exists c'. unfold andthen. rewrite E. auto.
  Qed.
  Lemma spoils_put m0 : spoils (put_mesh m0).
  Proof. intros m q d. exists (Ok tt), m0, q, d. intros c F D. exists c. auto. Qed.
  (** Emptying the dictionary repairs it. *)
  Lemma det_inplace {A} (x : act A) : spoils x -> det (inplace x).
  Proof.
    intros H m q d. destruct (H m q d) as ([a|e] & m' & q' & d' & K).
    - exists (Ok tt), m', q', None. intros c F D. destruct (K c F D) as (c' & E & _).
      exists empty_cache. unfold inplace, andthen. rewrite E. split; [reflexivity|]. split; [apply fresh_empty|reflexivity].
    - exists (Err e), m', q', d'. intros c F D. destruct (K c F D) as (c' & E & F' & D').
      exists c'. unfold inplace, andthen. rewrite E. auto.
  Qed.
  Lemma det_set_vertices vs : det (set_vertices vs).
  Proof.
    intros m q d. exists (Ok tt), (Mesh vs (m_faces m)), q, None. intros c F D. exists empty_cache.
    split; [reflexivity|]. split; [apply fresh_empty|reflexivity].
  Qed.
  Lemma det_set_faces fs : det (set_faces fs).
  Proof.
    intros m q d. destruct (build_mesh (m_vertices m) fs) as [m'|e] eqn:E.
    - exists (Ok tt), m', q, None. intros c F D. exists empty_cache.
      unfold set_faces, andthen, the_mesh, lift. cbn [o_mesh]. rewrite E. split; [reflexivity|]. split; [apply fresh_empty|reflexivity].
    - exists (Err e), m, q, d. intros c F D. exists c. unfold set_faces, andthen, the_mesh, lift. cbn [o_mesh]. rewrite E. auto.
  Qed.

  (** Reading a property. *)
  Definition reads {A} (x : act A) (v : mesh -> result A) : Prop := forall m q c, fresh m q c ->
    exists c', x (Obj m c q) = (v m, Obj m c' q) /\ fresh m q c' /\ c_quadrature c' = c_quadrature c.
  Lemma reads_det {A} (x : act A) v : reads x v -> det x.
  Proof.
    intros H m q d. exists (v m), m, q, d. intros c F D. destruct (H m q c F) as (c' & E & F' & D'). exists c'. rewrite D'. auto.
  Qed.
  Lemma reads_ids : reads read_ids (fun m => Ok (triangles_ids m, quadrangles_ids m)).
  Proof.
    intros m q c F. unfold read_ids. cbn [o_cache o_mesh o_method]. destruct (c_ids c) as [i|] eqn:E.
    - exists c. rewrite (proj1 F i E). auto.
    - eexists. split; [reflexivity|]. split; [|reflexivity].
      destruct F as (F1 & F2 & F3 & F4 & F5 & F6). repeat split; cbn; try assumption. intros i H. injection H as <-. reflexivity.
  Qed.
  Lemma reads_props : reads read_props (fun m => bind (faces_props m) (fun l => Ok (Rows l))).
  Proof.
    intros m q c F. unfold read_props. cbn [o_cache]. destruct (c_props c) as [r|] eqn:E.
    - exists c. destruct (proj1 (proj2 F) r E) as (l & -> & H). rewrite H. auto.
    - destruct (reads_ids m q c F) as (c' & R & F' & D'). unfold andthen. rewrite R. unfold the_mesh, lift. cbn [o_mesh].
      rewrite props_with_right_ids. destruct (faces_props m) as [l|e] eqn:P.
      + cbn [bind]. unfold store_props, with_cache, ret. cbn [o_mesh o_cache o_method]. eexists. split; [reflexivity|]. split; [|cbn; exact D'].
        destruct F' as (F1 & F2 & F3 & F4 & F5 & F6). repeat split; cbn; try assumption.
        intros r H. injection H as <-. exists l. auto.
      + cbn [bind]. exists c'. auto.
  Qed.
  Lemma reads_nodes : reads read_nodes (fun m => Ok (nodes_center m)).
  Proof.
    intros m q c F. unfold read_nodes. cbn [o_cache o_mesh o_method]. destruct (c_nodes c) as [x|] eqn:E.
    - exists c. destruct F as (F1 & F2 & F3 & F4 & F5 & F6). rewrite (F3 x E). split; [reflexivity|]. split; [|reflexivity].
      repeat split; assumption.
    - eexists. split; [reflexivity|]. split; [|reflexivity].
      destruct F as (F1 & F2 & F3 & F4 & F5 & F6). repeat split; cbn; try assumption. intros i H. injection H as <-. reflexivity.
  Qed.
  Lemma reads_diameter : reads read_diameter nodes_diameter.
  Proof.
    intros m q c F. unfold read_diameter. cbn [o_cache]. destruct (c_diameter c) as [x|] eqn:E.
    - exists c. assert (G := F). destruct F as (F1 & F2 & F3 & F4 & F5 & F6). rewrite (F4 x E). auto.
    - destruct (reads_nodes m q c F) as (c' & R & F' & D'). unfold andthen. rewrite R. unfold the_mesh, lift. cbn [o_mesh].
      change (diameter_around m (nodes_center m)) with (nodes_diameter m). destruct (nodes_diameter m) as [d|e] eqn:P.
      + unfold with_cache, ret. cbn [o_mesh o_cache o_method]. eexists. split; [reflexivity|]. split; [|cbn; exact D'].
        destruct F' as (F1 & F2 & F3 & F4 & F5 & F6). repeat split; cbn; try assumption.
        intros r H. injection H as <-. exact P.
      + exists c'. auto.
  Qed.
  Lemma reads_hash : reads (read_hash py_hash) (mesh_hash py_hash).
  Proof.
    intros m q c F. unfold read_hash. cbn [o_cache]. destruct (c_hash c) as [x|] eqn:E.
    - exists c. assert (G := F). destruct F as (F1 & F2 & F3 & F4 & F5 & F6). rewrite (F6 x E). auto.
    - unfold andthen, lift. cbn [o_mesh]. destruct (mesh_hash py_hash m) as [h|e] eqn:P.
      + unfold with_cache, ret. cbn [o_mesh o_cache o_method]. eexists. split; [reflexivity|]. split; [|reflexivity].
        destruct F as (F1 & F2 & F3 & F4 & F5 & F6). repeat split; cbn; try assumption.
        intros r H. injection H as <-. exact P.
      + exists c. auto.
  Qed.

  (** ** The transformations *)

  Lemma det_translate v : det (do_translate v).
  Proof. apply det_inplace, det_spoils, det_andthen; [apply det_the_mesh|intros; apply det_set_vertices]. Qed.
  Lemma det_rotate a t : det (do_rotate a t).
  Proof. apply det_inplace, spoils_andthen; [apply det_the_mesh|intros; apply spoils_put]. Qed.
  Lemma det_flip : det do_flip.
  Proof. apply det_inplace, spoils_andthen; [apply det_the_mesh|intros; apply spoils_put]. Qed.
  Lemma det_mirror p : det (do_mirror p).
  Proof.
    apply det_inplace, det_spoils, det_andthen; [apply det_the_mesh|intros m]. apply det_andthen; [apply det_set_vertices|intros; apply det_flip].
  Qed.
  Lemma det_triangulate : det do_triangulate.
  Proof.
    apply det_inplace, spoils_andthen; [exact (reads_det _ _ reads_ids)|intros ids].
    apply spoils_andthen; [apply det_the_mesh|intros m]. apply spoils_andthen; [apply det_lift|intros; apply spoils_put].
  Qed.
  Lemma det_heal_triangles : det do_heal_triangles.
  Proof. apply det_inplace, spoils_andthen; [apply det_the_mesh|intros; apply spoils_put]. Qed.
  Lemma det_remove_unused : det do_remove_unused.
  Proof.
    apply det_inplace, spoils_andthen; [apply det_the_mesh|intros m]. apply spoils_andthen; [apply det_lift|intros; apply spoils_put].
  Qed.
  Lemma det_remove_degenerated rtol : det (do_remove_degenerated rtol).
  Proof.
    apply det_inplace. destruct (negb (Rltb 0 rtol)); [apply det_spoils, det_raise|].
    apply spoils_andthen; [exact (reads_det _ _ reads_props)|intros [l|l]; [|apply det_spoils, det_raise]].
    apply spoils_andthen; [apply det_the_mesh|intros m]. destruct (Nat.eqb _ _); [apply spoils_put|apply det_spoils, det_raise].
  Qed.
  Lemma det_merge_duplicates atol : det (do_merge_duplicates argsort atol).
  Proof.
    apply det_andthen; [apply det_the_mesh|intros m]. apply det_andthen; [apply det_lift|intros r].
    apply det_andthen; [apply det_set_vertices|intros _]. apply det_andthen; [apply det_lift|intros; apply det_set_faces].
  Qed.
  Lemma det_heal_mesh : det (do_heal_mesh argsort).
  Proof.
    apply det_inplace, det_spoils. apply det_andthen; [apply det_remove_unused|intros _].
    apply det_andthen; [apply det_remove_degenerated|intros _]. apply det_andthen; [apply det_merge_duplicates|intros _; apply det_heal_triangles].
  Qed.
  Lemma det_clip p : det (do_clip argsort p).
  Proof.
    apply det_inplace, det_spoils. apply det_andthen; [apply det_the_mesh|intros m]. apply det_andthen; [apply det_lift|intros r].
    apply det_andthen; [apply det_set_vertices|intros; apply det_set_faces].
  Qed.
  Lemma det_normals_down : det do_normals_down.
  Proof.
    apply det_inplace, det_spoils. apply det_andthen; [exact (reads_det _ _ reads_props)|intros [l|l]; [|apply det_raise]].
    apply det_andthen; [apply det_the_mesh|intros m]. destruct (forallb _ l); [apply det_set_faces|apply det_ret].
  Qed.

  Lemma heal_triangles_obj m c q : do_heal_triangles (Obj m c q) = (Ok tt, Obj (heal_triangles m) empty_cache q).
  Proof. reflexivity. Qed.
  (** The quadrature is computed on the mesh as it is afterwards. *)
  Lemma compute_quadrature_spec method m q c : exists c' q',
    compute_quadrature method (Obj m c q) = (quadrature_of (heal_triangles m) method, Obj (heal_triangles m) c' q')
    /\ fresh (heal_triangles m) q' c'
    /\ match quadrature_of (heal_triangles m) method with
       | Ok x => q' = method /\ c_quadrature c' = Some x
       | Err _ => q' = q /\ c_quadrature c' = None
       end.
  Proof.
    unfold compute_quadrature, andthen. rewrite heal_triangles_obj. unfold the_mesh, lift. cbn [o_mesh].
    unfold quadrature_of. set (h := heal_triangles m).
    assert (FE : forall q, fresh h q empty_cache) by (intros; apply fresh_empty).
    destruct (all_points h) as [qs|e] eqn:P; cbn [bind]; [|exists empty_cache, q; split; [reflexivity|split; [apply FE|auto]]].
    assert (Other : forall x : result (list (list (vec * R))), method <> NoMethod -> x = compute_quadrature_on_faces qs method ->
      exists c' q',
        match (let (r, o') := (x, Obj h empty_cache q) in match r with Ok a => (Ok a, o') | Err e => (Err e, o') end) with
        | (Ok a, o') => (Ok a, Obj (o_mesh o') (Cache (c_ids (o_cache o')) (c_props (o_cache o')) (c_nodes (o_cache o')) (c_diameter (o_cache o')) (Some a) (c_hash (o_cache o'))) method)
        | (Err e, o') => (Err e, o')
        end = (x, Obj h c' q') /\ fresh h q' c'
        /\ match x with Ok x0 => q' = method /\ c_quadrature c' = Some x0 | Err _ => q' = q /\ c_quadrature c' = None end).
    { intros [x|e] N E; cbn [o_mesh o_cache]; [|exists empty_cache, q; split; [reflexivity|split; [apply FE|auto]]].
      eexists _, method. split; [reflexivity|]. split; [|auto]. repeat split; cbn; try discriminate.
      intros x0 H. injection H as <-. unfold quadrature_of. rewrite P. cbn [bind]. destruct method; congruence. }
    destruct method as [|name|s|].
    - destruct (reads_props h q empty_cache (FE q)) as (c' & R & F' & D'). rewrite R.
      destruct (faces_props h) as [l|e] eqn:FP; cbn [bind].
      + unfold ret, with_cache, set_method. cbn [o_mesh o_cache o_method]. eexists _, NoMethod. split; [reflexivity|]. split; [|auto].
        destruct F' as (F1 & F2 & F3 & F4 & F5 & F6). repeat split; cbn; try assumption.
        intros x H. injection H as <-. unfold quadrature_of. rewrite P. cbn [bind]. rewrite FP. reflexivity.
      + exists c', q. split; [reflexivity|]. split; [exact F'|]. split; [reflexivity|]. exact D'.
    - destruct (Other (compute_quadrature_on_faces qs (Named name))) as (c' & q' & E & F & D); [discriminate|reflexivity|].
      exists c', q'. split; [|auto]. rewrite <- E. destruct (compute_quadrature_on_faces qs (Named name)); reflexivity.
    - destruct (Other (compute_quadrature_on_faces qs (Quadpy s))) as (c' & q' & E & F & D); [discriminate|reflexivity|].
      exists c', q'. split; [|auto]. rewrite <- E. destruct (compute_quadrature_on_faces qs (Quadpy s)); reflexivity.
    - destruct (Other (compute_quadrature_on_faces qs OtherMethod)) as (c' & q' & E & F & D); [discriminate|reflexivity|].
      exists c', q'. split; [|auto]. rewrite <- E. destruct (compute_quadrature_on_faces qs OtherMethod); reflexivity.
  Qed.
  Lemma det_compute_quadrature method : det (compute_quadrature method).
  Proof.
    intros m q d. destruct (compute_quadrature_spec method m q empty_cache) as (c0 & q0 & _ & _ & M).
    exists (quadrature_of (heal_triangles m) method), (heal_triangles m), q0, (c_quadrature c0). intros c F D.
    destruct (compute_quadrature_spec method m q c) as (c' & q' & E & F' & M').
    exists c'. assert (q' = q0 /\ c_quadrature c' = c_quadrature c0) as [-> ->].
    { destruct (quadrature_of (heal_triangles m) method); destruct M, M'; split; congruence. }
    auto.
  Qed.
  Lemma det_read_quadrature : det read_quadrature.
  Proof.
    intros m q [x|].
    - exists (Ok x), m, q, (Some x). intros c F D. exists c. unfold read_quadrature. cbn [o_cache]. rewrite D. auto.
    - destruct (det_compute_quadrature q m q None) as (r & m' & q' & d' & K). exists r, m', q', d'. intros c F D.
      unfold read_quadrature. cbn [o_cache o_method]. rewrite D. apply K; assumption.
  Qed.
  Lemma det_transform t : det (transform argsort t).
  Proof.
    destruct t; cbn [transform].
    - apply det_translate.
    - apply det_rotate.
    - apply det_flip.
    - apply det_mirror.
    - apply det_clip.
    - apply det_triangulate.
    - apply det_heal_triangles.
    - apply det_remove_unused.
    - apply det_remove_degenerated.
    - apply det_merge_duplicates.
    - apply det_heal_mesh.
    - apply det_normals_down.
    - apply det_set_vertices.
    - apply det_set_faces.
    - apply det_andthen; [apply det_compute_quadrature|intros; apply det_ret].
    - apply det_andthen; [apply det_read_quadrature|intros; apply det_ret].
  Qed.
End Sim.
