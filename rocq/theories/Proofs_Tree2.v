(** Proofs about collections: merging, centers, regular arrays, joined symmetric meshes. *)
From Coq Require Import Reals List Bool ZArith Arith Lra Lia.
From Verif Require Import Model_Base Model_Geometry Model_Mesh Spec_Mesh Model_Quality Spec_Quality Model_Tree Spec_Tree
  Proofs_Geometry Proofs_Mesh Proofs_Mesh2 Proofs_Mesh3 Proofs_Quality Proofs_Tree Proofs_Symmetry.
Import ListNotations.
Open Scope R_scope.

Lemma merged_spec argsort t k l : sorts argsort -> t = Node k l -> filled t -> all_valid t -> (0 < t_nb_vertices t)%nat ->
  exists m', t_merged argsort t = Ok m' /\ valid m' /\ nb_faces m' = t_nb_faces t
    /\ forall i a b c d, face_is (whole (leaves t)) i a b c d ->
       exists a' b' c' d', face_is m' i a' b' c' d' /\ near_polygon (/ 100000000) (a, b, c, d) (a', b', c', d').
Proof.
  intros Hs -> Hf Hv Hn. cbn [t_merged]. rewrite (t_vertices_whole _ Hf), (t_faces_whole _ Hf). cbn [bind].
  pose proof (whole_gathers (leaves (Node k l)) Hv) as (W1 & W2 & W3 & W4).
  destruct (build_mesh (m_vertices (whole (leaves (Node k l)))) (m_faces (whole (leaves (Node k l))))) as [m|e] eqn:Em.
  2:{ exfalso. assert (E : build_mesh (m_vertices (whole (leaves (Node k l)))) (m_faces (whole (leaves (Node k l)))) = Ok (whole (leaves (Node k l)))).
      { apply build_mesh_ok. split; [now destruct (whole _)|exact W1]. } congruence. }
  apply build_mesh_ok in Em. destruct Em as [-> Vm]. cbn [bind].
  destruct (merge_duplicates_ok argsort Hs (/ 100000000) (Mesh (m_vertices (whole (leaves (Node k l)))) (m_faces (whole (leaves (Node k l))))))
    as (m' & ids & E & V' & N & [M1 M2 M3 M4] & Fs); [lra|exact Vm| |].
  { cbn [m_vertices]. intros E. rewrite nb_vertices_leaves, <- concat_vertices_length in Hn. cbn [whole m_vertices] in E. rewrite E in Hn. cbn in Hn. lia. }
  rewrite E. cbn [bind fst]. exists (heal_triangles m'). split; [reflexivity|]. split; [now apply heal_valid|]. split.
  { unfold nb_faces in *. cbn [heal_triangles m_faces]. rewrite map_length, N. cbn [m_faces].
    rewrite nb_faces_leaves. unfold whole. cbn [m_faces]. apply faces_from_length. }
  intros i a b c d Hface. destruct Hface as (f & Ef & A & B & C & D).
  destruct (Fs i f Ef) as (ka & kb & kc & kd & Ia & Ib & Ic & Id & Ef').
  destruct (M3 _ _ A) as (k1 & a' & A1 & A2 & A3). destruct (M3 _ _ B) as (k2 & b' & B1 & B2 & B3).
  destruct (M3 _ _ C) as (k3 & c' & C1 & C2 & C3). destruct (M3 _ _ D) as (k4 & d' & D1 & D2 & D3).
  assert (Hm' : face_is m' i a' b' c' d').
  { exists (F ka kb kc kd). cbn. split; [exact Ef'|]. split; [congruence|]. split; [congruence|]. split; congruence. }
  destruct (rotation_area m' (heal_triangles m') i _ (heal_face (F ka kb kc kd)) a' b' c' d' (heal_rotation _) eq_refl Ef')
    as (a2 & b2 & c2 & d2 & H2 & _ & R2); [cbn [heal_triangles m_faces]; now apply map_nth_error|exact Hm'|].
  exists a2, b2, c2, d2. split; [exact H2|]. exists a, b, c, d, a', b', c', d'. split; [reflexivity|].
  split; [exact R2|]. split; [exact A3|]. split; [exact B3|]. split; [exact C3|exact D3].
Qed.
Lemma t_extract_faces_spec argsort t k l ids : sorts argsort -> t = Node k l -> filled t -> all_valid t -> (0 < t_nb_vertices t)%nat ->
  (forall z, In z ids -> exists i, index_of (t_nb_faces t) z i) ->
  exists m' used, t_extract_faces argsort t ids = Ok (m', used) /\ valid m' /\ all_used m' /\ nb_faces m' = length ids
    /\ forall j z i a b c d, nth_error ids j = Some z -> index_of (t_nb_faces t) z i -> face_is (whole (leaves t)) i a b c d ->
       exists a' b' c' d', face_is m' j a' b' c' d' /\ near_polygon (/ 100000000) (a, b, c, d) (a', b', c', d').
Proof.
  intros Hs Et Hf Hv Hn Hi. destruct (merged_spec argsort t k l Hs Et Hf Hv Hn) as (m & E & V & N & Fm).
  unfold t_extract_faces. rewrite E. cbn [bind]. rewrite <- N in *.
  destruct (extract_faces_spec m ids V Hi) as (m' & used & E' & V' & U' & N' & F' & _).
  exists m', used. split; [exact E'|]. split; [exact V'|]. split; [exact U'|]. split; [exact N'|].
  intros j z i a b c d Hj Hz Hface. destruct (Fm i a b c d Hface) as (a' & b' & c' & d' & H1 & H2).
  exists a', b', c', d'. split; [now apply (F' j z i)|exact H2].
Qed.

(** ** Centers *)
Lemma vsum_app l l' : vsum (l ++ l') = vadd (vsum l) (vsum l').
Proof.
  induction l as [|x l IH]; cbn [app vsum fold_right].
  - change (fold_right vadd v0 l') with (vsum l'). generalize (vsum l'). clear. intros []. apply vec_ext; cbn; ring.
  - change (fold_right vadd v0 (l ++ l')) with (vsum (l ++ l')). rewrite IH. change (fold_right vadd v0 l) with (vsum l).
    generalize (vsum l) (vsum l'). clear. intros u1 u2. vring.
Qed.
Lemma vscale_mean n s : (0 < n)%nat -> vscale (INR n) (vscale (/ INR n) s) = s.
Proof.
  intros H. assert (INR n <> 0) by (apply not_0_INR; lia). destruct s. unfold vscale. cbn. apply vec_ext; cbn; field; auto.
Qed.
Lemma t_center_spec t : filled t -> (forall m, In m (leaves t) -> m_vertices m <> []) ->
  t_center t = Some (vscale (/ INR (total_vertices (leaves t))) (vsum (concat (map m_vertices (leaves t))))) /\ (0 < total_vertices (leaves t))%nat.
Proof.
  induction t as [m|k l IH] using tree_induction; intros Hf Hm.
  - cbn [t_center leaves map concat]. specialize (Hm m (or_introl eq_refl)). rewrite app_nil_r. unfold mean_point, total_vertices. cbn [map list_sum fold_right].
    rewrite Nat.add_0_r. unfold nb_vertices. destruct (m_vertices m) as [|v vs]; [congruence|]. split; [reflexivity|cbn; lia].
  - apply filled_inv in Hf. destruct Hf as [Hl Hf].
    assert (Hx : forall x, In x l -> t_center x = Some (vscale (/ INR (total_vertices (leaves x))) (vsum (concat (map m_vertices (leaves x)))))
       /\ (0 < total_vertices (leaves x))%nat).
    { intros x Hx. apply IH; [exact Hx|now apply Hf|]. intros m Hmm. apply Hm. cbn [leaves]. apply in_concat. exists (leaves x). split; [now apply in_map|exact Hmm]. }
    assert (Hpos : (0 < total_vertices (leaves (Node k l)))%nat).
    { destruct l as [|x l]; [congruence|]. cbn [leaves map concat]. rewrite total_vertices_app. pose proof (proj2 (Hx x (or_introl eq_refl))). lia. }
    assert (Hs : all_some (map (fun x => option_map (vscale (INR (t_nb_vertices x))) (t_center x)) l)
                 = Some (map (fun x => vsum (concat (map m_vertices (leaves x)))) l)).
    { clear - Hx. induction l as [|x l IHl]; [reflexivity|]. cbn [map all_some]. destruct (Hx x (or_introl eq_refl)) as [E P]. rewrite E. cbn [option_map].
      rewrite nb_vertices_leaves, vscale_mean by exact P. rewrite IHl by (intros y Hy; apply Hx; now right). reflexivity. }
    split; [|exact Hpos]. cbn [t_center]. rewrite Hs. rewrite nb_vertices_leaves.
    destruct (Nat.eqb_spec (total_vertices (leaves (Node k l))) 0) as [Z|_]; [lia|]. do 2 f_equal.
    cbn [leaves]. clear. induction l as [|x l IHl]; [reflexivity|]. cbn [map concat]. rewrite map_app, concat_app, vsum_app, <- IHl. reflexivity.
Qed.

(** ** Regular arrays *)
Lemma t_translate_zero t : t_translate t (V 0 0 0) = t.
Proof.
  assert (G : forall x, vadd x (V 0 0 0) = x) by (intros []; apply vec_ext; cbn; ring).
  induction t as [m|k l IH] using tree_induction.
  - destruct m as [vs fs]. cbn. unfold translate. cbn. do 2 f_equal. rewrite <- (map_id vs) at 2. now apply map_ext.
  - cbn [t_translate]. f_equal.
    + destruct k as [|[n p]|s i|[u p]]; try reflexivity; [unfold plane_translate|unfold axis_translate]; cbn; now rewrite G.
    + rewrite <- (map_id l) at 2. apply map_ext_in. exact IH.
Qed.
Lemma t_translate_compose t v w : t_translate (t_translate t v) w = t_translate t (vadd v w).
Proof.
  assert (G : forall x, vadd (vadd x v) w = vadd x (vadd v w)) by (intros; vring).
  induction t as [m|k l IH] using tree_induction.
  - cbn [t_translate]. f_equal. unfold translate. cbn. f_equal. rewrite map_map. apply map_ext. exact G.
  - cbn [t_translate]. f_equal.
    + destruct k as [|[n p]|s i|[u p]]; try reflexivity; [unfold plane_translate|unfold axis_translate]; cbn; now rewrite G.
    + rewrite map_map. now apply map_ext_in.
Qed.
Lemma leaves_translate t v : leaves (t_translate t v) = map (fun m => translate m v) (leaves t).
Proof.
  induction t as [m|k l IH] using tree_induction; [reflexivity|]. cbn [t_translate leaves]. rewrite map_map.
  induction l as [|x l IHl]; [reflexivity|]. cbn [map concat]. rewrite map_app, IH by now left. f_equal. apply IHl. intros y Hy. apply IH. now right.
Qed.
Lemma regular_line_spec base v n : symmetric base -> vz v = 0 -> (1 <= n)%nat ->
  exists t, regular_line base v (Z.of_nat n) = Ok t /\ symmetric t
    /\ leaves t = concat (map (fun i => leaves (t_translate base (vscale (INR i) v))) (seq 0 n))
    /\ (t = base /\ n = 1%nat \/ nb_parts t = n).
Proof.
  intros Hb Hz Hn. unfold regular_line. destruct (Z.eqb_spec (Z.of_nat n) 1) as [E|E].
  - assert (n = 1%nat) by lia. subst n. exists base. split; [reflexivity|]. split; [exact Hb|]. split; [|now left].
    cbn [seq map concat]. rewrite app_nil_r. replace (vscale (INR 0) v) with (V 0 0 0) by (destruct v; apply vec_ext; cbn; ring).
    now rewrite t_translate_zero.
  - destruct (Z.ltb_spec (Z.of_nat n) 1); [lia|]. replace (Z.to_nat (Z.of_nat n - 1)) with (n - 1)%nat by lia.
    assert (X : TranslationalSymmetricMesh base v false (n - 1) =
      Ok (Node (Translation v false) (base :: map (fun i => t_translate base (vscale (INR i) v)) (seq 1 (n - 1))))).
    { unfold TranslationalSymmetricMesh, make_translation. destruct (Nat.ltb_spec (n - 1) 1); [lia|].
      rewrite (proj2 (Reqb_true _ _) Hz). cbn [negb].
      rewrite (mapM_map _ (fun i => t_translate base (vscale (INR i) v))) by (intros; rewrite (copy_ok base Hb); reflexivity). reflexivity. }
    rewrite X. eexists. split; [reflexivity|]. split; [constructor; [exact Hb|exact Hz|lia]|]. split.
    + destruct n as [|n]; [lia|]. replace (S n - 1)%nat with n by lia. cbn [leaves seq map concat]. f_equal.
      * replace (vscale (INR 0) v) with (V 0 0 0) by (destruct v; apply vec_ext; cbn; ring). now rewrite t_translate_zero.
      * now rewrite map_map.
    + right. cbn. rewrite map_length, seq_length. lia.
Qed.
Lemma regular_array_spec base d nx ny : symmetric base -> (1 <= nx)%nat -> (1 <= ny)%nat ->
  exists t, build_regular_array base d (Z.of_nat nx) (Z.of_nat ny) = Ok t /\ symmetric t
    /\ leaves t = concat (map (fun j => concat (map (fun i => leaves (t_translate base (V (INR i * d) (INR j * d) 0))) (seq 0 nx))) (seq 0 ny)).
Proof.
  intros Hb Hx Hy. unfold build_regular_array.
  destruct (regular_line_spec base (V d 0 0) nx Hb eq_refl Hx) as (line & E1 & S1 & L1 & _). rewrite E1. cbn [bind].
  destruct (regular_line_spec line (V 0 d 0) ny S1 eq_refl Hy) as (t & E2 & S2 & L2 & _). exists t. split; [exact E2|]. split; [exact S2|].
  rewrite L2. f_equal. apply map_ext. intros j. rewrite leaves_translate, L1, concat_map, map_map. f_equal. apply map_ext. intros i.
  rewrite <- leaves_translate, t_translate_compose. do 2 f_equal. apply vec_ext; cbn; ring.
Qed.

(** ** Joined symmetric meshes *)
Lemma first_parts_symmetric ts parts : (forall t, In t ts -> symmetric t) -> mapM first_part ts = Ok parts ->
  forall x, In x parts -> symmetric x.
Proof.
  intros H E x Hx. apply mapM_ok in E. destruct E as [N E]. apply In_nth_error in Hx. destruct Hx as [j Hj].
  destruct (nth_error ts j) as [t|] eqn:Et; [|apply nth_error_None in Et; assert (j < length parts)%nat by (apply nth_error_Some; congruence); lia].
  destruct (E j t Et) as (y & A & B). assert (y = x) by congruence. subst y. specialize (H t (nth_error_In _ _ Et)).
  destruct H as [m|l Hl|p a b Ha Hz Hb|w i a r Ha Hz Hr|ax a r Ha Hr]; cbn [first_part] in A; try discriminate.
  - destruct l as [|y l]; [discriminate|]. apply Ok_inj' in A. subst. apply Hl. now left.
  - apply Ok_inj' in A. now subst.
  - apply Ok_inj' in A. now subst.
  - apply Ok_inj' in A. now subst.
Qed.
Lemma join_symmetric_spec ts t : (forall x, In x ts -> symmetric x) -> join_symmetric ts = Ok t ->
  symmetric t /\ exists parts, mapM first_part ts = Ok parts /\ first_part t = Ok (Node Plain parts)
    /\ nb_parts t = (match ts with x :: _ => nb_parts x | [] => 0%nat end)
    /\ (exists k l, t = Node k l /\ forall x, ts = x :: tl ts -> exists l', x = Node k l').
Proof.
  intros H E. unfold join_symmetric in E. destruct ts as [|[m|k0 l0] ts']; try discriminate.
  set (ts := Node k0 l0 :: ts') in *.
  destruct (negb (forallb _ ts)); [discriminate|]. destruct (negb (forallb _ ts)); [discriminate|].
  destruct (mapM first_part ts) as [parts|e] eqn:Ep; cbn [bind] in E; [|discriminate].
  assert (Sp : symmetric (Node Plain parts)) by (constructor; now apply (first_parts_symmetric ts)).
  assert (S0 : symmetric (Node k0 l0)) by (apply H; now left).
  destruct k0 as [|p|v i|a]; [discriminate|..].
  - destruct (make_reflection_symmetric _ _ _ Sp E) as [St [o ->]]. split; [exact St|]. exists parts. split; [reflexivity|].
    split; [reflexivity|]. split; [inversion S0; reflexivity|]. eexists _, _. split; [reflexivity|]. intros x Hx. injection Hx as <-. eauto.
  - destruct (make_translation_symmetric _ _ _ _ _ Sp E) as [St ->]. split; [exact St|]. exists parts. split; [reflexivity|].
    split; [reflexivity|]. split; [|eexists _, _; split; [reflexivity|intros x Hx; injection Hx as <-; eauto]].
    cbn [nb_parts length ts]. rewrite map_length, seq_length. inversion S0. cbn. lia.
  - destruct (make_axial_symmetric _ _ _ _ Sp E) as [St ->]. split; [exact St|]. exists parts. split; [reflexivity|].
    split; [reflexivity|]. split; [|eexists _, _; split; [reflexivity|intros x Hx; injection Hx as <-; eauto]].
    cbn [nb_parts length ts]. rewrite map_length, seq_length. inversion S0. cbn. lia.
Qed.

Definition proper_kind (k : kind) : Prop :=
  match k with Plain => False | Reflection p => proper_plane p | Translation _ _ | Axial _ => True end.
Lemma plane_eqb_refl p : proper_plane p -> plane_eqb p p = true.
Proof.
  intros H. unfold plane_eqb, in_plane, orthogonal_vectors, parallel_same_direction, parallel_vectors. pose proof geom_tol_pos.
  rewrite !andb_true_iff, !Rltb_true. split; [|split].
  - replace (dot (vsub (pl_point p) (pl_point p)) (pl_normal p)) with 0 by (destruct p as [n q]; cbn; vring). rewrite Rabs_R0. lra.
  - rewrite cross_self. replace (norm v0) with 0; [lra|]. symmetry. now apply norm_zero.
  - apply unit_dot in H. lra.
Qed.
Lemma axis_eqb_refl a : axis_eqb a a = true.
Proof.
  unfold axis_eqb, in_axis, parallel_vectors. pose proof geom_tol_pos. assert (N : norm v0 = 0) by now apply norm_zero.
  rewrite andb_true_iff, !Rltb_true. split.
  - replace (cross (vsub (ax_point a) (ax_point a)) (ax_vector a)) with v0 by (destruct a as [n q]; cbn; vring). lra.
  - rewrite cross_self. lra.
Qed.
Lemma vec_allclose_refl v : vec_allclose v v = true.
Proof.
  unfold vec_allclose, allclose1. rewrite !andb_true_iff, !Rleb_true.
  assert (G : forall x, Rabs (x - x) <= / 100000000 + / 100000 * Rabs x).
  { intros x. replace (x - x) with 0 by ring. rewrite Rabs_R0. pose proof (Rabs_pos x). lra. }
  auto.
Qed.

Lemma join_same_symmetry k ls n : proper_kind k -> ls <> [] ->
  (forall l, In l ls -> symmetric (Node k l) /\ length l = n) ->
  exists rows, join_symmetric (map (Node k) ls) = Ok (Node k (map (Node Plain) rows)) /\ length rows = n
    /\ forall i j l x, nth_error ls i = Some l -> nth_error l j = Some x ->
       exists row, nth_error rows j = Some row /\ length row = length ls /\ nth_error row i = Some x.
Proof.
  intros Hk Hls Hl.
  assert (Hfirst : exists firsts, mapM first_part (map (Node k) ls) = Ok firsts /\ length firsts = length ls
     /\ forall i l, nth_error ls i = Some l -> exists x l', l = x :: l' /\ nth_error firsts i = Some x).
  { assert (T : forall l, In l ls -> exists x l', l = x :: l').
    { intros l H. destruct (Hl l H) as [Sl _]. destruct k; [destruct Hk|..]; inversion Sl; eauto. }
    destruct (mapM_total first_part (map (Node k) ls)) as [firsts E].
    { intros t Ht. apply in_map_iff in Ht. destruct Ht as (l & <- & Hx). destruct (T l Hx) as (x & l' & ->). cbn. eauto. }
    exists firsts. split; [exact E|]. apply mapM_ok in E. destruct E as [N E]. rewrite map_length in N. split; [exact N|].
    intros i l Hi. destruct (T l (nth_error_In _ _ Hi)) as (x & l' & ->). exists x, l'. split; [reflexivity|].
    destruct (E i (Node k (x :: l'))) as (y & A & B); [now apply map_nth_error|]. cbn in A. apply Ok_inj' in A. now subst. }
  destruct Hfirst as (firsts & Ef & Nf & Hf).
  assert (Sp : symmetric (Node Plain firsts)).
  { constructor. apply (first_parts_symmetric (map (Node k) ls)); [|exact Ef]. intros t Ht. apply in_map_iff in Ht. destruct Ht as (l & <- & Hx). now apply Hl. }
  assert (Hjoin : join_symmetric (map (Node k) ls) =
     match k with
     | Plain => Err AttributeError
     | Reflection p => ReflectionSymmetricMesh (Node Plain firsts) p
     | Translation v i => TranslationalSymmetricMesh (Node Plain firsts) v i (n - 1)
     | Axial a => AxialSymmetricMesh (Node Plain firsts) a (n - 1)
     end).
  { destruct ls as [|l0 ls]; [congruence|]. assert (N0 : length l0 = n) by (apply Hl; now left).
    unfold join_symmetric. change (map (Node k) (l0 :: ls)) with (Node k l0 :: map (Node k) ls) in Ef |- *. cbv beta iota.
    rewrite Ef. rewrite N0.
    assert (A : forall (f : tree -> bool), (forall l, In l (l0 :: ls) -> f (Node k l) = true) -> forallb f (Node k l0 :: map (Node k) ls) = true).
    { intros f Hff. change (Node k l0 :: map (Node k) ls) with (map (Node k) (l0 :: ls)). apply forallb_forall. intros t Ht.
      apply in_map_iff in Ht. destruct Ht as (l & <- & Hx). now apply Hff. }
    rewrite A by (intros l _; destruct k; [destruct Hk|..]; reflexivity). cbn [negb].
    rewrite A. { cbn [negb bind]. destruct k; reflexivity. }
    intros l Hx. destruct (Hl l Hx) as [_ Nl]. destruct k as [|p|v i|a]; [destruct Hk|..].
    - now apply plane_eqb_refl.
    - now rewrite vec_allclose_refl, Nl, Nat.eqb_refl.
    - now rewrite axis_eqb_refl, Nl, Nat.eqb_refl. }
  rewrite Hjoin. destruct k as [|p|v i0|a]; [destruct Hk|..].
  - (* reflection *)
    assert (Hz : vz (pl_normal p) = 0).
    { destruct ls as [|l0 ls]; [congruence|]. destruct (Hl l0) as [S0 _]; [now left|]. now inversion S0. }
    assert (Hm : exists others, mapM (fun x => t_mirror x p) firsts = Ok others
       /\ forall i h o, nth_error ls i = Some [h; o] -> nth_error firsts i = Some h -> nth_error others i = Some o).
    { assert (T : forall i h, nth_error firsts i = Some h -> exists o, nth_error ls i = Some [h; o] /\ t_mirror h p = Ok o).
      { intros i h Hi. destruct (nth_error ls i) as [l|] eqn:Ei; [|apply nth_error_None in Ei; assert (i < length firsts)%nat by (apply nth_error_Some; congruence); lia].
        destruct (Hf i l Ei) as (x & l' & -> & Hx). assert (x = h) by congruence. subst x.
        destruct (Hl _ (nth_error_In _ _ Ei)) as [S0 _]. inversion S0; subst. eauto. }
      destruct (mapM_total (fun x => t_mirror x p) firsts) as [others Eo].
      { intros h Hh. apply In_nth_error in Hh. destruct Hh as [i Hi]. destruct (T i h Hi) as (o & _ & E). eauto. }
      exists others. split; [exact Eo|]. apply mapM_ok in Eo. destruct Eo as [No Eo]. intros i h o H1 H2.
      destruct (T i h H2) as (o' & T1 & T2). destruct (Eo i h H2) as (y & Y1 & Y2). congruence. }
    destruct Hm as (others & Eo & Ho).
    exists [firsts; others]. split; [|split].
    + unfold ReflectionSymmetricMesh, make_reflection. rewrite (proj2 (Reqb_true _ _) Hz). cbn [negb].
      rewrite (copy_ok _ Sp). cbn [bind t_mirror]. rewrite sequence_map, Eo. reflexivity.
    + destruct ls as [|l0 ls]; [congruence|]. destruct (Hl l0) as [S0 <-]; [now left|]. inversion S0. reflexivity.
    + intros i j l x Hi Hj. destruct (Hl l (nth_error_In _ _ Hi)) as [S0 _]. inversion S0 as [| |p' h o Sh Sz So| |]; subst.
      assert (Hh : nth_error firsts i = Some h) by (destruct (Hf i _ Hi) as (x' & l' & E & Hx'); injection E as <- <-; exact Hx').
      destruct j as [|[|j]]; cbn in Hj.
      * injection Hj as <-. exists firsts. split; [reflexivity|]. now split.
      * injection Hj as <-. exists others. split; [reflexivity|]. split; [apply mapM_length in Eo; congruence|]. now apply (Ho i h).
      * destruct j; discriminate.
  - (* translation *)
    assert (Hn : vz v = 0 /\ (2 <= n)%nat).
    { destruct ls as [|l0 ls]; [congruence|]. destruct (Hl l0) as [S0 <-]; [now left|]. inversion S0; subst. split; [assumption|]. cbn. rewrite map_length, seq_length. lia. }
    destruct Hn as [Hz Hn].
    exists (map (fun i => map (fun x => t_translate x (vscale (INR i) v)) firsts) (seq 0 n)). split; [|split].
    + unfold TranslationalSymmetricMesh, make_translation. destruct (Nat.ltb_spec (n - 1) 1); [lia|].
      rewrite (proj2 (Reqb_true _ _) Hz). cbn [negb].
      rewrite (mapM_map _ (fun i => t_translate (Node Plain firsts) (vscale (INR i) v))) by (intros; rewrite (copy_ok _ Sp); reflexivity).
      cbn [bind]. do 2 f_equal. destruct n as [|n]; [lia|]. replace (S n - 1)%nat with n by lia. cbn [seq map]. f_equal.
      * f_equal. rewrite <- (map_id firsts) at 1. apply map_ext. intros x.
        replace (vscale (INR 0) v) with (V 0 0 0) by (destruct v; apply vec_ext; cbn; ring). now rewrite t_translate_zero.
      * rewrite map_map. reflexivity.
    + now rewrite map_length, seq_length.
    + intros i j l x Hi Hj. destruct (Hl l (nth_error_In _ _ Hi)) as [S0 N0]. inversion S0 as [| | |v' i' h r Sh Sz Sr|]; subst.
      assert (Hh : nth_error firsts i = Some h) by (destruct (Hf i _ Hi) as (x' & l' & E & Hx'); injection E as <- <-; exact Hx').
      cbn [length] in *. rewrite map_length, seq_length in *.
      assert (Hjr : (j < S r)%nat) by (assert (j < length (h :: map (fun i => t_translate h (vscale (INR i) v)) (seq 1 r)))%nat by (apply nth_error_Some; congruence);
         cbn in *; rewrite map_length, seq_length in *; lia).
      exists (map (fun y => t_translate y (vscale (INR j) v)) firsts).
      split; [rewrite nth_error_map; rewrite (nth_error_nth' _ 0%nat) by (rewrite seq_length; lia); rewrite seq_nth by lia; reflexivity|].
      split; [now rewrite map_length|]. rewrite nth_error_map, Hh. cbn [option_map]. rewrite <- Hj.
      destruct j as [|j]; cbn [nth_error].
      * replace (vscale (INR 0) v) with (V 0 0 0) by (destruct v; apply vec_ext; cbn; ring). now rewrite t_translate_zero.
      * rewrite nth_error_map. rewrite (nth_error_nth' _ 0%nat) by (rewrite seq_length; lia). rewrite seq_nth by lia. reflexivity.
  - (* rotation *)
    assert (Hn : (2 <= n)%nat).
    { destruct ls as [|l0 ls]; [congruence|]. destruct (Hl l0) as [S0 <-]; [now left|]. inversion S0; subst. cbn. rewrite map_length, seq_length. lia. }
    exists (firsts :: map (fun i => map (fun x => t_rotate x a (2 * INR i * PI / (INR (n - 1) + 1))) firsts) (seq 1 (n - 1))). split; [|split].
    + unfold AxialSymmetricMesh, make_axial. destruct (Nat.ltb_spec (n - 1) 1); [lia|].
      rewrite (mapM_map _ (fun i => t_rotate (Node Plain firsts) a (2 * INR i * PI / (INR (n - 1) + 1)))) by (intros; rewrite (copy_ok _ Sp); reflexivity).
      cbn [bind map]. rewrite map_map. reflexivity.
    + cbn. rewrite map_length, seq_length. lia.
    + intros i j l x Hi Hj. destruct (Hl l (nth_error_In _ _ Hi)) as [S0 N0]. inversion S0 as [| | | |a' h r Sh Sr]; subst.
      assert (Hh : nth_error firsts i = Some h) by (destruct (Hf i _ Hi) as (x' & l' & E & Hx'); injection E as <- <-; exact Hx').
      cbn [length] in *. rewrite map_length, seq_length in *.
      destruct j as [|j]; cbn [nth_error] in *.
      * injection Hj as <-. exists firsts. auto.
      * replace (S r - 1)%nat with r in * by lia. rewrite nth_error_map in Hj. destruct (nth_error (seq 1 r) j) as [q|] eqn:Eq; [|discriminate].
        cbn in Hj. injection Hj as <-. eexists. split; [apply map_nth_error; exact Eq|]. split; [now rewrite map_length|].
        now rewrite nth_error_map, Hh.
Qed.
