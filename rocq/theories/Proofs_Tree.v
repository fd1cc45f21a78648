(** Proofs about collections of meshes. *)
From Coq Require Import Reals List Bool ZArith Arith Lra Lia.
From Verif Require Import Model_Base Model_Geometry Model_Mesh Spec_Mesh Model_Quality Spec_Quality Model_Tree Spec_Tree
  Proofs_Geometry Proofs_Mesh Proofs_Mesh2 Proofs_Mesh3 Proofs_Quality.
Import ListNotations.
Open Scope nat_scope.

Section Induction.
  Variable P : tree -> Prop.
  Hypothesis HL : forall m, P (Leaf m).
  Hypothesis HN : forall k l, (forall x, In x l -> P x) -> P (Node k l).
  Fixpoint tree_induction (t : tree) : P t :=
    match t with
    | Leaf m => HL m
    | Node k l => HN k l
      ((fix go (l : list tree) : forall x, In x l -> P x :=
          match l with
          | [] => fun x H => match H with end
          | y :: l' => fun x H => match H with
                                  | or_introl e => eq_ind y P (tree_induction y) x e
                                  | or_intror h => go l' x h
                                  end
          end) l)
    end.
End Induction.

Lemma sequence_map {A B} (f : A -> result B) l : sequence (map f l) = mapM f l.
Proof. unfold sequence. now rewrite mapM_map_in. Qed.
Lemma concatenate_ok {A} (l : list (list A)) : l <> [] -> concatenate l = Ok (concat l).
Proof. destruct l; [congruence|reflexivity]. Qed.

(** All the faces, with the vertices numbered from [off]. *)
Fixpoint faces_from (off : nat) (ms : list mesh) : list face :=
  match ms with
  | [] => []
  | m :: ms' => shift_faces off (m_faces m) ++ faces_from (off + nb_vertices m) ms'
  end.
Definition whole (ms : list mesh) : mesh := Mesh (concat (map m_vertices ms)) (faces_from 0 ms).

Lemma shift_shift a b fs : shift_faces a (shift_faces b fs) = shift_faces (a + b) fs.
Proof.
  unfold shift_faces. rewrite map_map. apply map_ext. intros [w x y z]. unfold face_map. cbn. f_equal; lia.
Qed.
Lemma shift_zero fs : shift_faces 0 fs = fs.
Proof. unfold shift_faces. rewrite <- (map_id fs) at 2. apply map_ext. now intros []. Qed.
Lemma shift_app a fs fs' : shift_faces a (fs ++ fs') = shift_faces a fs ++ shift_faces a fs'.
Proof. apply map_app. Qed.
Lemma shift_faces_from a : forall ms off, shift_faces a (faces_from off ms) = faces_from (a + off) ms.
Proof.
  induction ms as [|m ms IH]; intros off; cbn [faces_from]; [reflexivity|].
  rewrite shift_app, shift_shift, IH. do 2 f_equal. lia.
Qed.
Definition total_vertices (ms : list mesh) : nat := list_sum (map nb_vertices ms).
Definition total_faces (ms : list mesh) : nat := list_sum (map nb_faces ms).
Lemma total_vertices_cons m ms : total_vertices (m :: ms) = nb_vertices m + total_vertices ms.
Proof. reflexivity. Qed.
Lemma total_faces_cons m ms : total_faces (m :: ms) = nb_faces m + total_faces ms.
Proof. reflexivity. Qed.
Lemma faces_from_app : forall ms ms' off,
  faces_from off (ms ++ ms') = faces_from off ms ++ faces_from (off + total_vertices ms) ms'.
Proof.
  induction ms as [|m ms IH]; intros ms' off; cbn [faces_from app].
  - unfold total_vertices. cbn. now rewrite Nat.add_0_r.
  - rewrite IH, app_assoc. do 2 f_equal. rewrite total_vertices_cons. lia.
Qed.
Lemma total_vertices_app ms ms' : total_vertices (ms ++ ms') = total_vertices ms + total_vertices ms'.
Proof. unfold total_vertices. now rewrite map_app, list_sum_app. Qed.
Lemma total_faces_app ms ms' : total_faces (ms ++ ms') = total_faces ms + total_faces ms'.
Proof. unfold total_faces. now rewrite map_app, list_sum_app. Qed.

Lemma nb_vertices_leaves t : t_nb_vertices t = total_vertices (leaves t).
Proof.
  induction t as [m|k l IH] using tree_induction; [unfold total_vertices; cbn; lia|]. cbn [t_nb_vertices leaves].
  induction l as [|x l IHl]; [reflexivity|]. cbn [map list_sum fold_right concat].
  rewrite total_vertices_app, <- IHl by (intros; apply IH; now right). rewrite (IH x) by now left. reflexivity.
Qed.
Lemma nb_faces_leaves t : t_nb_faces t = total_faces (leaves t).
Proof.
  induction t as [m|k l IH] using tree_induction; [unfold total_faces; cbn; lia|]. cbn [t_nb_faces leaves].
  induction l as [|x l IHl]; [reflexivity|]. cbn [map list_sum fold_right concat].
  rewrite total_faces_app, <- IHl by (intros; apply IH; now right). rewrite (IH x) by now left. reflexivity.
Qed.
Lemma filled_inv k l : filled (Node k l) -> l <> [] /\ forall x, In x l -> filled x.
Proof. inversion 1; auto. Qed.

Lemma t_vertices_whole t : filled t -> t_vertices t = Ok (m_vertices (whole (leaves t))).
Proof.
  induction t as [m|k l IH] using tree_induction; intros H.
  - cbn. now rewrite app_nil_r.
  - apply filled_inv in H. destruct H as [Hl Hx]. cbn [t_vertices leaves]. rewrite sequence_map.
    rewrite (mapM_map _ (fun x => m_vertices (whole (leaves x)))) by (intros x Hi; apply IH; auto).
    cbn [bind]. rewrite concatenate_ok by (destruct l; [congruence|discriminate]). f_equal.
    cbn [whole m_vertices]. clear. induction l as [|x l IHl]; [reflexivity|]. cbn [map concat].
    rewrite IHl, map_app, concat_app. reflexivity.
Qed.
Lemma t_faces_whole t : filled t -> t_faces t = Ok (m_faces (whole (leaves t))).
Proof.
  induction t as [m|k l IH] using tree_induction; intros H.
  - cbn. now rewrite app_nil_r, shift_zero.
  - apply filled_inv in H. destruct H as [Hl Hx]. cbn [t_faces leaves]. rewrite sequence_map.
    rewrite (mapM_map _ (fun x => m_faces (whole (leaves x)))) by (intros x Hi; apply IH; auto).
    cbn [bind]. rewrite concatenate_ok by (destruct l; [congruence|discriminate]). f_equal.
    cbn [whole m_faces]. clear. generalize 0 at 1 3 as off. induction l as [|x l IHl]; intros off; [reflexivity|].
    cbn [map offsets combine concat fst snd]. rewrite IHl. rewrite faces_from_app, shift_faces_from, Nat.add_0_r.
    now rewrite nb_vertices_leaves.
Qed.

Lemma faces_from_length : forall ms off, length (faces_from off ms) = total_faces ms.
Proof.
  induction ms as [|m ms IH]; intros off; [reflexivity|]. cbn [faces_from]. rewrite app_length, IH.
  unfold shift_faces, total_faces. rewrite map_length. reflexivity.
Qed.
Lemma concat_vertices_length ms : length (concat (map m_vertices ms)) = total_vertices ms.
Proof.
  induction ms as [|m ms IH]; [reflexivity|]. cbn [map concat]. rewrite app_length, IH. reflexivity.
Qed.
Lemma nth_error_shift {A} (pre l : list A) i x : nth_error l i = Some x -> nth_error (pre ++ l) (length pre + i) = Some x.
Proof. intros H. rewrite nth_error_app2 by lia. now replace (length pre + i - length pre) with i by lia. Qed.
Lemma face_points_shift pre vs suf f q : face_points vs f = Ok q ->
  face_points (pre ++ vs ++ suf) (face_map (plus (length pre)) f) = Ok q.
Proof.
  rewrite !face_points_ok. unfold face_map. cbn.
  assert (G : forall i x, nth_error vs i = Some x -> nth_error (pre ++ vs ++ suf) (length pre + i) = Some x).
  { intros i x H. apply nth_error_shift. rewrite nth_error_app1; [exact H|]. apply nth_error_Some. congruence. }
  intros (A & B & C & D). repeat split; now apply G.
Qed.
Lemma is_tri_shift n f : is_tri (face_map (plus n) f) = is_tri f.
Proof.
  unfold is_tri, face_map. cbn. destruct (Nat.eqb_spec (fa f) (fd f)) as [E|E]; [rewrite E; apply Nat.eqb_refl|].
  apply Nat.eqb_neq. lia.
Qed.
Lemma face_props_shift pre vs suf f ps : face_props vs f = Ok ps ->
  face_props (pre ++ vs ++ suf) (face_map (plus (length pre)) f) = Ok ps.
Proof.
  unfold face_props. destruct (face_points vs f) as [q|e] eqn:E; cbn [bind]; [|discriminate]. intros H.
  rewrite (face_points_shift pre vs suf f q E). cbn [bind]. now rewrite is_tri_shift.
Qed.

(** The properties of the whole mesh are those of the parts, one after the other. *)
Lemma whole_props_from : forall ms pre pss, mapM faces_props ms = Ok pss ->
  mapM (face_props (pre ++ concat (map m_vertices ms))) (faces_from (length pre) ms) = Ok (concat pss).
Proof.
  induction ms as [|m ms IH]; intros pre pss H.
  - cbn in H. apply Ok_inj' in H. now subst.
  - cbn [mapM] in H. destruct (faces_props m) as [ps|e] eqn:E; cbn [bind] in H; [|discriminate].
    destruct (mapM faces_props ms) as [pss'|e] eqn:E'; cbn [bind] in H; [|discriminate]. apply Ok_inj' in H. subst pss.
    cbn [map concat faces_from]. rewrite mapM_app.
    assert (G : mapM (face_props (pre ++ m_vertices m ++ concat (map m_vertices ms))) (shift_faces (length pre) (m_faces m)) = Ok ps).
    { unfold shift_faces. rewrite mapM_map_in. unfold faces_props in E. apply mapM_ok in E. destruct E as [E1 E2].
      apply mapM_ok. split; [exact E1|]. intros k f Hf. destruct (E2 k f Hf) as (y & Y1 & Y2). exists y. split; [|exact Y2].
      now apply face_props_shift. }
    rewrite G. cbn [bind]. specialize (IH (pre ++ m_vertices m) pss' eq_refl). rewrite <- app_assoc, app_length in IH.
    unfold nb_vertices. now rewrite IH.
Qed.
Lemma t_props_leaves t pss : filled t -> mapM faces_props (leaves t) = Ok pss -> t_props t = Ok (concat pss).
Proof.
  revert pss. induction t as [m|k l IH] using tree_induction; intros pss H E.
  - cbn [leaves mapM] in E. cbn [t_props]. destruct (faces_props m); cbn [bind] in E; [|discriminate]. apply Ok_inj' in E. subst.
    cbn. now rewrite app_nil_r.
  - apply filled_inv in H. destruct H as [Hl Hx]. cbn [t_props leaves] in *. rewrite sequence_map.
    assert (G : exists qs, mapM t_props l = Ok qs /\ concat qs = concat pss).
    { clear Hl. revert pss E. induction l as [|x l IHl]; intros pss E.
      - cbn in E. apply Ok_inj' in E. subst. exists []. auto.
      - cbn [map concat] in E. rewrite mapM_app in E.
        destruct (mapM faces_props (leaves x)) as [p1|e] eqn:E1; cbn [bind] in E; [|discriminate].
        destruct (mapM faces_props (concat (map leaves l))) as [p2|e] eqn:E2; cbn [bind] in E; [|discriminate].
        apply Ok_inj' in E. subst. destruct (IHl (fun y Hy => IH y (or_intror Hy)) (fun y Hy => Hx y (or_intror Hy)) p2 eq_refl) as (qs & Q1 & Q2).
        exists (concat p1 :: qs). cbn [mapM]. rewrite (IH x (or_introl eq_refl) p1 (Hx x (or_introl eq_refl)) E1). cbn [bind].
        rewrite Q1. cbn [bind]. split; [reflexivity|]. cbn [concat]. now rewrite Q2, concat_app. }
    destruct G as (qs & Q1 & Q2). rewrite Q1. cbn [bind].
    apply mapM_length in Q1. rewrite concatenate_ok by (destruct qs, l; cbn in *; congruence). now rewrite Q2.
Qed.

Lemma whole_face_from : forall ms pre k m r f q, nth_error ms k = Some m -> nth_error (m_faces m) r = Some f ->
  face_points (m_vertices m) f = Ok q ->
  exists g, nth_error (faces_from (length pre) ms) (faces_before ms k + r) = Some g
    /\ face_points (pre ++ concat (map m_vertices ms)) g = Ok q /\ is_tri g = is_tri f.
Proof.
  induction ms as [|m0 ms IH]; intros pre k m r f q Hk Hr Hq; [destruct k; discriminate|].
  destruct k as [|k]; cbn [nth_error faces_before faces_from map concat] in *.
  - injection Hk as ->. exists (face_map (plus (length pre)) f). split; [|split].
    + rewrite nth_error_app1; [unfold shift_faces; now apply map_nth_error|].
      unfold shift_faces. rewrite map_length. apply nth_error_Some. cbn. congruence.
    + now apply face_points_shift.
    + apply is_tri_shift.
  - destruct (IH (pre ++ m_vertices m0) k m r f q Hk Hr Hq) as (g & G1 & G2 & G3). exists g.
    rewrite app_length in G1. rewrite <- app_assoc in G2. split; [|split; [exact G2|exact G3]].
    rewrite nth_error_app2 by (unfold shift_faces; rewrite map_length; lia). unfold shift_faces. rewrite map_length.
    replace (length (m_faces m0) + faces_before ms k + r - length (m_faces m0)) with (faces_before ms k + r) by lia. exact G1.
Qed.
Lemma whole_faces_in : forall ms off f, In f (faces_from off ms) -> (forall m, In m ms -> valid m) ->
  forall i, In i (face_ids f) -> i < off + total_vertices ms.
Proof.
  induction ms as [|m ms IH]; intros off f H Hv i Hi; [destruct H|]. cbn [faces_from] in H. apply in_app_or in H.
  rewrite total_vertices_cons. destruct H as [H|H].
  - unfold shift_faces in H. apply in_map_iff in H. destruct H as (g & <- & Hg).
    specialize (Hv m (or_introl eq_refl) g).
    assert (exists j, In j (face_ids g) /\ i = off + j) as (j & Hj & ->).
    { unfold face_map, face_ids in Hi. cbn in Hi. unfold face_ids.
      destruct Hi as [<-|[<-|[<-|[<-|[]]]]]; eexists; (split; [|reflexivity]); cbn; tauto. }
    specialize (Hv j Hg Hj). unfold nb_vertices. lia.
  - specialize (IH _ f H (fun x Hx => Hv x (or_intror Hx)) i Hi). lia.
Qed.
Lemma whole_gathers ms : (forall m, In m ms -> valid m) -> gathers ms (whole ms).
Proof.
  intros Hv. split; [|split; [reflexivity|split]].
  - intros f i Hf Hi. cbn [whole m_faces m_vertices] in *. rewrite concat_vertices_length. apply (whole_faces_in ms 0 f Hf Hv i Hi).
  - apply faces_from_length.
  - intros k m r a b c d Hk Hf. apply face_is_points in Hf. destruct Hf as (f & F1 & F2).
    destruct (whole_face_from ms [] k m r f _ Hk F1 F2) as (g & G1 & G2 & _). apply face_is_points. exists g. auto.
Qed.

(** ** Locating a face *)

Lemma containing_spec : forall sizes k total id, (Z.of_nat total <= id)%Z ->
  (id < Z.of_nat (total + list_sum sizes))%Z ->
  exists j r n, containing k total id sizes = Some (k + j, Z.of_nat r) /\ nth_error sizes j = Some n
    /\ r < n /\ Z.of_nat (total + list_sum (firstn j sizes) + r) = id.
Proof.
  induction sizes as [|n sizes IH]; intros k total id H1 H2; [cbn in H2; lia|].
  cbn [containing]. destruct (Z.ltb_spec id (Z.of_nat (total + n))) as [H|H].
  - exists 0, (Z.to_nat id - total), n. cbn [nth_error firstn list_sum fold_right].
    split; [rewrite Nat.add_0_r; do 2 f_equal; lia|]. split; [reflexivity|]. lia.
  - change (list_sum (n :: sizes)) with (n + list_sum sizes) in H2.
    destruct (IH (S k) (total + n) id) as (j & r & n' & A & B & C & D); [lia|lia|].
    exists (S j), r, n'. rewrite A. split; [do 2 f_equal; lia|]. split; [exact B|]. split; [exact C|].
    cbn [firstn]. change (list_sum (n :: firstn j sizes)) with (n + list_sum (firstn j sizes)). lia.
Qed.
Lemma containing_none : forall sizes k total id, (Z.of_nat (total + list_sum sizes) <= id)%Z -> containing k total id sizes = None.
Proof.
  induction sizes as [|n sizes IH]; intros k total id H; [reflexivity|]. cbn [containing].
  change (list_sum (n :: sizes)) with (n + list_sum sizes) in H.
  destruct (Z.ltb_spec id (Z.of_nat (total + n))); [lia|]. apply IH. lia.
Qed.

(** ** Extracting one face *)

Lemma extract_one_any m r i a b c d : index_of (nb_faces m) r i -> face_is m i a b c d ->
  extract_one_face m r = Ok (Mesh [a; b; c; d] [F 0 1 2 3]).
Proof.
  intros H Hf. apply face_is_points in Hf. destruct Hf as (f & F1 & F2). unfold extract_one_face.
  rewrite (geti_ok _ r i f H F1). cbn [bind]. rewrite F2. reflexivity.
Qed.
Lemma faces_before_app : forall ms ms' k, k < length ms' -> faces_before (ms ++ ms') (length ms + k) = total_faces ms + faces_before ms' k.
Proof.
  induction ms as [|m ms IH]; intros ms' k H; [reflexivity|]. cbn [app length faces_before Nat.add].
  rewrite IH by exact H. rewrite total_faces_cons. unfold nb_faces at 1. lia.
Qed.
Lemma faces_before_le : forall ms k, k < length ms -> forall ms', faces_before (ms ++ ms') k = faces_before ms k.
Proof.
  induction ms as [|m ms IH]; intros k H ms'; [cbn in H; lia|]. destruct k as [|k]; [reflexivity|]. cbn in *. rewrite IH; lia.
Qed.
(** The i-th face of the whole mesh is a face of exactly one part. *)
Lemma face_of_part : forall ms i, i < total_faces ms ->
  exists k m r, nth_error ms k = Some m /\ r < nb_faces m /\ i = faces_before ms k + r.
Proof.
  induction ms as [|m ms IH]; intros i H; [cbn in H; lia|].
  rewrite total_faces_cons in H.
  destruct (Nat.lt_ge_cases i (nb_faces m)) as [G|G].
  - exists 0, m, i. cbn. auto.
  - destruct (IH (i - nb_faces m)) as (k & m' & r & A & B & C); [lia|].
    exists (S k), m', r. cbn. split; [exact A|]. split; [exact B|]. unfold nb_faces in *. lia.
Qed.
Lemma total_faces_firstn : forall l k, list_sum (map t_nb_faces (firstn k l)) = total_faces (concat (map leaves (firstn k l))).
Proof.
  intros l k. generalize (firstn k l). clear. induction l as [|x l IH]; [reflexivity|].
  cbn [map list_sum fold_right concat]. rewrite total_faces_app, <- IH, nb_faces_leaves. reflexivity.
Qed.
(** Faces of the part number [j] of a collection. *)
Lemma whole_face_part l j x i a b c d :
  nth_error l j = Some x -> all_valid (Node Plain l) -> i < t_nb_faces x ->
  face_is (whole (concat (map leaves l))) (list_sum (map t_nb_faces (firstn j l)) + i) a b c d <->
  face_is (whole (leaves x)) i a b c d.
Proof.
  intros Hj Hv Hi. rewrite nb_faces_leaves in Hi. destruct (face_of_part _ i Hi) as (k & m & r & A & B & ->).
  assert (Hl : exists l2, l = firstn j l ++ x :: l2 /\ length (firstn j l) = j).
  { apply nth_error_split in Hj. destruct Hj as (l1 & l2 & -> & <-). exists l2. split.
    - now rewrite firstn_app, firstn_all, Nat.sub_diag, app_nil_r.
    - now rewrite firstn_app, firstn_all, Nat.sub_diag, app_nil_r. }
  destruct Hl as (l2 & El & Ej).
  assert (Hm : In m (concat (map leaves l))).
  { rewrite El, map_app. cbn [map]. rewrite concat_app. apply in_or_app. right. cbn [concat]. apply in_or_app. left. now apply nth_error_In in A. }
  assert (Hvm : valid m) by now apply Hv.
  assert (E1 : nth_error (concat (map leaves l)) (length (concat (map leaves (firstn j l))) + k) = Some m).
  { rewrite El at 1. rewrite map_app, concat_app. cbn [map concat]. rewrite nth_error_app2 by lia.
    replace (_ + k - _) with k by lia. rewrite nth_error_app1; [exact A|]. apply nth_error_Some. congruence. }
  assert (Hk : k < length (leaves x)) by (apply nth_error_Some; congruence).
  assert (E2 : faces_before (concat (map leaves l)) (length (concat (map leaves (firstn j l))) + k)
               = list_sum (map t_nb_faces (firstn j l)) + faces_before (leaves x) k).
  { rewrite El at 1. rewrite map_app, concat_app. cbn [map concat]. rewrite faces_before_app by (rewrite app_length; lia).
    rewrite faces_before_le by exact Hk. now rewrite total_faces_firstn. }
  assert (exists f q, nth_error (m_faces m) r = Some f /\ face_points (m_vertices m) f = Ok q) as (f & q & F1 & F2).
  { destruct (nth_error (m_faces m) r) as [f|] eqn:E; [|apply nth_error_None in E; unfold nb_faces in B; lia].
    destruct (valid_points m f Hvm (nth_error_In _ _ E)) as [q Hq]. eauto. }
  destruct (whole_face_from _ [] _ m r f q E1 F1 F2) as (g & G1 & G2 & _).
  destruct (whole_face_from _ [] _ m r f q A F1 F2) as (g' & G1' & G2' & _).
  rewrite E2, <- Nat.add_assoc in G1. cbn [length app] in *.
  rewrite !face_is_points. cbn [whole m_faces m_vertices]. rewrite G1, G1'.
  split; intros (h & H1 & H2); injection H1 as <-.
  - exists g'. split; [reflexivity|]. congruence.
  - exists g. split; [reflexivity|]. congruence.
Qed.

Lemma t_extract_one_spec t : filled t -> all_valid t -> forall i a b c d, i < t_nb_faces t ->
  face_is (whole (leaves t)) i a b c d -> t_extract_one_face t (Z.of_nat i) = Ok (Mesh [a; b; c; d] [F 0 1 2 3]).
Proof.
  induction t as [m|k l IH] using tree_induction; intros Hf Hv i a b c d Hi Ha.
  - cbn [t_extract_one_face]. apply extract_one_any with i; [split; [exact Hi|now left]|].
    destruct Ha as (f & A). cbn [leaves whole m_faces m_vertices faces_from map concat] in A.
    rewrite !app_nil_r, shift_zero in A. now exists f.
  - apply filled_inv in Hf. destruct Hf as [_ Hf]. cbn [t_extract_one_face]. cbn [t_nb_faces] in Hi.
    unfold submesh_containing_face.
    destruct (containing_spec (map t_nb_faces l) 0 0 (Z.of_nat i)) as (j & r & n & A & B & C & D); [lia|lia|].
    rewrite A. cbn [Nat.add]. rewrite nth_error_map in B. destruct (nth_error l j) as [x|] eqn:Ej; [|discriminate].
    cbn in B. injection B as <-. rewrite nth_error_map, Ej. cbn [option_map].
    pose proof (nth_error_In _ _ Ej) as Hx.
    apply IH; [exact Hx|now apply Hf| |exact C|].
    + intros m Hm. apply Hv. cbn [leaves]. apply in_concat. exists (leaves x). split; [now apply in_map|exact Hm].
    + rewrite firstn_map in D. apply Nat2Z.inj in D. cbn [Nat.add] in D. subst i.
      eapply (whole_face_part l j x r); [exact Ej|exact Hv|exact C|exact Ha].
Qed.

(** ** Paths *)
Lemma path_follow t : map (follow t) (path_to_leaf t) = map (fun m => Some (Leaf m)) (leaves t).
Proof.
  induction t as [m|k l IH] using tree_induction; [reflexivity|]. cbn [path_to_leaf leaves].
  assert (G : forall l' n, (forall x, In x l' -> map (follow x) (path_to_leaf x) = map (fun m => Some (Leaf m)) (leaves x)) ->
     (forall i x, nth_error l' i = Some x -> nth_error l (n + i) = Some x) ->
     map (follow (Node k l)) (concat (map (fun ip => map (fun p => fst ip :: p) (snd ip)) (combine (seq n (length l')) (map path_to_leaf l'))))
     = map (fun m => Some (Leaf m)) (concat (map leaves l'))).
  { induction l' as [|x l' IHl]; intros n H1 H2; [reflexivity|]. cbn [length seq map combine concat fst snd].
    rewrite !map_app. rewrite IHl.
    - f_equal. rewrite map_map. rewrite <- (H1 x) by now left. apply map_ext. intros p. cbn [follow].
      specialize (H2 0 x eq_refl). rewrite Nat.add_0_r in H2. now rewrite H2.
    - intros y Hy. apply H1. now right.
    - intros i y Hy. replace (S n + i) with (n + S i) by lia. apply H2. exact Hy. }
  apply (G l 0); [exact IH|auto].
Qed.

(** ** Pruning *)
Lemma total_zero_empty ms : total_faces ms = 0 -> forall m, In m ms -> m_faces m = [].
Proof.
  induction ms as [|m ms IH]; intros H x Hx; [destruct Hx|]. rewrite total_faces_cons in H.
  destruct Hx as [<-|Hx]; [unfold nb_faces in H; destruct (m_faces m); [reflexivity|cbn in H; lia]|].
  apply IH; [lia|exact Hx].
Qed.

(** The corners of all the faces of a list of meshes, in order. *)
Definition corners (ms : list mesh) : result (list quad) :=
  bind (mapM all_points ms) (fun l => Ok (concat l)).
Lemma corners_app ms ms' : corners (ms ++ ms') = bind (corners ms) (fun a => bind (corners ms') (fun b => Ok (a ++ b))).
Proof.
  unfold corners. rewrite mapM_app. destruct (mapM all_points ms) as [x|e]; cbn [bind]; [|reflexivity].
  destruct (mapM all_points ms') as [y|e]; cbn [bind]; [|reflexivity]. now rewrite concat_app.
Qed.
Lemma corners_empty ms : (forall m, In m ms -> m_faces m = []) -> corners ms = Ok [].
Proof.
  induction ms as [|m ms IH]; intros H; [reflexivity|]. change (m :: ms) with ([m] ++ ms). rewrite corners_app.
  rewrite IH by (intros x Hx; apply H; now right). unfold corners. cbn [mapM]. unfold all_points at 1.
  rewrite (H m) by now left. reflexivity.
Qed.
Lemma pruned_empty t : all_valid t -> not_empty t = false -> forall m, In m (leaves t) -> m_faces m = [].
Proof.
  unfold not_empty. rewrite nb_faces_leaves, nb_vertices_leaves. intros Hv H m Hm. apply andb_false_iff in H.
  destruct H as [H|H]; apply Nat.ltb_ge in H.
  - apply (total_zero_empty (leaves t)); [lia|exact Hm].
  - assert (E : m_vertices m = []).
    { clear Hv. induction (leaves t) as [|x ms IH]; [destruct Hm|]. rewrite total_vertices_cons in H.
      destruct Hm as [<-|Hm]; [unfold nb_vertices in H; destruct (m_vertices x); [reflexivity|cbn in H; lia]|].
      apply IH; [lia|exact Hm]. }
    specialize (Hv m Hm). destruct (m_faces m) as [|f fs] eqn:Ef; [reflexivity|exfalso].
    specialize (Hv f (fa f)). rewrite Ef, E in Hv. specialize (Hv (or_introl eq_refl) (or_introl eq_refl)). cbn in Hv. lia.
Qed.
Lemma filter_corners l : (forall x, In x l -> all_valid x) ->
  corners (concat (map leaves (filter not_empty l))) = corners (concat (map leaves l)).
Proof.
  induction l as [|x l IH]; intros H; [reflexivity|]. cbn [filter map concat].
  rewrite corners_app, <- IH by (intros y Hy; apply H; now right).
  destruct (not_empty x) eqn:E; [cbn [map concat]; now rewrite corners_app|].
  rewrite (corners_empty (leaves x)) by (apply pruned_empty; [apply H; now left|exact E]). cbn [bind app].
  destruct (corners _); reflexivity.
Qed.
Lemma prune_corners l : (forall x, In x l -> all_valid x) ->
  corners (concat (map leaves (prune l))) = corners (concat (map leaves l)).
Proof.
  intros H. rewrite <- (filter_corners l H). unfold prune. destruct (filter not_empty l) as [|y l'] eqn:E; reflexivity.
Qed.
Lemma prune_nonempty l : prune l <> [].
Proof. unfold prune. destruct (filter not_empty l); discriminate. Qed.
