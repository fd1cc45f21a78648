From Coq Require Import Reals List Bool ZArith Arith Lia Lra.
From Verif Require Import Model_Base Model_Ring Model_Block Spec_Block Proofs_Block Proofs_Block2 Model_Geometry Proofs_Geometry
  Model_Mesh Spec_Mesh Proofs_Mesh Model_Quality Spec_Quality Model_Tree Spec_Tree Proofs_Tree Proofs_Symmetry Proofs_Tree2 Model_Engine Spec_Engine
  Proofs_Engine Proofs_Engine2 Proofs_Engine3 Proofs_Engine4 Proofs_Engine5 Proofs_Engine6.
Import ListNotations.
Open Scope nat_scope.

Lemma concatenate_total {X} (l : list (list X)) : l <> [] -> concatenate l = Ok (concat l).
Proof. destruct l; [congruence|reflexivity]. Qed.
Lemma raw_total t : filled t -> all_valid t -> exists r, t_raw t = Ok r.
Proof.
  induction t as [m|k l IH] using tree_induction; intros Hf Hv.
  - cbn [t_raw]. apply valid_mesh_raw. apply Hv. now left.
  - inversion Hf as [|k' l' Hne Hl]; subst.
    assert (E : forall x, In x l -> exists r, t_raw x = Ok r).
    { intros x Hx. apply IH; [exact Hx|now apply Hl|]. intros m Hm. apply Hv. cbn [leaves]. apply in_concat. exists (leaves x). split; [now apply in_map|exact Hm]. }
    destruct (mapM_total t_raw l E) as [rs Ers]. cbn [t_raw]. rewrite sequence_map, Ers. cbn [bind].
    exists (concat rs). apply concatenate_total. apply mapM_length in Ers. destruct l; [congruence|]. destruct rs; [discriminate|congruence].
Qed.

Lemma faced_part k l x : faced (Node k l) -> In x l -> faced x.
Proof. intros H Hx m Hm. apply H. cbn [leaves]. apply in_concat. exists (leaves x). split; [now apply in_map|exact Hm]. Qed.
Lemma faced_faces t : filled t -> faced t -> 0 < t_nb_faces t.
Proof.
  intros Hf Hb. rewrite nb_faces_leaves. assert (Hne : leaves t <> []).
  { clear Hb. induction t as [m|k l IH] using tree_induction; [discriminate|]. inversion Hf as [|k' l' Hne Hl]; subst.
    destruct l as [|x l]; [congruence|]. cbn [leaves map concat]. specialize (IH x (or_introl eq_refl) (Hl x (or_introl eq_refl))).
    destruct (leaves x); [congruence|discriminate]. }
  unfold faced in Hb. destruct (leaves t) as [|m ms]; [congruence|]. rewrite total_faces_cons. specialize (Hb m (or_introl eq_refl)). lia.
Qed.
Lemma valid_face_vertex m : valid m -> 0 < nb_faces m -> m_vertices m <> [].
Proof.
  intros Hv Hn. unfold nb_faces in Hn. destruct (m_faces m) as [|f fs] eqn:Ef; [cbn in Hn; lia|].
  assert (H : fa f < nb_vertices m) by (apply (Hv f); [rewrite Ef; now left|cbn; now left]).
  unfold nb_vertices in H. destruct (m_vertices m); [cbn in H; lia|discriminate].
Qed.
Lemma diameter_total argsort t : sorts argsort -> filled t -> all_valid t -> faced t -> exists d, diameter_of_nodes argsort t = Ok d.
Proof.
  intros Hs Hf Hv Hb. assert (E : exists m', t_merged argsort t = Ok m' /\ m_vertices m' <> []).
  { pose proof (faced_faces t Hf Hb) as Hn. destruct t as [m|k l].
    - exists m. split; [reflexivity|]. apply valid_face_vertex; [apply Hv; now left|exact Hn].
    - assert (Hnv : 0 < t_nb_vertices (Node k l)).
      { rewrite nb_faces_leaves in Hn. rewrite nb_vertices_leaves. unfold faced in Hb. unfold all_valid in Hv. destruct (leaves (Node k l)) as [|m ms].
        - cbn in Hn. lia.
        - pose proof (valid_face_vertex m (Hv m (or_introl eq_refl)) (Hb m (or_introl eq_refl))) as Hm.
          rewrite total_vertices_cons. unfold nb_vertices. destruct (m_vertices m); [congruence|cbn; lia]. }
      destruct (merged_spec argsort (Node k l) k l Hs eq_refl Hf Hv Hnv) as (m' & Em & Hv' & Hn' & _). exists m'. split; [exact Em|].
      apply valid_face_vertex; [exact Hv'|lia]. }
  destruct E as (m' & Em & Hne). unfold diameter_of_nodes. rewrite Em. cbn [bind]. unfold mean_point. destruct (m_vertices m'); [congruence|eauto].
Qed.
Lemma sequence_total {X} (l : list (result X)) : (forall x, In x l -> exists y, x = Ok y) -> exists r, sequence l = Ok r.
Proof. intros H. unfold sequence. apply mapM_total. exact H. Qed.
Lemma mapi_in {X Y} (f : nat -> X -> Y) l y : In y (mapi f l) -> exists i x, nth_error l i = Some x /\ y = f i x.
Proof.
  intros H. apply In_nth_error in H. destruct H as [i Hi]. destruct (nth_error_in_range l (mapi f l) i y (mapi_length f l) Hi) as [x Hx].
  exists i, x. split; [exact Hx|]. rewrite (mapi_nth f l i x Hx) in Hi. congruence.
Qed.

Section Total.
Context {A : coeffs}.
Variable G : bool -> panel -> panel -> A * A.
Variable argsort : list R -> list nat.
Hypothesis Hsort : sorts argsort.
Variable ACA_distance : R.
Variable aca : (nat -> result (mat A * mat A)) -> (nat -> result (mat A * mat A)) -> nat -> nat -> result (option (mat A * mat A)).
Hypothesis Haca : responsive aca.
Notation hier := (hierarchical_matrices G argsort ACA_distance aca).

Lemma far_total t1 t2 r1 r2 : t_raw t1 = Ok r1 -> t_raw t2 = Ok r2 -> faced t1 -> faced t2 ->
  exists b, far argsort ACA_distance t1 t2 = Ok b.
Proof.
  intros E1 E2 F1 F2.
  destruct (diameter_total argsort t1 Hsort (raw_filled _ _ E1) (raw_valid _ _ E1) F1) as [d1 D1].
  destruct (diameter_total argsort t2 Hsort (raw_filled _ _ E2) (raw_valid _ _ E2) F2) as [d2 D2].
  unfold far. rewrite D1, D2. cbn [bind]. destruct (match t_center t1 with Some _ => _ | None => _ end); eauto.
Qed.
Lemma evaluate_total same t1 t2 r1 r2 : t_raw t1 = Ok r1 -> t_raw t2 = Ok r2 -> exists sk, evaluate G same t1 t2 = Ok sk.
Proof. intros E1 E2. unfold evaluate. rewrite !t_panels_raw, E1, E2. cbn. eauto. Qed.
Lemma part_raw k l r x : t_raw (Node k l) = Ok r -> In x l -> exists rx, t_raw x = Ok rx.
Proof.
  intros E Hx. destruct (raw_node _ _ _ E) as (rs & Ers & _). apply In_nth_error in Hx. destruct Hx as [j Hj].
  destruct (mapM_nth _ _ _ Ers j x Hj) as (y & Ey & _). eauto.
Qed.
Lemma aca_total same t1 t2 r1 r2 : t_raw t1 = Ok r1 -> t_raw t2 = Ok r2 -> faced t1 -> faced t2 ->
  (exists sk, blocks_case G argsort ACA_distance aca same t1 t2 = Ok sk) ->
  exists sk, aca_case G argsort ACA_distance aca same t1 t2 = Ok sk.
Proof.
  intros E1 E2 F1 F2 B. unfold aca_case. destruct (far_total t1 t2 r1 r2 E1 E2 F1 F2) as [b Eb]. rewrite Eb. cbn [bind].
  destruct b; [|exact B].
  destruct (Haca (one_row G t1 t2) (one_col G t1 t2) (t_nb_faces t1) (t_nb_faces t2)) as [o Eo].
  - intros i Hi. rewrite <- (raw_length _ _ E1) in Hi. destruct (one_row_ok G t1 t2 r1 r2 i E1 E2 Hi) as (r & Er & _). eauto.
  - intros j Hj. rewrite <- (raw_length _ _ E2) in Hj. destruct (one_col_ok G t1 t2 r1 r2 j E1 E2 Hj) as (r & Er & _). eauto.
  - rewrite Eo. cbn [bind]. destruct o; [eauto|exact B].
Qed.
Lemma hier_total : forall t1, regular t1 -> faced t1 -> forall t2 same r1 r2, regular t2 -> faced t2 ->
  t_raw t1 = Ok r1 -> t_raw t2 = Ok r2 -> exists sk, hier same t1 t2 = Ok sk.
Proof.
  induction t1 as [m|k l IH] using tree_induction; intros HR1 F1 t2 same r1 r2 HR2 F2 E1 E2.
  - apply (aca_total same (Leaf m) t2 r1 r2 E1 E2 F1 F2). exact (evaluate_total same _ _ _ _ E1 E2).
  - assert (IH' : forall x1, In x1 l -> forall k2 l2, t2 = Node k2 l2 -> forall x2 same, In x2 l2 -> exists sk, hier same x1 x2 = Ok sk).
    { intros x1 Hx1 k2 l2 -> x2 s Hx2. destruct (part_raw _ _ _ _ E1 Hx1) as [a Ea]. destruct (part_raw _ _ _ _ E2 Hx2) as [b Eb].
      exact (IH x1 Hx1 (regular_parts _ _ HR1 x1 Hx1) (faced_part _ _ _ F1 Hx1) x2 s a b (regular_parts _ _ HR2 x2 Hx2) (faced_part _ _ _ F2 Hx2) Ea Eb). }
    clear IH.
    assert (T : exists sk, aca_case G argsort ACA_distance aca same (Node k l) t2 = Ok sk).
    { apply (aca_total same _ _ _ _ E1 E2 F1 F2). destruct t2 as [m2|k2 l2]; [exact (evaluate_total same _ _ _ _ E1 E2)|].
      unfold blocks_case.
      destruct (sequence_total (mapi (fun i x1 => sequence (mapi (fun j x2 => hier (same && (i =? j)) x1 x2) l2)) l)) as [ls Els].
      { intros y Hy. apply mapi_in in Hy. destruct Hy as (i & x1 & Hx1 & ->). apply sequence_total. intros z Hz.
        apply mapi_in in Hz. destruct Hz as (j & x2 & Hx2 & ->). exact (IH' x1 (nth_error_In _ _ Hx1) k2 l2 eq_refl x2 _ (nth_error_In _ _ Hx2)). }
      rewrite Els. cbn. eauto. }
    destruct k as [|p|v i|a].
    + destruct t2; exact T.
    + destruct t2 as [m2|[|q|v i|a] l2]; try exact T. cbn [hierarchical_matrices]. destruct (plane_eqb p q); [|exact T].
      destruct (regular_reflection_inv _ _ HR1) as (x1 & o1 & -> & _). destruct (regular_reflection_inv _ _ HR2) as (x2 & o2 & -> & _).
      destruct (IH' x1 (or_introl eq_refl) _ _ eq_refl x2 same (or_introl eq_refl)) as [a Ea].
      destruct (IH' x1 (or_introl eq_refl) _ _ eq_refl o2 false (or_intror (or_introl eq_refl))) as [b Eb].
      rewrite Ea, Eb. cbn. eauto.
    + destruct t2 as [m2|[|q|u i'|a] l2]; try exact T. cbn [hierarchical_matrices].
      destruct (vec_allclose v u && (length l =? length l2)); [|exact T].
      destruct (regular_translation_inv _ _ _ HR1) as (x1 & n & ->). destruct (regular_translation_inv _ _ _ HR2) as (x2 & n2 & ->).
      set (l1 := x1 :: map _ (seq 1 n)) in *. set (l2 := x2 :: map _ (seq 1 n2)) in *.
      destruct (sequence_total (mapi (fun j x2 => hier (same && (0 =? j)) x1 x2) l2)) as [up Eu].
      { intros y Hy. apply mapi_in in Hy. destruct Hy as (j & y2 & Hy2 & ->). exact (IH' x1 (or_introl eq_refl) _ _ eq_refl y2 _ (nth_error_In _ _ Hy2)). }
      rewrite Eu. cbn [bind].
      destruct (sequence_total (rev (map (fun y1 => hier false y1 x2) (map (fun i => t_translate x1 (vscale (INR i) v)) (seq 1 n))))) as [low El].
      { intros y Hy. apply in_rev in Hy. apply in_map_iff in Hy. destruct Hy as (y1 & <- & Hy1).
        exact (IH' y1 (or_intror Hy1) _ _ eq_refl x2 false (or_introl eq_refl)). }
      rewrite El. cbn. eauto.
    + destruct t2 as [m2|[|q|u i'|b] l2]; try exact T. cbn [hierarchical_matrices].
      destruct (axis_eqb a b && (length l =? length l2)); [|exact T].
      destruct (regular_axial_inv _ _ HR1) as (x1 & n & ->).
      destruct (sequence_total (mapi (fun j x2 => hier (same && (0 =? j)) x1 x2) l2)) as [bs Eu].
      { intros y Hy. apply mapi_in in Hy. destruct Hy as (j & y2 & Hy2 & ->). exact (IH' x1 (or_introl eq_refl) _ _ eq_refl y2 _ (nth_error_In _ _ Hy2)). }
      rewrite Eu. cbn. eauto.
Qed.
End Total.

(** ** Meshes built by the constructors are regular *)
Lemma unstructured_part k l x : unstructured (Node k l) -> In x l -> unstructured x.
Proof. intros H Hx q Hq. apply H. now apply (kinds_in k l x q). Qed.
Lemma unstructured_regular t : unstructured t -> regular t.
Proof.
  induction t as [m|k l IH] using tree_induction; intros H; [constructor|].
  rewrite (H k (or_introl eq_refl)). constructor. intros x Hx. apply IH; [exact Hx|exact (unstructured_part _ _ _ H Hx)].
Qed.
Lemma unstructured_node l : (forall x, In x l -> unstructured x) -> unstructured (Node Plain l).
Proof.
  intros H k [<-|Hk]; [reflexivity|]. apply in_concat in Hk. destruct Hk as (ks & Hks & Hk). apply in_map_iff in Hks.
  destruct Hks as (x & <- & Hx). exact (H x Hx k Hk).
Qed.
Lemma unstructured_translate t v : unstructured t -> unstructured (t_translate t v).
Proof.
  induction t as [m|k l IH] using tree_induction; intros H; [intros k []|].
  assert (k = Plain) by (apply H; now left). subst k. cbn [t_translate]. apply unstructured_node. intros x Hx.
  apply in_map_iff in Hx. destruct Hx as (y & <- & Hy). apply IH; [exact Hy|exact (unstructured_part _ _ _ H Hy)].
Qed.
Lemma unstructured_rotate t a th : unstructured t -> unstructured (t_rotate t a th).
Proof.
  induction t as [m|k l IH] using tree_induction; intros H; [intros k []|].
  assert (k = Plain) by (apply H; now left). subst k. cbn [t_rotate]. apply unstructured_node. intros x Hx.
  apply in_map_iff in Hx. destruct Hx as (y & <- & Hy). apply IH; [exact Hy|exact (unstructured_part _ _ _ H Hy)].
Qed.
Lemma unstructured_mirror t p : forall t', unstructured t -> t_mirror t p = Ok t' -> unstructured t'.
Proof.
  induction t as [m|k l IH] using tree_induction; intros t' H E.
  - cbn in E. apply Ok_inj' in E. subst t'. intros k [].
  - assert (k = Plain) by (apply H; now left). subst k. cbn [t_mirror bind] in E. rewrite sequence_map in E.
    destruct (mapM (fun x => t_mirror x p) l) as [l'|] eqn:El; [|discriminate]. cbn [bind] in E. apply Ok_inj' in E. subst t'.
    apply unstructured_node. intros x Hx. apply In_nth_error in Hx. destruct Hx as [j Hj].
    destruct (nth_error_in_range l l' j x (mapM_length _ _ _ El) Hj) as [y Hy]. destruct (mapM_nth _ _ _ El j y Hy) as (z & Ez & Hz).
    rewrite Hj in Hz. injection Hz as <-. exact (IH y (nth_error_In _ _ Hy) x (unstructured_part _ _ _ H (nth_error_In _ _ Hy)) Ez).
Qed.
Lemma symmetric_regular k l : symmetric (Node k l) -> (forall x, hd_error l = Some x -> unstructured x) -> k <> Plain -> regular (Node k l).
Proof.
  intros H Hx Hk. inversion H; subst; cbn [hd_error] in Hx.
  - congruence.
  - assert (U : unstructured half) by now apply Hx. constructor; [now apply unstructured_regular| |assumption].
    apply unstructured_regular. now apply (unstructured_mirror half p).
  - constructor. assert (U : unstructured slice) by now apply Hx. intros x [<-|Hi]; [now apply unstructured_regular|].
    apply in_map_iff in Hi. destruct Hi as (i & <- & _). apply unstructured_regular. now apply unstructured_translate.
  - constructor. assert (U : unstructured slice) by now apply Hx. intros x [<-|Hi]; [now apply unstructured_regular|].
    apply in_map_iff in Hi. destruct Hi as (i & <- & _). apply unstructured_regular. now apply unstructured_rotate.
Qed.
(** Two vertical planes: the usual quarter of a mesh. *)
Lemma double_reflection_regular p q quarter other t :
  unstructured quarter -> symmetric (Node (Reflection q) [quarter; other]) ->
  proper_plane p -> vz (pl_normal p) = 0%R -> positive_plane q -> positive_plane (plane_mirror q p) ->
  ReflectionSymmetricMesh (Node (Reflection q) [quarter; other]) p = Ok t -> regular t.
Proof.
  intros U Hs Hp Hz Pq Pq' E. destruct (make_reflection_symmetric _ _ _ Hs E) as [Ht [o ->]]. inversion Ht; subst.
  assert (U' : unstructured other).
  { inversion Hs; subst. now apply (unstructured_mirror quarter q). }
  constructor; [|clear E|assumption].
  - apply symmetric_regular; [exact Hs| |discriminate]. intros x Hx. injection Hx as <-. exact U.
  - assert (Ho : symmetric o).
    { apply (symmetric_mirror _ p Hs Hp Hz); [| |assumption].
      - intros a [Ha|Ha]; [discriminate|]. cbn [map concat app] in Ha. rewrite app_nil_r in Ha. apply in_app_or in Ha.
        destruct Ha as [Ha|Ha]; [apply U in Ha|apply U' in Ha]; discriminate.
      - intros q' [Ha|Ha]; [injection Ha as <-; now split|]. cbn [map concat app] in Ha. rewrite app_nil_r in Ha. apply in_app_or in Ha.
        destruct Ha as [Ha|Ha]; [apply U in Ha|apply U' in Ha]; discriminate. }
    match goal with HM : t_mirror _ p = Ok o |- _ => cbn [t_mirror bind map sequence mapM] in HM; rename HM into HM' end.
    unfold sequence in HM'. cbn [mapM] in HM'.
    destruct (t_mirror quarter p) as [qa|] eqn:Eq; [|discriminate]. cbn [bind] in HM'.
    destruct (t_mirror other p) as [qb|] eqn:Eo; [|discriminate]. cbn [bind] in HM'. apply Ok_inj' in HM'. subst o.
    apply symmetric_regular; [exact Ho| |discriminate]. intros x Hx. injection Hx as <-. exact (unstructured_mirror _ _ _ U Eq).
Qed.
