From Coq Require Import Reals List Bool Arith ZArith Lia Lra Permutation.
From Verif Require Proofs_Dataset.
From Verif Require Import Model_Base Model_Geometry Model_Mesh Model_Clip Spec_Mesh Spec_Tree Spec_Clip Model_Tree Model_Body Spec_Body
  Proofs_Geometry Proofs_Mesh Proofs_Mesh2 Proofs_Mesh3 Proofs_Clip4 Proofs_Clip5 Proofs_Integrals Proofs_Tree Proofs_Tree2 Proofs_Body
  Model_Quality Spec_Quality Model_Normals Spec_Normals Model_Grid Spec_Grid Proofs_Grid2 Proofs_Grid3 Proofs_Grid4 Proofs_Grid5 Proofs_Grid6 Proofs_Grid7
  Model_Box Spec_Box Proofs_Box Proofs_Box2 Proofs_Box3 Proofs_Box5 Model_Lid Spec_Lid Proofs_Lid Proofs_Lid3 Proofs_Lid5.
Import ListNotations.
Open Scope R_scope.

(** ** Counting *)
Definition to_quad (q : polygon) : quad := let '(a, b, c, d) := q in Q a b c d.
Lemma panels_points m panels : polygons_of m panels -> mapM (face_points (m_vertices m)) (m_faces m) = Ok (map to_quad panels).
Proof.
  unfold polygons_of. induction 1 as [|f q fs qs H F IH]; [reflexivity|]. cbn [mapM map]. rewrite IH. cbn [bind].
  destruct q as [[[a b] c] d]. destruct H as (A & B & C & D). unfold face_points, get. rewrite A, B, C, D. reflexivity.
Qed.
Lemma filter_counts {A B} (f : A -> B) (test : B -> bool) (P : A -> Prop) l : (forall x, In x l -> test (f x) = true <-> P x) -> counts P l (length (filter test (map f l))).
Proof.
  induction l as [|x l IH]; intros H; cbn [map filter]; [constructor|]. assert (IH' := IH (fun y Hy => H y (or_intror Hy))). specialize (H x (or_introl eq_refl)).
  destruct (test (f x)); cbn [length]; [apply counts_yes; [now apply H|exact IH']|apply counts_no; [|exact IH']]. intros X. apply H in X. discriminate.
Qed.
Lemma counts_unique {A} (P : A -> Prop) l n n' : counts P l n -> counts P l n' -> n = n'.
Proof. intros C. revert n'. induction C; intros n' D; inversion D; subst; try contradiction; auto. Qed.
Lemma needs_inside panels p : (forall q, In q panels -> seen_well q) -> needs_lid (map to_quad panels) p = true <-> inside panels p.
Proof.
  intros H. unfold needs_lid. assert (C : counts (counted p) panels (length (filter (is_above_panel p) (map to_quad panels)))).
  { apply filter_counts. intros q Hq. specialize (H q Hq). destruct q as [[[a b] c] d]. now apply above_counted. }
  split; [intros O; eexists; split; [exact C|exact O]|]. intros (n & Cn & O). now rewrite (counts_unique _ _ _ _ C Cn).
Qed.

(** ** Keeping some faces *)
Lemma kept_filter {A} (t : A -> bool) (P : A -> Prop) l : (forall x, In x l -> t x = true <-> P x) -> kept P l (filter t l).
Proof.
  induction l as [|x l IH]; intros H; cbn [filter]; [constructor|]. assert (IH' := IH (fun y Hy => H y (or_intror Hy))). specialize (H x (or_introl eq_refl)).
  destruct (t x); [apply kept_yes; [now apply H|exact IH']|apply kept_no; [|exact IH']]. intros X. apply H in X. discriminate.
Qed.
Lemma kept_map {A B} (f : A -> B) (P : B -> Prop) l l' : kept (fun x => P (f x)) l l' -> kept P (map f l) (map f l').
Proof. induction 1; cbn [map]; [constructor|now apply kept_yes|now apply kept_no]. Qed.
Lemma filter_f2 {A B} (R : A -> B -> Prop) (t : A -> bool) (t' : B -> bool) l l' : Forall2 R l l' -> (forall a b, In a l -> R a b -> t a = t' b) -> Forall2 R (filter t l) (filter t' l').
Proof.
  induction 1 as [|a b l l' H F IH]; intros E; cbn [filter]; [constructor|]. rewrite (E a b (or_introl eq_refl) H).
  assert (IH' := IH (fun x y Hx => E x y (or_intror Hx))). destruct (t' b); [now constructor|exact IH'].
Qed.
Lemma f2_compose {A B C} (R : A -> B -> Prop) (S : B -> C -> Prop) (T : A -> C -> Prop) l l' l'' : Forall2 R l l' -> Forall2 S l' l'' -> (forall a b c, R a b -> S b c -> T a c) -> Forall2 T l l''.
Proof. intros F. revert l''. induction F; intros l'' G H0; inversion G; subst; constructor; eauto. Qed.
Lemma f2_flip {A B} (R : A -> B -> Prop) l l' : Forall2 R l l' -> Forall2 (fun b a => R a b) l' l.
Proof. induction 1; constructor; auto. Qed.

(** ** Unused vertices *)
Lemma unused_same m m1 argsort hn : remove_unused m = Ok m1 -> all_used m1 -> heal_leaf argsort hn true m = heal_leaf argsort hn true m1.
Proof.
  intros E U. unfold heal_leaf. rewrite E. cbn [bind]. unfold remove_unused. rewrite (all_used_seq m1 U), seq_length, (Nat.ltb_irrefl (nb_vertices m1)). reflexivity.
Qed.
Lemma unused_nodup m m1 : NoDup (m_vertices m) -> remove_unused m = Ok m1 -> NoDup (m_vertices m1).
Proof.
  intros N. unfold remove_unused. set (used := used_vertices (nb_vertices m) (m_faces m)). destruct (Nat.ltb _ _); [|intros E; apply Ok_inj' in E; now subst].
  destruct (mapM (get (m_vertices m)) used) as [vs|] eqn:Ev; [|discriminate]. cbn [bind]. intros E. apply Ok_inj' in E. subst m1. cbn [m_vertices].
  assert (Nu : NoDup used) by apply used_vertices_NoDup. clearbody used. revert vs Ev. induction Nu as [|i l Hi Nl IH]; intros vs Ev; cbn [mapM] in Ev; [apply Ok_inj' in Ev; subst; constructor|].
  destruct (get (m_vertices m) i) as [v|] eqn:Gi; [|discriminate]. cbn [bind] in Ev. destruct (mapM (get (m_vertices m)) l) as [vs'|] eqn:Em; [|discriminate]. cbn [bind] in Ev.
  apply Ok_inj' in Ev. subst vs. constructor; [|now apply IH]. intros Hv. apply In_nth_error in Hv. destruct Hv as [k Hk].
  apply mapM_ok in Em. destruct Em as [L H]. destruct (nth_error l k) as [j|] eqn:Ej; [|apply nth_error_None in Ej; assert (nth_error vs' k <> None) by congruence; apply nth_error_Some in H0; lia].
  destruct (H k j Ej) as (v' & Gj & Hv'). apply get_ok in Gj. apply get_ok in Gi. rewrite Hk in Hv'. injection Hv' as <-.
  assert (i = j) by (apply (proj1 (NoDup_nth_error (m_vertices m)) N); [apply nth_error_Some; congruence|congruence]). subst j. apply Hi. now apply nth_error_In in Ej.
Qed.
Lemma corners_face_is m k f a b c d : nth_error (m_faces m) k = Some f -> corners_at (m_vertices m) f (a, b, c, d) -> face_is m k a b c d.
Proof.
  intros Hf (A & B & C & D). exists f. repeat split; assumption.
Qed.
Lemma face_is_corners m k f a b c d : nth_error (m_faces m) k = Some f -> face_is m k a b c d -> corners_at (m_vertices m) f (a, b, c, d).
Proof.
  intros Hf (f' & Hf' & P). rewrite Hf in Hf'. injection Hf' as <-. exact P.
Qed.
Lemma unused_carried m qs : valid m -> NoDup (m_vertices m) -> (exists qs', polygons_of m qs' /\ Forall2 same_polygon qs qs') ->
  exists m1, remove_unused m = Ok m1 /\ carried m1 qs.
Proof.
  intros Vm N (qs' & P & S). destruct (remove_unused_spec m Vm) as (m1 & E & V1 & U1 & L & F & _). exists m1. split; [exact E|].
  split; [exact V1|]. split; [exact U1|]. split; [now apply (unused_nodup m)|]. exists qs'. split; [|exact S].
  destruct (polygons_exist m1 V1) as (qs1 & P1). enough (qs1 = qs') as <- by exact P1.
  assert (Ll : length qs1 = length qs').
  { apply Proofs_Dataset.f2_length in P. apply Proofs_Dataset.f2_length in P1. unfold nb_faces in L. lia. }
  clear S. apply list_ext. intros k. destruct (nth_error qs' k) as [q|] eqn:Ek.
  - destruct (f2_at' _ _ _ _ _ P Ek) as (f & Hf & C). destruct q as [[[a b] c] d]. pose proof (F k a b c d (corners_face_is m k f a b c d Hf C)) as F1.
    destruct (nth_error qs1 k) as [q1|] eqn:E1; [|apply nth_error_None in E1; assert (nth_error qs' k <> None) by congruence; apply nth_error_Some in H; lia].
    destruct (f2_at' _ _ _ _ _ P1 E1) as (f1 & Hf1 & C1). pose proof (face_is_corners m1 k f1 a b c d Hf1 F1) as C2. destruct q1 as [[[a1 b1] c1] d1].
    destruct C1 as (A1 & A2 & A3 & A4), C2 as (B1 & B2 & B3 & B4). congruence.
  - apply nth_error_None in Ek. apply (proj2 (nth_error_None _ _)). lia.
Qed.

(** ** The selected faces *)
Lemma face_kept (test : vec -> bool) vs f q : corners_at vs f q -> lid_face (positions test vs) f = forallb test (polygon_corners q).
Proof.
  destruct q as [[[a b] c] d]. intros (A & B & C & D). unfold lid_face, face_ids. cbn [polygon_corners forallb].
  assert (G : forall i v, nth_error vs i = Some v -> memb i (positions test vs) = test v).
  { intros i v Hv. apply eq_true_iff_eq. rewrite Proofs_Mesh.memb_In, Proofs_Mesh2.positions_In. split; [intros (x & Hx & Tx); congruence|intros Tv; now exists v]. }
  now rewrite (G _ _ A), (G _ _ B), (G _ _ C), (G _ _ D).
Qed.
Lemma same_forallb (test : vec -> bool) q q' : same_polygon q q' -> forallb test (polygon_corners q') = forallb test (polygon_corners q).
Proof.
  destruct q as [[[a b] c] d]. intros [->|[->|[->| ->]]]; cbn [polygon_corners forallb]; destruct (test a), (test b), (test c), (test d); reflexivity.
Qed.
Lemma select_faces (test : vec -> bool) m qs : carried m qs ->
  let faces := filter (lid_face (positions test (m_vertices m))) (m_faces m) in
  let kept := filter (fun q => forallb test (polygon_corners q)) qs in
  length faces = length kept /\ valid (Mesh (m_vertices m) faces) /\ NoDup (m_vertices m)
  /\ exists qs', polygons_of (Mesh (m_vertices m) faces) qs' /\ Forall2 same_polygon kept qs'.
Proof.
  intros (Vm & _ & N & qs' & P & S). cbn zeta.
  assert (F : Forall2 (fun f q => exists q', corners_at (m_vertices m) f q' /\ same_polygon q q') (m_faces m) qs).
  { apply (f2_compose _ _ _ _ _ _ P (f2_flip _ _ _ S)). intros f q' q C E. now exists q'. }
  assert (F' := filter_f2 _ (lid_face (positions test (m_vertices m))) (fun q => forallb test (polygon_corners q)) _ _ F).
  assert (F2 : forall f q, In f (m_faces m) -> (exists q', corners_at (m_vertices m) f q' /\ same_polygon q q') ->
    lid_face (positions test (m_vertices m)) f = forallb test (polygon_corners q)).
  { intros f q _ (q' & C & E). rewrite (face_kept test _ f q' C). now apply same_forallb. }
  specialize (F' F2). clear F F2 P S. split; [now apply Proofs_Dataset.f2_length in F'|]. split.
  { intros f i Hf Hi. cbn [m_faces m_vertices] in *. apply filter_In in Hf. now apply (Vm f i). }
  split; [exact N|]. unfold polygons_of. cbn [m_faces m_vertices].
  induction F' as [|f q fs qs0 (q' & C & E) F' (qs1 & P1 & S1)]; [exists []; split; constructor|]. exists (q' :: qs1). split; now constructor.
Qed.
Lemma filter_keys {A B} (f : A -> B) (t : B -> bool) l : filter t (map f l) = map f (filter (fun x => t (f x)) l).
Proof. induction l as [|x l IH]; [reflexivity|]. cbn [map filter]. destruct (t (f x)); cbn [map]; now rewrite IH. Qed.
Lemma filter_permutation {A} (t : A -> bool) l l' : Permutation l l' -> Permutation (filter t l) (filter t l').
Proof.
  induction 1 as [|x l l' P IH|x y l|l l' l'' P IH P' IH']; cbn [filter]; [constructor|destruct (t x); [now constructor|exact IH]| |etransitivity; eassumption].
  destruct (t x), (t y); try reflexivity. constructor.
Qed.

Lemma ceil_count w a n : 0 < a -> ceil (w / a) = Z.of_nat n -> w <= INR n * a < w + a.
Proof.
  intros Ha E. destruct (ceil_spec (w / a)) as [A B]. rewrite E, <- INR_IZR_INZ in A, B. assert (X : w = w / a * a) by (field; lra). set (x := w / a) in *. clearbody x. subst w. nra.
Qed.
Lemma refined_counts w t r nx ny : 0 < r -> refined t w 5 5 (Some r) = Ok (Z.of_nat ny, Z.of_nat nx) -> lid_counts w t r nx ny.
Proof.
  intros Hr. unfold refined, lid_counts. cbn zeta. rewrite (Rplus_comm (w / 5 * (w / 5))). assert (0 < sqrt 2 * r) by (apply Rmult_lt_0_compat; [apply sqrt_lt_R0; lra|exact Hr]).
  destruct (Rltb r _) eqn:E; [apply Rltb_true in E|apply Rltb_false in E].
  - destruct (Reqb r 0); [discriminate|]. intros X. apply Ok_inj' in X. injection X as X1 X2. right. split; [exact E|]. split; now apply ceil_count.
  - intros X. apply Ok_inj' in X. left. split; [exact E|]. injection X as X1 X2. lia.
Qed.

Section Lid.
  Variable argsort : list R -> list nat.
  Hypothesis Hs : sorts argsort.
  Variable set_order : list nat -> list nat.
  Hypothesis Ho : forall l, Permutation l (set_order l).

  Section Sizes.
    Variables (x0 x1 y0 y1 z : R) (nx ny : nat).
    Hypotheses (Nx : (0 < nx)%nat) (Ny : (0 < ny)%nat).
    Notation w := (11 / 10 * (x1 - x0)). Notation t := (11 / 10 * (y1 - y0)).
    Hypotheses (Dx : / 1000000 <= w / INR nx) (Dy : / 1000000 <= t / INR ny).
    Notation c := (V ((x1 + x0) / 2) ((y1 + y0) / 2) (z + 1 / 2)).
    Notation P := (box_node c w t 1 nx ny 1). Notation keyed := (keyed c w t 1 nx ny 1).
    Notation node := (lid_node x0 x1 y0 y1 z nx ny).
    Definition lid_keys : list panel_key := flat_map (fun i => map (fun j => (BottomSide, i, j)) (seq 0 ny)) (seq 0 nx).
    Lemma node_P i j : P (i, j, 0%nat) = node i j.
    Proof.
      assert (INR nx <> 0) by (apply not_0_INR; lia). assert (INR ny <> 0) by (apply not_0_INR; lia).
      unfold box_node, lid_node. apply vec_ext; cbn [vadd vx vy vz]; cbn [INR]; field; assumption.
    Qed.
    Lemma keyed_cell i j : keyed (BottomSide, i, j) = cell node i j.
    Proof. unfold Proofs_Box2.keyed, Proofs_Box.gpanel. cbn [side_panel placed]. unfold cell. now rewrite !node_P. Qed.
    Lemma lid_keys_cells : map keyed lid_keys = cells node nx ny.
    Proof.
      unfold lid_keys, cells. generalize (seq 0 nx). intros l. induction l as [|i l IH]; [reflexivity|]. cbn [flat_map]. etransitivity; [apply map_app|]. f_equal; [|exact IH]. rewrite map_map.
      apply map_ext. intros j. apply keyed_cell.
    Qed.
    Notation rkeys := (rect_keys nx ny 1 BottomSide).
    Lemma in_lid_keys k : In k lid_keys <-> in_range nx ny 1 k /\ skey k = BottomSide.
    Proof.
      unfold lid_keys. rewrite in_flat_map. destruct k as [[s i] j]. unfold skey, in_range. cbn [fst]. split.
      - intros (i' & Hi & H). apply in_map_iff in H. destruct H as (j' & E & Hj). apply in_seq in Hi, Hj. injection E as <- <- <-. cbn [side_count fst snd]. split; [lia|reflexivity].
      - intros ((Hi & Hj) & ->). cbn [side_count fst snd] in *. exists i. split; [apply in_seq; lia|]. apply in_map_iff. exists j. split; [reflexivity|apply in_seq; lia].
    Qed.
    Lemma nodup_lid_keys : NoDup lid_keys.
    Proof.
      unfold lid_keys. apply nodup_flat_in; [apply seq_NoDup| |].
      - intros i Hi. apply NoDup_map_in; [|apply seq_NoDup]. intros x y _ _ E. congruence.
      - intros a b x Ia Ib Ha Hb. apply in_map_iff in Ha, Hb. destruct Ha as (j & <- & Hj), Hb as (j' & E & Hj'). congruence.
    Qed.
    Lemma keys_permutation : Permutation lid_keys rkeys.
    Proof. apply NoDup_Permutation; [apply nodup_lid_keys|apply nodup_rect_keys; lia|]. intros k. rewrite in_lid_keys. symmetry. apply in_rect_keys; lia. Qed.
    Lemma rkeys_same : Forall2 same_polygon (map keyed rkeys) (cells (fun i j => node (nx - j) i) ny nx).
    Proof.
      unfold rect_keys, cells. cbn [rect_count fst snd].
      assert (G : forall n a, Forall2 same_polygon (map keyed (flat_map (fun i => map (rect_key nx ny BottomSide i) (seq 0 nx)) (seq a n)))
        (flat_map (fun i => map (cell (fun i j => node (nx - j) i) i) (seq 0 nx)) (seq a n))).
      { induction n as [|n IH]; intros a; cbn [seq flat_map]; [constructor|]. rewrite map_app. apply Forall2_app; [|apply IH]. rewrite map_map.
        assert (J : forall j, In j (seq 0 nx) -> (j < nx)%nat) by (intros j Hj; apply in_seq in Hj; lia). revert J. generalize (seq 0 nx). intros l J.
        induction l as [|j l IHl]; cbn [map]; constructor; [|apply IHl; intros; apply J; now right]. specialize (J j (or_introl eq_refl)).
        cbn [rect_key]. rewrite keyed_cell. unfold cell. replace (S (nx - 1 - j)) with (nx - j)%nat by lia. replace (nx - S j)%nat with (nx - 1 - j)%nat by lia. cbn [same_polygon]. tauto. }
      apply G.
    Qed.
    Lemma candidate_carried m l : (l e_y, l e_z) = side_dirs BottomSide ->
      carried m (cells (rectangle_node (V ((x1 + x0) / 2) ((y1 + y0) / 2) z) (l e_y) (l e_z) t w ny nx) ny nx) -> carried m (map keyed rkeys).
    Proof.
      cbn [side_dirs]. intros E C. assert (E1 : l e_y = e_y) by congruence. assert (E2 : l e_z = V (-1) 0 0) by congruence. rewrite E1, E2 in C.
      apply (carried_same m _ _ C). rewrite (cells_ext _ (fun i j => node (nx - j) i)); [apply rkeys_same|]. intros i j Hi Hj.
      assert (INR nx <> 0) by (apply not_0_INR; lia). assert (INR ny <> 0) by (apply not_0_INR; lia).
      unfold rectangle_node, lid_node. rewrite minus_INR by lia. apply vec_ext; cbn [vadd vscale vx vy vz e_y]; field; repeat split; assumption.
    Qed.
    Lemma side_area_bottom : side_area w t 1 nx ny 1 BottomSide = w / INR nx * (t / INR ny).
    Proof. reflexivity. Qed.
    (** The faces of the candidate whose corners all pass the test, in a healed mesh. *)
    Lemma healed_selection (test : vec -> bool) m : carried m (map keyed rkeys) ->
      let faces := filter (lid_face (positions test (m_vertices m))) (m_faces m) in
      let qs := filter (fun q => forallb test (polygon_corners q)) (cells node nx ny) in
      length faces = length qs
      /\ (qs <> [] -> exists m1 m', build_mesh (m_vertices m) faces = Ok m1 /\ heal_leaf argsort (heal_normals set_order) true m1 = Ok m'
           /\ valid m' /\ all_used m' /\ NoDup (m_vertices m') /\ made_of (Leaf m') qs
           /\ exists ps, faces_props m' = Ok ps /\ Forall (panel_is (w / INR nx * (t / INR ny)) (sqrt (w / INR nx * (w / INR nx) + t / INR ny * (t / INR ny)) / 2) (V 0 0 (-1))) ps).
    Proof.
      intros C. cbn zeta. destruct (select_faces test m _ C) as (L & Vs & N & qs' & Pq & Sq). rewrite filter_keys in L, Sq.
      set (ks := filter (fun k => forallb test (polygon_corners (keyed k))) rkeys) in *.
      assert (Pk : Permutation (filter (fun k => forallb test (polygon_corners (keyed k))) lid_keys) ks) by (apply filter_permutation, keys_permutation).
      rewrite <- lid_keys_cells, filter_keys. split; [rewrite L, !map_length; symmetry; now apply Permutation_length|]. intros Ne.
      exists (Mesh (m_vertices m) (filter (lid_face (positions test (m_vertices m))) (m_faces m))).
      destruct (unused_carried _ _ Vs N (ex_intro _ qs' (conj Pq Sq))) as (m1 & E1 & C1).
      destruct (heal_keyed argsort Hs set_order Ho w t 1 nx ny 1) with (c := c) (m := m1) (ks := ks) (A := w / INR nx * (t / INR ny)) as (m' & E' & C');
        try assumption; try lia; try (cbn [INR]; lra).
      { apply NoDup_filter. apply nodup_rect_keys; lia. }
      { intros k Hk. apply filter_In in Hk. destruct Hk as [Hk _]. apply in_rect_keys in Hk; [|lia..]. apply Hk. }
      { intros X. rewrite X in Pk. apply Permutation_sym, Permutation_nil in Pk. rewrite Pk in Ne. now apply Ne. }
      { intros k Hk. apply filter_In in Hk. destruct Hk as [Hk _]. apply in_rect_keys in Hk; [|lia..]. destruct Hk as [_ ->]. rewrite side_area_bottom.
        assert (0 < w / INR nx * (t / INR ny)) by (apply Rmult_lt_0_compat; lra). lra. }
      exists m'. split; [apply build_mesh_ok; split; [reflexivity|exact Vs]|]. split; [rewrite (unused_same _ m1 _ _ E1); [exact E'|apply C1]|].
      split; [apply C'|]. split; [apply C'|]. split; [apply C'|].
      assert (Cs : Forall2 carried (leaves (Leaf m')) [map keyed ks]) by (constructor; [exact C'|constructor]).
      split; [apply (made_carried _ _ _ Cs); cbn [concat]; rewrite app_nil_r; now apply Permutation_map|].
      destruct C' as (V' & U' & N' & qs1 & P1 & S1). exists (map face_of qs1). split; [now apply leaf_props|]. apply Forall_forall. intros p Hp. apply in_map_iff in Hp. destruct Hp as (q & <- & Hq).
      destruct (f2_in_right _ _ _ _ S1 Hq) as (q0 & H0 & Sq0). apply in_map_iff in H0. destruct H0 as (k & <- & Hk). apply filter_In in Hk. destruct Hk as [Hk _].
      apply in_rect_keys in Hk; [|lia..]. destruct Hk as [_ Hk].
      assert (K := keyed_props c w t 1 nx ny 1 Nx Ny ltac:(lia) Dx Dy ltac:(cbn [INR]; lra) k q Sq0). rewrite Hk in K. cbn [side_panel_is side_edges side_normal] in K. apply K.
    Qed.
  End Sizes.

  Lemma bounds_array coord vs a b : bounds coord vs a b -> array_min (map coord vs) = Ok a /\ array_max (map coord vs) = Ok b.
  Proof.
    intros ((va & Ia & Ea) & (vb & Ib & Eb) & B).
    assert (Ne : map coord vs <> []) by (destruct vs; [destruct Ia|discriminate]).
    destruct (array_min_spec _ Ne) as (x & Ex & Ix & Lx). destruct (array_max_spec _ Ne) as (y & Ey & Iy & Ly).
    rewrite Ex, Ey. apply in_map_iff in Ix, Iy. destruct Ix as (vx' & Evx & Hx), Iy as (vy' & Evy & Hy).
    split; f_equal; apply Rle_antisym; subst; try (now apply B); [apply Lx|apply Ly]; now apply in_map.
  Qed.
  Lemma radius_wanted hull rad r : wanted_radius hull rad r -> (match rad with Some r => Ok r | None => mean_radius hull end) = Ok r.
  Proof. intros [->|(-> & ps & E & ->)]; [reflexivity|]. unfold mean_radius. now rewrite E. Qed.

  Theorem generate_lid_ok m z rad hull ids panels x0 x1 y0 y1 r :
    clip argsort (level_plane z) vicinity m = Ok (hull, ids) -> nb_faces hull <> 0%nat ->
    polygons_of hull panels -> (forall q, In q panels -> seen_well q) ->
    bounds vx (m_vertices hull) x0 x1 -> bounds vy (m_vertices hull) y0 y1 -> / 200000 <= x1 - x0 -> / 200000 <= y1 - y0 ->
    wanted_radius hull rad r -> / 500000 <= r ->
    exists nx ny lid qs, lid_counts (11 / 10 * (x1 - x0)) (11 / 10 * (y1 - y0)) r nx ny
      /\ generate_lid argsort set_order m z rad = Ok lid
      /\ kept (fun q => forall p, In p (polygon_corners q) -> inside panels p) (cells (lid_node x0 x1 y0 y1 z nx ny) nx ny) qs
      /\ (qs = [] -> lid = Mesh [] [])
      /\ valid lid /\ all_used lid /\ NoDup (m_vertices lid) /\ made_of (Leaf lid) qs
      /\ exists ps, faces_props lid = Ok ps /\ Forall (fun p => p_normal p = V 0 0 (-1) /\ p_radius p <= r
           /\ p_area p = 11 / 10 * (x1 - x0) / INR nx * (11 / 10 * (y1 - y0) / INR ny)) ps.
  Proof.
    intros Ec Nf Pp Sw Bx By Hx Hy Wr Hr. set (w := 11 / 10 * (x1 - x0)). set (t := 11 / 10 * (y1 - y0)).
    destruct (refined_radius t w 5 5 r) as (ny' & nx' & Er & Py & Px & Hd & Cy & Cx); unfold w, t; try lra; try lia.
    assert (S2 : 1 <= sqrt 2) by (rewrite <- sqrt_1 at 1; apply sqrt_le_1_alt; lra).
    assert (Sr : / 1000000 <= sqrt 2 * r / 2) by nra.
    assert (Hw' : / 1000000 <= w / IZR nx') by (unfold w in *; destruct Cx as [C|[C| ->]]; lra).
    assert (Hh' : / 1000000 <= t / IZR ny') by (unfold t in *; destruct Cy as [C|[C| ->]]; lra).
    destruct (Z_of_nat_complete nx') as (nx & ->); [lia|]. destruct (Z_of_nat_complete ny') as (ny & ->); [lia|].
    assert (Cn := refined_counts w t r nx ny ltac:(lra) Er).
    assert (Nx : (0 < nx)%nat) by lia. assert (Ny : (0 < ny)%nat) by lia. rewrite <- !INR_IZR_INZ in *.
    destruct (grid_rectangle_ok t w ny nx Ny Nx Hh' Hw') as (g & Eg & _).
    destruct (finish_leaf argsort Hs set_order Ho t w ny nx Ny Nx Hh' Hw' (V ((x1 + x0) / 2) ((y1 + y0) / 2) z) (V 0 0 (-1)) g Eg) as (l & cm & Ef & _ & Tu & C).
    { exact (side_unit BottomSide). } { exact (side_alignable BottomSide). }
    apply (side_turns l BottomSide) in Tu.
    apply (candidate_carried x0 x1 y0 y1 z nx ny Nx Ny cm l Tu) in C.
    assert (Ecan : candidate_lid argsort set_order hull z rad = Ok cm).
    { unfold candidate_lid. destruct (bounds_array _ _ _ _ Bx) as [-> ->]. destruct (bounds_array _ _ _ _ By) as [-> ->]. cbn [bind]. rewrite (radius_wanted _ _ _ Wr). cbn [bind].
      unfold mesh_rectangle. fold w t. assert (rectangle_checks t w 5 5 = true) as ->.
      { unfold rectangle_checks. rewrite !(proj2 (Rltb_true _ _)) by (unfold w, t; lra). reflexivity. }
      cbn [negb]. fold w t in Er. rewrite Er. cbn [bind andb]. rewrite Eg. cbn [bind]. rewrite Ef. reflexivity. }
    set (test := needs_lid (map to_quad panels)).
    destruct (healed_selection x0 x1 y0 y1 z nx ny Nx Ny Hw' Hh' test cm C) as (L & Hl). cbn zeta in Hl.
    set (qs := filter (fun q => forallb test (polygon_corners q)) (cells (lid_node x0 x1 y0 y1 z nx ny) nx ny)) in *.
    assert (K : kept (fun q => forall p, In p (polygon_corners q) -> inside panels p) (cells (lid_node x0 x1 y0 y1 z nx ny) nx ny) qs).
    { apply kept_filter. intros q _. rewrite forallb_forall. split; intros H p Hp; apply (needs_inside panels p Sw); now apply H. }
    assert (Eq : generate_lid argsort set_order m z rad =
      if (length (filter (lid_face (positions test (m_vertices cm))) (m_faces cm)) =? 0)%nat then Ok (Mesh [] []) else
      bind (build_mesh (m_vertices cm) (filter (lid_face (positions test (m_vertices cm))) (m_faces cm))) (heal_leaf argsort (heal_normals set_order) true)).
    { unfold generate_lid. rewrite Ec. cbn [bind fst]. apply Nat.eqb_neq in Nf. rewrite Nf, Ecan. cbn [bind]. rewrite (panels_points hull panels Pp). reflexivity. }
    rewrite L in Eq. exists nx, ny. destruct qs as [|q0 qs0] eqn:Eqs.
    - exists (Mesh [] []), []. split; [exact Cn|]. split; [exact Eq|]. split; [exact K|]. split; [reflexivity|].
      split; [intros f i []|]. split; [intros i Hi; cbn in Hi; lia|]. split; [constructor|]. split.
      + exists [], []. split; [exists [[]]; split; [repeat constructor|reflexivity]|]. split; constructor.
      + exists []. split; [reflexivity|constructor].
    - destruct (Hl ltac:(discriminate)) as (m1 & m' & Eb & Eh & V' & U' & N' & M' & ps & Ep & Fp). rewrite Eb in Eq. cbn [length Nat.eqb bind] in Eq.
      exists m', (q0 :: qs0). split; [exact Cn|]. split; [rewrite Eq; exact Eh|]. split; [exact K|]. split; [discriminate|].
      split; [exact V'|]. split; [exact U'|]. split; [exact N'|]. split; [exact M'|]. exists ps. split; [exact Ep|].
      eapply Forall_impl; [|exact Fp]. intros p (A & Nn & Ra). split; [exact Nn|]. split; [|exact A].
      rewrite Ra. fold w t. fold w t in Hd. rewrite Rplus_comm. exact Hd.
  Qed.
End Lid.
