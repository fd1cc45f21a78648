From Coq Require Import Reals List Bool Arith ZArith Lia Lra Permutation.
From Verif Require Import Model_Base Model_Geometry Model_Mesh Model_Clip Spec_Mesh Spec_Tree Spec_Clip Model_Tree Model_Body Spec_Body
  Proofs_Geometry Proofs_Mesh Proofs_Mesh2 Proofs_Mesh3 Proofs_Clip4 Proofs_Clip5 Proofs_Integrals Proofs_Tree Proofs_Tree2 Proofs_Body
  Model_Quality Spec_Quality Model_Grid Spec_Grid Proofs_Grid2 Proofs_Grid3 Proofs_Grid5 Model_Lid Spec_Lid Proofs_Lid Proofs_Lid3 Proofs_Lid5 Proofs_Lid6.
Import ListNotations.
Open Scope R_scope.

(** ** Nothing to cut *)
Lemma clip_below argsort z m A : valid m -> all_used m -> m_faces m <> [] -> (forall k a b c d, face_is m k a b c d -> well_sized A (a, b, c, d)) ->
  (forall v, In v (m_vertices m) -> Rabs (vz v - z) < vicinity \/ vz v - z < - vicinity) -> clip argsort (level_plane z) vicinity m = Ok (m, seq 0 (nb_faces m)).
Proof.
  intros Vm Um Fm Am Bm.
  assert (Nv : m_vertices m <> []).
  { destruct (m_faces m) as [|f fs] eqn:Ef; [contradiction|]. intros E0.
    assert (H : (fa f < length (m_vertices m))%nat) by (apply (Vm f); [rewrite Ef; now left|now left]). rewrite E0 in H. cbn in H. lia. }
  assert (Vp : 0 < vicinity) by (unfold vicinity; lra).
  assert (Ds : forall v, distance_to_point (level_plane z) v = vz v - z) by (intros v; unfold distance_to_point, level_plane, dot; cbn; ring).
  assert (Sd : forall v, In v (m_vertices m) -> is_above (side_of vicinity (distance_to_point (level_plane z) v)) = false
     /\ is_below (side_of vicinity (distance_to_point (level_plane z) v)) || is_on (side_of vicinity (distance_to_point (level_plane z) v)) = true).
  { intros v Hv. rewrite Ds. unfold side_of. destruct (Bm v Hv) as [H|H].
    - assert (Rltb vicinity (vz v - z) = false) as -> by (apply Rltb_false; apply Rabs_def2 in H; lra). rewrite (proj2 (Rltb_true _ _) H). split; reflexivity.
    - assert (Rltb vicinity (vz v - z) = false) as -> by (apply Rltb_false; lra). destruct (Rltb (Rabs _) _); [split; reflexivity|]. rewrite (proj2 (Rltb_true _ _) H). split; reflexivity. }
  unfold clip. cbn zeta.
  assert (count is_above (map (side_of vicinity) (map (distance_to_point (level_plane z)) (m_vertices m))) = 0%nat) as ->.
  { unfold count. rewrite map_map. clear - Sd. induction (m_vertices m) as [|v l IH]; [reflexivity|]. cbn [map filter]. destruct (Sd v (or_introl eq_refl)) as [-> _]. apply IH. intros u Hu. apply Sd. now right. }
  assert (count (fun s => is_below s || is_on s) (map (side_of vicinity) (map (distance_to_point (level_plane z)) (m_vertices m))) = nb_vertices m) as ->.
  { unfold count, nb_vertices. rewrite map_map. clear - Sd. induction (m_vertices m) as [|v l IH]; [reflexivity|]. cbn [map filter]. destruct (Sd v (or_introl eq_refl)) as [_ ->]. cbn [length]. f_equal. apply IH. intros u Hu. apply Sd. now right. }
  assert ((0 =? nb_vertices m)%nat = false) as -> by (apply Nat.eqb_neq; unfold nb_vertices; destruct (m_vertices m); [contradiction|discriminate]).
  rewrite Nat.eqb_refl. unfold Model_Clip.finish, remove_unused. rewrite (all_used_seq m Um), seq_length, (Nat.ltb_irrefl (nb_vertices m)). cbn [bind].
  destruct (polygons_exist m Vm) as [qs Hq].
  assert (Sz : forall q, In q qs -> well_sized A q).
  { intros [[[a b] c] d] Hi. apply In_nth_error in Hi. destruct Hi as [k Hk]. apply (Am k). exact (polygons_face m qs k _ Hq Hk). }
  pose proof (leaf_props m qs Hq) as Hp. pose proof (polygons_length m qs Hq) as Lq.
  assert (Nq : qs <> []) by (intros ->; cbn in Lq; destruct (m_faces m) eqn:E; [contradiction|unfold nb_faces in Lq; rewrite E in Lq; discriminate]).
  assert (HA : 0 <= A).
  { destruct qs as [|q qs']; [contradiction|]. pose proof (sized_area A q (Sz q (or_introl eq_refl))). lra. }
  unfold remove_degenerated. assert (E : Rltb 0 (/ 100000) = true) by (apply Rltb_true; lra). rewrite E, Hp. cbn [negb bind].
  rewrite filter_combine_all.
  2:{ rewrite map_length. symmetry. exact Lq. }
  2:{ intros [f x] Hx. apply in_combine_r in Hx. apply in_map_iff in Hx. destruct Hx as (q & <- & Hi). apply negb_true_iff, Rltb_false. cbn [snd].
      pose proof (sized_area A q (Sz q Hi)).
      assert (Rsum (map p_area (map face_of qs)) / INR (length (map face_of qs)) <= A).
      { rewrite map_map, map_length, <- (map_length (fun q => p_area (face_of q))). apply mean_bound; [exact HA| |].
        - intros y Hy. apply in_map_iff in Hy. destruct Hy as (q' & <- & Hq'). pose proof (sized_area A q' (Sz q' Hq')). lra.
        - destruct qs; [contradiction|discriminate]. }
      lra. }
  cbn [bind]. now replace (Mesh (m_vertices m) (m_faces m)) with m by now destruct m.
Qed.

(** ** A hull with a keel *)
Definition keel : mesh :=
  Mesh [V (-1) (-1) 0; V (-1) 1 0; V 0 1 (-1); V 0 (-1) (-1); V 1 (-1) 0; V 1 1 0]
       [F 0 1 2 3; F 3 2 5 4; F 0 3 4 0; F 1 5 2 1].
Definition keel_panels : list polygon :=
  [(V (-1) (-1) 0, V (-1) 1 0, V 0 1 (-1), V 0 (-1) (-1)); (V 0 (-1) (-1), V 0 1 (-1), V 1 1 0, V 1 (-1) 0);
   (V (-1) (-1) 0, V 0 (-1) (-1), V 1 (-1) 0, V (-1) (-1) 0); (V (-1) 1 0, V 1 1 0, V 0 1 (-1), V (-1) 1 0)].
Lemma keel_polygons : polygons_of keel keel_panels.
Proof. unfold polygons_of. repeat constructor. Qed.
Lemma keel_valid : valid keel. Proof. exact (polygons_valid _ _ keel_polygons). Qed.
Lemma keel_used : all_used keel.
Proof.
  intros i Hi. cbn in Hi. destruct i as [|[|[|[|[|[|i]]]]]]; try lia.
  1,2,3,4: exists (F 0 1 2 3); split; [now left|cbn; tauto]. 1,2: exists (F 3 2 5 4); split; [right; now left|cbn; tauto].
Qed.
Lemma root_8 : 2 <= sqrt 8 <= 3.
Proof.
  split; [rewrite <- (sqrt_square 2) at 1 by lra|rewrite <- (sqrt_square 3) by lra]; apply sqrt_le_1_alt; lra.
Qed.
Lemma root_2' : 1 <= sqrt 2 <= 3 / 2.
Proof.
  split; [rewrite <- (sqrt_square 1) at 1 by lra|rewrite <- (sqrt_square (3 / 2)) by lra]; apply sqrt_le_1_alt; lra.
Qed.
Lemma keel_sizes k a b c d : face_is keel k a b c d -> well_sized 3 (a, b, c, d).
Proof.
  intros (f & Hf & H). pose proof root_8 as R8. pose proof root_2' as R2. assert (R4 : sqrt 4 = 2) by (replace 4 with (2 * 2) by ring; apply sqrt_square; lra).
  destruct k as [|[|[|[|k]]]]; cbn in Hf; try (injection Hf as <-); [| | | |destruct k; discriminate];
    cbn in H; destruct H as (Ha & Hb & Hc & Hd); injection Ha as <-; injection Hb as <-; injection Hc as <-; injection Hd as <-;
    unfold well_sized, tri_area, norm, area_vector, dot, cross; cbn [vx vy vz vsub vadd vscale];
    repeat match goal with |- context [sqrt ?x] => 
      first [progress replace (sqrt x) with (sqrt 8) by (f_equal; field)|progress replace (sqrt x) with (sqrt 2) by (f_equal; field)
            |replace (sqrt x) with 2 by (symmetry; transitivity (sqrt 4); [f_equal; field|exact R4])|replace (sqrt x) with 1 by (symmetry; transitivity (sqrt 1); [f_equal; field|exact sqrt_1])|replace (sqrt x) with 0 by (symmetry; transitivity (sqrt 0); [f_equal; field|exact sqrt_0])] end; lra.
Qed.

Lemma keel_seen q : In q keel_panels -> seen_well q.
Proof.
  intros [<-|[<-|[<-|[<-|[]]]]].
  - left. right. right. unfold turn. cbn. lra.
  - left. right. right. unfold turn. cbn. lra.
  - right. exists 0, 1, (-1). split; [right; lra|]. split; [intros v Hv; cbn in Hv; repeat (destruct Hv as [<-|Hv]; [cbn; ring|]); destruct Hv|].
    exists (V (-1) (-1) 0), (V 1 (-1) 0). cbn. split; [tauto|]. split; [tauto|]. left. lra.
  - right. exists 0, 1, 1. split; [right; lra|]. split; [intros v Hv; cbn in Hv; repeat (destruct Hv as [<-|Hv]; [cbn; ring|]); destruct Hv|].
    exists (V (-1) 1 0), (V 1 1 0). cbn. split; [tauto|]. split; [tauto|]. left. lra.
Qed.
Lemma keel_clip argsort : clip argsort (level_plane 0) vicinity keel = Ok (keel, seq 0 4).
Proof.
  apply (clip_below argsort 0 keel 3); [exact keel_valid|exact keel_used|discriminate|exact keel_sizes|].
  intros v Hv. unfold vicinity. cbn in Hv. repeat (destruct Hv as [<-|Hv]; [cbn [vz]; first [left; rewrite Rminus_0_r, Rabs_R0; lra|right; lra]|]). destruct Hv.
Qed.
Lemma keel_bounds : bounds vx (m_vertices keel) (-1) 1 /\ bounds vy (m_vertices keel) (-1) 1.
Proof.
  split; (split; [eexists; split; [left; reflexivity|reflexivity]|]).
  - split; [exists (V 1 1 0); split; [cbn; tauto|reflexivity]|]. intros v Hv. cbn in Hv. repeat (destruct Hv as [<-|Hv]; [cbn; lra|]). destruct Hv.
  - split; [exists (V 1 1 0); split; [cbn; tauto|reflexivity]|]. intros v Hv. cbn in Hv. repeat (destruct Hv as [<-|Hv]; [cbn; lra|]). destruct Hv.
Qed.
(** The number of panels for a radius of 0.3. *)
Lemma keel_counts nx ny : lid_counts (11 / 10 * (1 - -1)) (11 / 10 * (1 - -1)) (3 / 10) nx ny -> nx = 6%nat /\ ny = 6%nat.
Proof.
  unfold lid_counts. cbn zeta. replace (11 / 10 * (1 - -1)) with (22 / 10) by field.
  assert (S2 : 141 / 100 < sqrt 2 < 142 / 100).
  { split; [rewrite <- (sqrt_square (141 / 100)) by lra|rewrite <- (sqrt_square (142 / 100)) by lra]; apply sqrt_lt_1_alt; lra. }
  assert (E : sqrt (22 / 10 / 5 * (22 / 10 / 5) + 22 / 10 / 5 * (22 / 10 / 5)) = 22 / 50 * sqrt 2).
  { replace (_ + _) with (22 / 50 * (22 / 50) * 2) by field. rewrite sqrt_mult by lra. rewrite sqrt_square by lra. reflexivity. }
  rewrite E. intros [(L & _)|(_ & A & B)]; [lra|].
  assert (G : forall n : nat, 22 / 10 <= INR n * (sqrt 2 * (3 / 10)) < 22 / 10 + sqrt 2 * (3 / 10) -> n = 6%nat).
  { intros n [L U]. assert (5 < INR n) by nra. assert (INR n < 7) by nra. change 5 with (IZR 5) in H. change 7 with (IZR 7) in H0. rewrite INR_IZR_INZ in H, H0. apply lt_IZR in H, H0. lia. }
  split; now apply G.
Qed.
Notation keel_quads := (map to_quad keel_panels).
Lemma keel_left p : is_above_panel p (to_quad (V (-1) (-1) 0, V (-1) 1 0, V 0 1 (-1), V 0 (-1) (-1))) = true <-> -1 <= vx p <= 0 /\ -1 <= vy p <= 1.
Proof. cbn [to_quad]. rewrite above_true. unfold turn. cbn [vx vy]. split; [intros [H|H]; lra|intros H; right; lra]. Qed.
Lemma keel_right p : is_above_panel p (to_quad (V 0 (-1) (-1), V 0 1 (-1), V 1 1 0, V 1 (-1) 0)) = true <-> 0 <= vx p <= 1 /\ -1 <= vy p <= 1.
Proof. cbn [to_quad]. rewrite above_true. unfold turn. cbn [vx vy]. split; [intros [H|H]; lra|intros H; right; lra]. Qed.
Lemma keel_back p : is_above_panel p (to_quad (V (-1) (-1) 0, V 0 (-1) (-1), V 1 (-1) 0, V (-1) (-1) 0)) = true <-> vy p = -1.
Proof. cbn [to_quad]. rewrite above_true. unfold turn. cbn [vx vy]. split; [intros [H|H]; lra|intros H; right; lra]. Qed.
Lemma keel_front p : is_above_panel p (to_quad (V (-1) 1 0, V 1 1 0, V 0 1 (-1), V (-1) 1 0)) = true <-> vy p = 1.
Proof. cbn [to_quad]. rewrite above_true. unfold turn. cbn [vx vy]. split; [intros [H|H]; lra|intros H; right; lra]. Qed.
Lemma decided b (A : Prop) : (b = true <-> A) -> ~ A -> b = false.
Proof. intros H N. destruct b; [|reflexivity]. exfalso. now apply N, H. Qed.
(** On the keel, two panels or none. *)
Lemma keel_line p : vx p = 0 -> vy p <> -1 -> vy p <> 1 -> ~ inside keel_panels p.
Proof.
  intros X Y Y' H. apply (needs_inside keel_panels p keel_seen) in H. unfold needs_lid, keel_panels in H. cbn [map filter] in H.
  rewrite (decided _ _ (keel_back p) Y), (decided _ _ (keel_front p) Y') in H.
  destruct (Rle_dec (-1) (vy p)) as [L|L]; [destruct (Rle_dec (vy p) 1) as [U|U]|].
  - rewrite (proj2 (keel_left p)), (proj2 (keel_right p)) in H by lra. discriminate.
  - rewrite (decided _ _ (keel_left p)), (decided _ _ (keel_right p)) in H by lra. discriminate.
  - rewrite (decided _ _ (keel_left p)), (decided _ _ (keel_right p)) in H by lra. discriminate.
Qed.
Lemma keel_inside p : -1 < vx p < 0 -> -1 < vy p < 1 -> inside keel_panels p.
Proof.
  intros X Y. apply (needs_inside keel_panels p keel_seen). unfold needs_lid, keel_panels. cbn [map filter].
  rewrite (decided _ _ (keel_back p)), (decided _ _ (keel_front p)), (proj2 (keel_left p)), (decided _ _ (keel_right p)) by lra. reflexivity.
Qed.
Lemma keel_node i j : lid_node (-1) 1 (-1) 1 0 6 6 i j = V ((INR i - 3) * (11 / 30)) ((INR j - 3) * (11 / 30)) 0.
Proof. unfold lid_node. apply vec_ext; cbn [vx vy vz]; cbn [INR]; field. Qed.

(** ** The corners of a mesh made of given polygons *)
Lemma kept_in {A} (P : A -> Prop) l l' x : kept P l l' -> In x l' <-> In x l /\ P x.
Proof.
  induction 1 as [|q l l' H K IH|q l l' H K IH]; cbn [In]; [tauto| |].
  - rewrite IH. split; [intros [<-|[A1 B]]; tauto|tauto].
  - rewrite IH. split; [tauto|]. intros [[<-|A1] B]; [contradiction|tauto].
Qed.
Lemma made_vertices m qs v : all_used m -> made_of (Leaf m) qs -> In v (m_vertices m) -> exists q, In q qs /\ In v (polygon_corners q).
Proof.
  intros U (qs' & qs'' & (qss & F & ->) & P & S) Hv. cbn [leaves] in F. inversion F as [|? q0 ? r0 F0 Fr]; subst. inversion Fr; subst. cbn [concat] in S. rewrite app_nil_r in S.
  apply In_nth_error in Hv. destruct Hv as [i Hi]. destruct (U i) as (f & Hf & Ii); [apply nth_error_Some; congruence|].
  destruct (f2_in_left _ _ _ _ F0 Hf) as (q & Hq & C). destruct (f2_in_right _ _ _ _ S Hq) as (q1 & Hq1 & Sq). exists q1. split; [apply (Permutation_in q1 (Permutation_sym P) Hq1)|].
  apply (same_polygon_corners q1 q v Sq). destruct q as [[[a b] c] d]. destruct C as (A & B & C & D). cbn [polygon_corners In] in *. destruct Ii as [E|[E|[E|[E|[]]]]]; subst; rewrite Hi in *; [left|right; left|right; right; left|right; right; right; left]; congruence.
Qed.
Lemma made_faces m qs : made_of (Leaf m) qs -> qs <> [] -> m_faces m <> [].
Proof.
  intros (qs' & qs'' & (qss & F & ->) & P & S) Ne E. cbn [leaves] in F. inversion F as [|? q0 ? r0 F0 Fr]; subst. inversion Fr; subst. unfold polygons_of in F0. rewrite E in F0. inversion F0; subst.
  cbn in S. inversion S; subst. apply Permutation_sym, Permutation_nil in P. contradiction.
Qed.
Lemma keel_lid argsort : sorts argsort -> forall set_order, (forall l, Permutation l (set_order l)) ->
  exists lid, generate_lid argsort set_order keel 0 (Some (3 / 10)) = Ok lid /\ m_faces lid <> [] /\ forall v, In v (m_vertices lid) -> 1 / 3 <= Rabs (vx v).
Proof.
  intros Hs so Ho. destruct keel_bounds as [Bx By].
  destruct (generate_lid_ok argsort Hs so Ho keel 0 (Some (3 / 10)) keel (seq 0 4) keel_panels (-1) 1 (-1) 1 (3 / 10) (keel_clip argsort)) as (nx & ny & lid & qs & Cn & E & K & _ & _ & U & _ & M & _);
    [discriminate|exact keel_polygons|exact keel_seen|exact Bx|exact By|lra|lra|now left|lra|].
  destruct (keel_counts nx ny Cn) as [-> ->]. exists lid. split; [exact E|]. split.
  - apply (made_faces lid qs M). intros Z0. assert (In (cell (lid_node (-1) 1 (-1) 1 0 6 6) 1 1) qs) as H; [|rewrite Z0 in H; destruct H].
    apply (kept_in _ _ _ _ K). split; [apply cells_in; exists 1%nat, 1%nat; split; [lia|]; split; [lia|reflexivity]|].
    intros p Hp. unfold cell in Hp. rewrite !keel_node in Hp. cbn [polygon_corners] in Hp. repeat (destruct Hp as [<-|Hp]; [apply keel_inside; cbn [vx vy]; cbn [INR]; lra|]). destruct Hp.
  - intros v Hv. destruct (made_vertices lid qs v U M Hv) as (q & Hq & Iq). apply (kept_in _ _ _ _ K) in Hq. destruct Hq as [Hq Inn].
    apply cells_in in Hq. destruct Hq as (i & j & Hi & Hj & ->).
    assert (N3 : forall k l, (l <= 6)%nat -> In (V ((INR k - 3) * (11 / 30)) ((INR l - 3) * (11 / 30)) 0) (polygon_corners (cell (lid_node (-1) 1 (-1) 1 0 6 6) i j)) -> k <> 3%nat).
    { intros k l Hl Hk ->. apply Inn in Hk. revert Hk. apply keel_line; cbn [vx vy]; [cbn [INR]; ring| |];
        (destruct l as [|[|[|[|[|[|[|l]]]]]]]; [..|lia]; cbn [INR]; lra). }
    assert (C1 := N3 i j ltac:(lia)). assert (C2 := N3 (S i) j ltac:(lia)). unfold cell in *. rewrite !keel_node in *. cbn [polygon_corners In] in *.
    specialize (C1 ltac:(tauto)). specialize (C2 ltac:(tauto)).
    assert (A : forall k, (k <= 6)%nat -> k <> 3%nat -> 1 / 3 <= Rabs ((INR k - 3) * (11 / 30))).
    { intros k Hk Nk. destruct (Nat.lt_ge_cases k 3) as [L|L].
      - assert (INR k <= 2) by (change 2 with (INR 2); apply le_INR; lia). rewrite Rabs_left by lra. lra.
      - assert (4 <= INR k) by (replace 4 with (INR 4) by (cbn [INR]; ring); apply le_INR; lia). rewrite Rabs_right by lra. lra. }
    repeat (destruct Iq as [<-|Iq]; [cbn [vx]; apply A; lia|]). destruct Iq.
Qed.
(** The hull is under the whole square. *)
Lemma keel_covers p : -1 <= vx p <= 1 -> -1 <= vy p <= 1 -> exists q, In q keel_panels /\ convex_from_above q /\ over p q.
Proof.
  intros X Y. destruct (Rle_dec (vx p) 0) as [L|L].
  - exists (V (-1) (-1) 0, V (-1) 1 0, V 0 1 (-1), V 0 (-1) (-1)). split; [now left|].
    assert (C : convex_from_above (V (-1) (-1) 0, V (-1) 1 0, V 0 1 (-1), V 0 (-1) (-1))) by (right; right; unfold turn; cbn; lra). split; [exact C|].
    apply (above_over p _ _ _ _ C). apply (keel_left p). lra.
  - exists (V 0 (-1) (-1), V 0 1 (-1), V 1 1 0, V 1 (-1) 0). split; [right; now left|].
    assert (C : convex_from_above (V 0 (-1) (-1), V 0 1 (-1), V 1 1 0, V 1 (-1) 0)) by (right; right; unfold turn; cbn; lra). split; [exact C|].
    apply (above_over p _ _ _ _ C). apply (keel_right p). lra.
Qed.
