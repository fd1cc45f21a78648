(** The meshes of revolution built from a profile. *)
From Coq Require Import Reals List Bool Arith Lia Lra Permutation ZArith.
From Verif Require Import Model_Base Model_Geometry Model_Mesh Model_Clip Spec_Mesh Spec_Tree Spec_Clip Model_Tree Model_Body Spec_Body
  Proofs_Geometry Proofs_Mesh Proofs_Mesh2 Proofs_Mesh3 Proofs_Clip4 Proofs_Clip5 Proofs_Clip7 Model_Integrals Spec_Integrals Proofs_Integrals Proofs_Tree Proofs_Tree2 Proofs_Body Proofs_Body2 Proofs_Body5
  Model_Quality Spec_Quality Proofs_Quality Model_Normals Spec_Normals Proofs_Normals4 Spec_Grid Model_Grid Proofs_Grid Proofs_Grid2 Proofs_Grid3 Proofs_Grid4 Proofs_Grid5 Proofs_Grid6
  Proofs_Dataset Proofs_Problem Model_Box Proofs_Box3 Proofs_Box4 Proofs_Box5 Proofs_Box6 Model_Cylinder Spec_Cylinder Proofs_Cylinder Proofs_Cylinder2 Proofs_Cylinder3 Proofs_Cylinder4 Proofs_Cylinder5 Proofs_Cylinder6 Proofs_Cylinder7 Proofs_Cylinder8 Proofs_Cylinder9 Proofs_Profile.
Import ListNotations.
Open Scope R_scope.

(** The keys of columns. *)
Definition col_keys (n : nat) (l : list nat) : list key := flat_map (fun i => map (pair i) l) (seq 0 n).
Lemma col_keys_concat n ls : Permutation (col_keys n (concat ls)) (concat (map (col_keys n) ls)).
Proof.
  induction ls as [|l ls IH]; cbn [concat map].
  - unfold col_keys. generalize (seq 0 n). intros L. induction L as [|i L IH]; [constructor|]. cbn. exact IH.
  - rewrite <- IH. unfold col_keys. rewrite <- perm_flat2. erewrite flat_ext_in; [reflexivity|]. intros i _. apply map_app.
Qed.
Lemma col_keys_perm n l l' : Permutation l l' -> Permutation (col_keys n l) (col_keys n l').
Proof. intros H. unfold col_keys. induction (seq 0 n) as [|i L IH]; [constructor|]. cbn. apply Permutation_app; [now apply Permutation_map|exact IH]. Qed.
(** The whole of a collection of carried meshes. *)
Lemma merged_any argsort (Hs : sorts argsort) k0 l qss : filled (Node k0 l) -> Forall2 carried (leaves (Node k0 l)) qss -> spaced (concat qss) -> concat qss <> [] ->
  exists m f0s, t_merged argsort (Node k0 l) = Ok m /\ carried m (concat qss) /\ m_faces m = map heal_face f0s.
Proof.
  intros Fl H Sp Nq. cbn [t_merged]. rewrite (t_vertices_whole _ Fl), (t_faces_whole _ Fl). set (ms := leaves (Node k0 l)) in *. cbn [bind]. cbn [whole m_vertices m_faces].
  destruct (whole_loose_from ms qss H []) as [L U]. cbn [app length] in L, U.
  assert (Vm : valid (Mesh (concat (map m_vertices ms)) (faces_from 0 ms))) by (eapply loose_valid; exact L).
  assert (E0 : build_mesh (concat (map m_vertices ms)) (faces_from 0 ms) = Ok (Mesh (concat (map m_vertices ms)) (faces_from 0 ms))) by (apply build_mesh_ok; split; [reflexivity|exact Vm]).
  rewrite E0. cbn [bind].
  destruct (merge_loose argsort Hs _ _ _ L) as (m & ids & E & C); [|exact Sp| |].
  - intros i Hi. cbn in *. rewrite concat_vertices_length in Hi. exact (U i Hi).
  - intros E. destruct L as (qs' & P & S). destruct qs' as [|q qs']; [inversion S; congruence|]. inversion P as [|f q' fs qs'' C P']; subst. rewrite E in C.
    destruct q as [[[a b] c] d]. destruct C as (A & _). destruct (fa f); discriminate.
  - rewrite E. cbn [bind fst]. exists (heal_triangles m), (m_faces m). split; [reflexivity|]. split; [exact C|reflexivity].
Qed.

Lemma profile_unfold argsort profile a nphi : profile <> [] -> from_profile argsort profile a nphi =
  (if Nat.eqb nphi 0 then Err ZeroDivisionError else
   bind (build_mesh (profile ++ map (rotate_point a (2 * PI / INR nphi)) profile) (slice_faces (length profile))) (fun m =>
   bind (merge_duplicates argsort (/ 100000000) m) (fun r => AxialSymmetricMesh (Leaf (heal_triangles (fst r))) a (nphi - 1)))).
Proof. intros H. destruct profile; [contradiction|reflexivity]. Qed.

Section Turned.
  Variable argsort : list R -> list nat.
  Hypothesis Hs : sorts argsort.
  Variable set_order : list nat -> list nat.
  Hypothesis Ho : forall l, Permutation l (set_order l).
  Variables (prof : nat -> R * R) (n T : nat).
  Hypotheses (Hn : (0 < n)%nat) (HT : (3 <= T)%nat).
  Notation rho i := (fst (prof i)). Notation zed i := (snd (prof i)).
  Hypothesis Hpos : forall i, (i <= n)%nat -> 0 <= rho i.
  Hypothesis Hmid : forall i, (0 < i < n)%nat -> 0 < rho i.
  Hypothesis Hinj : forall i i', (i <= n)%nat -> (i' <= n)%nat -> prof i = prof i' -> i = i'.
  Hypothesis Hpoles : n = 1%nat -> ~ (rho 0 = 0 /\ rho n = 0).
  Hypothesis Hsz : visible_strips prof n T.
  Hypothesis Hcmp : comparable_strips prof n T.
  Notation P o := (node o prof T (PI / 2)).
  Hypothesis Hspread : spread_nodes (P v0) n T.
  Let HN : (0 < T <= T)%nat. Proof. lia. Qed.
  Let IT : INR T <> 0. Proof. apply not_0_INR. lia. Qed.
  Notation keyed := (fun k : key => revolved_panel (P v0) (fst k) (snd k)).
  Lemma strips_keys l : strips (P v0) n l = map keyed (col_keys n l).
  Proof. unfold strips, col_keys, key. rewrite map_flat. apply flat_ext_in. intros i _. rewrite map_map. reflexivity. Qed.
  Lemma grid_closes m qs f0s : of_grid prof n T (PI / 2) qs -> carried m qs -> m_faces m = map heal_face f0s -> forall f, In f (m_faces m) -> closes f.
  Proof.
    intros Hq C E f Hf. pose proof Hf as Hf'. rewrite E in Hf'. apply in_map_iff in Hf'. destruct Hf' as (f0 & <- & _). apply In_nth_error in Hf. destruct Hf as [i Hf].
    destruct (carried_face m _ i _ C Hf) as (q & q' & Hi & S & K). pose proof C as (_ & _ & Nv & _).
    apply nth_error_In, Hq in Hi. destruct Hi as (i0 & j0 & Hi0 & Hj0 & ->).
    assert (Tz : trapezoid (revolved_panel (P v0) i0 j0)).
    { pose proof (panel_is v0 prof n T T (PI / 2) Hn HT HN Hmid Hpoles (i0, j0) (conj Hi0 Hj0)) as Ep. cbn [fst snd] in Ep. rewrite <- Ep.
      apply panel_trapezoid; [exact Hn|lia|exact (full_three prof n T T Hn HT HN Hpoles)|exact (two_ends prof n T T HN Hpoles)| |split; assumption]. apply place_inj; assumption. }
    assert (X : exists q0, corners_at (m_vertices m) f0 q0 /\ same_polygon q' q0).
    { clear - K. destruct q' as [[[a b] c] d]. destruct K as (Ka & Kb & Kc & Kd). destruct (heal_rotation f0) as [E|[E|[E|E]]]; rewrite E in *; cbn [fa fb fc fd] in *.
      - exists (a, b, c, d). split; [repeat split; assumption|cbn; auto].
      - exists (d, a, b, c). split; [repeat split; assumption|cbn; auto].
      - exists (c, d, a, b). split; [repeat split; assumption|cbn; auto].
      - exists (b, c, d, a). split; [repeat split; assumption|cbn; auto]. }
    destruct X as (q0 & K0 & S0). exact (closes_heal (m_vertices m) f0 _ q0 Nv K0 (same_polygon_trans _ _ _ S S0) Tz).
  Qed.
  (** ** The slices *)
  Definition profile_points : list vec := map (fun i => V (rho i) 0 (zed i)) (seq 0 (S n)).
  Lemma first_meridian i : V (rho i) 0 (zed i) = P v0 i T.
  Proof.
    rewrite spec_round by assumption. unfold node, tp, angle. replace (PI / 2 + 2 * PI * INR 0 / INR T) with (PI / 2) by (cbn [INR]; field; exact IT).
    rewrite sin_PI2, cos_PI2. apply vec_ext; cbn [vadd vx vy vz v0]; ring.
  Qed.
  Lemma second_meridian i : rotate_point Oz_axis (2 * PI / INR T) (V (rho i) 0 (zed i)) = P v0 i (T - 1).
  Proof.
    rewrite first_meridian, spec_round by assumption. replace (2 * PI / INR T) with (2 * INR 1 * PI / INR T) by (cbn [INR]; field; exact IT). rewrite turned_node by lia. f_equal. lia.
  Qed.
  Lemma slice_ok : exists m, from_profile argsort profile_points Oz_axis T
      = Ok (Node (Axial Oz_axis) (Leaf m :: map (fun k => Leaf (rotate m Oz_axis (2 * INR k * PI / INR T))) (seq 1 (T - 1))))
    /\ carried m (strips (P v0) n [(T - 1)%nat]) /\ (forall f, In f (m_faces m) -> closes f).
  Proof.
    assert (Cg : columns T [(T - 1)%nat]) by (split; [discriminate|intros j [<-|[]]; lia]).
    destruct (columns_grid prof n T (PI / 2) Hn HT Hpoles _ Cg) as [Og On].
    set (vs := profile_points ++ map (rotate_point Oz_axis (2 * PI / INR T)) profile_points).
    assert (Lp : length profile_points = S n) by (unfold profile_points; now rewrite map_length, seq_length).
    assert (Np : forall i, (i <= n)%nat -> nth_error profile_points i = Some (V (rho i) 0 (zed i))).
    { intros i Hi. unfold profile_points. rewrite nth_error_map, seq_nth_error by lia. reflexivity. }
    assert (N1 : forall i, (i <= n)%nat -> nth_error vs i = Some (P v0 i T)).
    { intros i Hi. unfold vs. rewrite nth_error_app1 by lia. rewrite Np by exact Hi. now rewrite first_meridian. }
    assert (N2 : forall i, (i <= n)%nat -> nth_error vs (i + S n) = Some (P v0 i (T - 1))).
    { intros i Hi. unfold vs. rewrite nth_error_app2 by lia. rewrite Lp. replace (i + S n - S n)%nat with i by lia. rewrite nth_error_map, Np by exact Hi. cbn [option_map]. now rewrite second_meridian. }
    assert (Lo : loose vs (slice_faces (S n)) (strips (P v0) n [(T - 1)%nat])).
    { exists (map (fun i => (P v0 i T, P v0 i (T - 1), P v0 (S i) (T - 1), P v0 (S i) T)) (seq 0 n)). unfold slice_faces. replace (S n - 1)%nat with n by lia. split.
      - apply f2_map. intros i Hi. apply in_seq in Hi. cbn [corners_at fa fb fc fd]. replace (i + S n + 1)%nat with (S i + S n)%nat by lia. rewrite Nat.add_1_r.
        repeat split; first [apply N1; lia|apply N2; lia].
      - unfold strips. cbn [map]. rewrite flat_single. apply f2_map. intros i Hi. unfold revolved_panel. replace (S (T - 1)) with T by lia. cbn. auto. }
    assert (Us : all_used (Mesh vs (slice_faces (S n)))).
    { intros k Hk. cbn [m_vertices m_faces] in *. unfold vs in Hk. rewrite app_length, map_length, Lp in Hk. unfold slice_faces. replace (S n - 1)%nat with n by lia.
      set (i := if Nat.ltb k (S n) then (if Nat.ltb k n then k else n - 1)%nat else if Nat.ltb (k - S n) n then (k - S n)%nat else (n - 1)%nat).
      exists (F i (i + S n) (i + S n + 1) (i + 1)). cbn [fa fb fc fd In]. unfold i. split.
      - apply in_map_iff. eexists. split; [reflexivity|]. apply in_seq. destruct (Nat.ltb_spec k (S n)); [destruct (Nat.ltb_spec k n)|destruct (Nat.ltb_spec (k - S n) n)]; lia.
      - destruct (Nat.ltb_spec k (S n)); [destruct (Nat.ltb_spec k n)|destruct (Nat.ltb_spec (k - S n) n)]; lia. }
    assert (Nv : vs <> []) by (unfold vs; destruct profile_points; discriminate).
    destruct (merge_loose argsort Hs vs _ _ Lo Us (grid_spaced prof n T (PI / 2) Hn HT Hpoles Hspread _ Og) Nv) as (m & ids & E & C).
    exists (heal_triangles m). split; [|split; [exact C|exact (grid_closes _ _ (m_faces m) Og C eq_refl)]].
    rewrite profile_unfold by (intros X; rewrite X in Lp; discriminate). rewrite Lp. replace (Nat.eqb T 0) with false by (symmetry; apply Nat.eqb_neq; lia). cbn zeta.
    assert (B : build_mesh vs (slice_faces (S n)) = Ok (Mesh vs (slice_faces (S n)))) by (apply build_mesh_ok; split; [reflexivity|eapply loose_valid; exact Lo]).
    fold vs. rewrite B. cbn [bind]. rewrite E. cbn [bind fst]. unfold AxialSymmetricMesh, make_axial. replace (Nat.ltb (T - 1) 1) with false by (symmetry; apply Nat.ltb_ge; lia).
    cbn [copy depth copy_within bind t_rotate].
    assert (ET : INR (T - 1) + 1 = INR T) by (rewrite minus_INR by lia; change (INR 1) with 1; ring). rewrite ET.
    rewrite (Proofs_Cylinder9.mapM_map _ (fun i => Leaf (rotate (heal_triangles m) Oz_axis (2 * INR i * PI / INR T)))) by reflexivity. reflexivity.
  Qed.
  Definition slice_columns : list (list nat) := map (fun k => [(T - 1 - k)%nat]) (seq 0 T).
  Lemma slices_ok : exists l, from_profile argsort profile_points Oz_axis T = Ok (Node (Axial Oz_axis) l) /\ filled (Node (Axial Oz_axis) l)
    /\ Forall2 carried (leaves (Node (Axial Oz_axis) l)) (map (strips (P v0) n) slice_columns)
    /\ (forall m f, In m (leaves (Node (Axial Oz_axis) l)) -> In f (m_faces m) -> closes f) /\ length (leaves (Node (Axial Oz_axis) l)) = T.
  Proof.
    destruct slice_ok as (m & E & C & Cl). eexists. split; [exact E|].
    rewrite leaves_profile. split; [|split; [|split]].
    - constructor; [discriminate|]. intros x [<-|Hx]; [constructor|]. apply in_map_iff in Hx. destruct Hx as (k & <- & _). constructor.
    - unfold slice_columns. assert (Es : seq 0 T = 0%nat :: seq 1 (T - 1)) by (replace T with (S (T - 1)) at 1 by lia; reflexivity). rewrite Es. cbn [map]. rewrite Nat.sub_0_r. constructor; [exact C|]. rewrite map_map. apply f2_map. intros k Hk. apply in_seq in Hk.
      change [(T - 1 - k)%nat] with (map (fun _ : nat => (T - 1 - k)%nat) [(T - 1)%nat]).
      rewrite <- (strips_map (P v0) (P v0) (poly_map (rotate_point Oz_axis (2 * INR k * PI / INR T)))).
      + apply (carried_moved (rotate_point Oz_axis _)); [|exact C]. intros x y. apply (motion_inj _ _ x y (motion_rotate Oz_axis _ Oz_proper)).
      + intros i j _ [<-|[]]. unfold revolved_panel. cbn [poly_map]. rewrite !turned_node by lia.
        replace (T - k + (T - 1))%nat with ((T - 1 - k) + T)%nat by lia. replace (T - k + S (T - 1))%nat with (S (T - 1 - k) + T)%nat by lia. now rewrite !node_round by assumption.
    - intros m' f Hm Hf. assert (E' : m_faces m' = m_faces m) by (destruct Hm as [<-|Hm]; [reflexivity|]; apply in_map_iff in Hm; destruct Hm as (k & <- & _); reflexivity). rewrite E' in Hf. now apply Cl.
    - cbn [length]. rewrite map_length, seq_length. lia.
  Qed.
  Lemma slice_columns_all : Permutation (seq 0 T) (concat slice_columns).
  Proof.
    unfold slice_columns. rewrite <- flat_map_concat_map, flat_single.
    apply NoDup_Permutation; [apply seq_NoDup|apply NoDup_map_in; [|apply seq_NoDup]; intros x y Hx Hy E; apply in_seq in Hx, Hy; lia|]. intros x. rewrite in_map_iff, in_seq. split.
    - intros Hx. exists (T - 1 - x)%nat. rewrite in_seq. lia.
    - intros (k & <- & Hk). apply in_seq in Hk. lia.
  Qed.
  Lemma slice_columns_in l : In l slice_columns -> columns T l.
  Proof. intros Hl. apply in_map_iff in Hl. destruct Hl as (k & <- & Hk). apply in_seq in Hk. split; [discriminate|]. intros j [<-|[]]. lia. Qed.
  (** With the axial symmetry. *)
  Lemma turned_axial c : exists t0 t, from_profile argsort profile_points Oz_axis T = Ok t0 /\ healed_at argsort set_order t0 c = Ok t /\ made_of_strips prof n T (PI / 2) c t /\ length (leaves t) = T.
  Proof.
    destruct slices_ok as (l & E & F & C & Cl & Len). exists (Node (Axial Oz_axis) l).
    destruct (pieces_healed argsort Hs set_order prof n T (PI / 2) Hn HT Hpos Hmid Hpoles Hsz Hcmp Hspread _ slice_columns c F ltac:(eauto) C slice_columns_in Cl slice_columns_all) as (t & Et & Mt & Lt).
    exists t. split; [exact E|]. split; [exact Et|]. split; [exact Mt|congruence].
  Qed.
  (** In one mesh. *)
  Hypothesis Hup : forall i, (i < n)%nat -> zed i <= zed (S i).
  Hypothesis Hlow : forall i, (i <= n)%nat -> rho 0 <= rho i.
  Lemma turned_merged c : exists t0 m t, from_profile argsort profile_points Oz_axis T = Ok t0 /\ t_merged argsort t0 = Ok m /\ healed_at argsort set_order (Leaf m) c = Ok t
    /\ made_of_strips prof n T (PI / 2) c t /\ length (leaves t) = 1%nat.
  Proof.
    destruct slices_ok as (l & E & F & C & _ & _). exists (Node (Axial Oz_axis) l).
    set (ks := concat (map (col_keys n) slice_columns)).
    assert (EQ : concat (map (strips (P v0) n) slice_columns) = map keyed ks).
    { unfold ks. rewrite concat_map, map_map. f_equal. apply map_ext. intros x. apply strips_keys. }
    assert (Pk : Permutation (rect_keys n T) ks) by (unfold ks; rewrite <- col_keys_concat; change (rect_keys n T) with (col_keys n (seq 0 T)); apply col_keys_perm, slice_columns_all).
    assert (Rk : forall k, In k ks <-> ranged n T k).
    { intros k. rewrite <- in_rect. split; [apply (Permutation_in _ (Permutation_sym Pk))|apply (Permutation_in _ Pk)]. }
    assert (Nk : NoDup ks) by (eapply Permutation_NoDup; [exact Pk|apply nodup_rect]).
    assert (Og : of_grid prof n T (PI / 2) (map keyed ks)).
    { intros q Hq. apply in_map_iff in Hq. destruct Hq as (k & <- & Hk). apply Rk in Hk. destruct Hk. exists (fst k), (snd k). auto. }
    assert (On : map keyed ks <> []).
    { intros X. apply map_eq_nil in X. assert (H : In (0, 0)%nat ks) by (apply Rk; split; cbn; lia). rewrite X in H. destruct H. }
    rewrite <- EQ in Og, On.
    destruct (merged_any argsort Hs _ _ _ F C (grid_spaced prof n T (PI / 2) Hn HT Hpoles Hspread _ Og) On) as (m & f0s & Em & Cm & Fm).
    pose proof (grid_closes m _ f0s Og Cm Fm) as Cl.
    pose proof (grid_tidy prof n T (PI / 2) Hn HT Hpos Hmid Hpoles Hsz Hcmp Hspread m _ Og On Cm Cl) as Td.
    destruct (heal_tidy argsort Hs (heal_normals set_order) m Td) as (m' & Eh & T' & N' & H').
    assert (C' : carried m' (map keyed ks)) by (rewrite <- EQ; apply (healed_carried m m' _ Cm); [split; [exact T'|split; assumption]|exact T']).
    assert (Eh' : heal_leaf argsort (heal_normals set_order) true m = Ok m').
    { rewrite heal_leaf_closed, Eh. cbn [bind].
      apply (normals_kept set_order Ho v0 prof n T T (PI / 2) Hn HT HN Hpos Hmid Hinj Hpoles Hup Hlow Hsz m' ks Nk Rk); [|exact (proj1 (proj2 (proj2 (proj2 (proj2 T')))))].
      erewrite map_ext_in; [exact C'|]. intros k Hk. cbn beta. now rewrite (panel_is v0 prof n T T (PI / 2) Hn HT HN Hmid Hpoles k) by now apply Rk. }
    exists m, (Leaf (translate m' c)). split; [exact E|]. split; [exact Em|]. unfold healed_at. cbn [t_heal]. rewrite Eh'. cbn [bind t_translate]. split; [reflexivity|]. split; [|reflexivity].
    assert (Ct : carried (translate m' c) (map (poly_map (fun p => vadd p c)) (map keyed ks))).
    { apply (carried_moved (fun p => vadd p c)); [|exact C']. intros x y. apply (motion_inj _ _ x y (motion_translate c)). }
    split; [constructor|]. split.
    - intros x [<-|[]]. destruct Ct as (A & B & D & _). auto.
    - apply (made_carried (Leaf (translate m' c)) [map (poly_map (fun p => vadd p c)) (map keyed ks)]); [constructor; [exact Ct|constructor]|]. cbn [concat]. rewrite app_nil_r.
      apply perm_trans with (map (poly_map (fun p => vadd p c)) (strips (P v0) n (seq 0 T))).
      + assert (X : map (poly_map (fun p => vadd p c)) (strips (P v0) n (seq 0 T)) = revolved (P c) n T).
        { rewrite (strips_map (P v0) (P c) (poly_map (fun p => vadd p c)) n (seq 0 T) (fun j => j)); [now rewrite map_id|].
          intros i j _ _. unfold revolved_panel. cbn [poly_map]. rewrite !moved_node. now rewrite !vadd_v0. }
        rewrite X. reflexivity.
      + apply Permutation_map. rewrite strips_keys. apply Permutation_map. exact Pk.
  Qed.
End Turned.
