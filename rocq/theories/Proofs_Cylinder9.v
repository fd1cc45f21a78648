(** The vertical cylinders, with or without symmetries. *)
From Coq Require Import Reals List Bool Arith Lia Lra Permutation ZArith.
From Verif Require Import Model_Base Model_Geometry Model_Mesh Model_Clip Spec_Mesh Spec_Tree Spec_Clip Model_Tree Model_Body Spec_Body
  Proofs_Geometry Proofs_Mesh Proofs_Mesh2 Proofs_Mesh3 Proofs_Clip4 Proofs_Clip5 Proofs_Clip7 Model_Integrals Spec_Integrals Proofs_Integrals Proofs_Tree Proofs_Tree2 Proofs_Body Proofs_Body2 Proofs_Body5
  Model_Quality Spec_Quality Proofs_Quality Model_Normals Spec_Normals Proofs_Normals4 Spec_Grid Model_Grid Proofs_Grid Proofs_Grid2 Proofs_Grid3 Proofs_Grid4 Proofs_Grid5 Proofs_Grid6
  Proofs_Dataset Proofs_Problem Model_Box Proofs_Box3 Proofs_Box4 Proofs_Box5 Proofs_Box6 Model_Cylinder Spec_Cylinder Proofs_Cylinder Proofs_Cylinder2 Proofs_Cylinder3 Proofs_Cylinder4 Proofs_Cylinder5 Proofs_Cylinder6 Proofs_Cylinder7 Proofs_Cylinder8.
Import ListNotations.
Open Scope R_scope.

(** The panels between the given meridians. *)
Definition strips (P : nat -> nat -> vec) (n : nat) (l : list nat) : list polygon := flat_map (fun i => map (revolved_panel P i) l) (seq 0 n).
Lemma strips_all P n N : revolved P n N = strips P n (seq 0 N). Proof. reflexivity. Qed.
Lemma strips_app P n l l' : Permutation (strips P n (l ++ l')) (strips P n l ++ strips P n l').
Proof. unfold strips. rewrite <- perm_flat2. erewrite flat_ext_in; [reflexivity|]. intros i _. apply map_app. Qed.
Lemma strips_concat P n ls : Permutation (strips P n (concat ls)) (concat (map (strips P n) ls)).
Proof.
  induction ls as [|l ls IH]; cbn [concat map]; [|now rewrite strips_app, IH].
  unfold strips. generalize (seq 0 n). intros L. induction L as [|i L IH]; [constructor|]. cbn. exact IH.
Qed.
Lemma strips_perm P n l l' : Permutation l l' -> Permutation (strips P n l) (strips P n l').
Proof. intros H. unfold strips. induction (seq 0 n) as [|i L IH]; [constructor|]. cbn. apply Permutation_app; [now apply Permutation_map|exact IH]. Qed.
Lemma in_strips P n l q : In q (strips P n l) <-> exists i j, (i < n)%nat /\ In j l /\ q = revolved_panel P i j.
Proof.
  unfold strips. rewrite in_flat_map. split.
  - intros (i & Hi & Hq). apply in_map_iff in Hq. destruct Hq as (j & <- & Hj). apply in_seq in Hi. exists i, j. repeat split; [lia|exact Hj].
  - intros (i & j & Hi & Hj & ->). exists i. split; [apply in_seq; lia|now apply in_map].
Qed.
Lemma strips_map P P' g n l (s : nat -> nat) : (forall i j, (i < n)%nat -> In j l -> g (revolved_panel P i j) = revolved_panel P' i (s j)) -> map g (strips P n l) = strips P' n (map s l).
Proof.
  intros H. unfold strips. rewrite map_flat. apply flat_ext_in. intros i Hi. apply in_seq in Hi. rewrite !map_map. apply map_ext_in. intros j Hj. apply H; [lia|exact Hj].
Qed.
Lemma closes_flip f : closes f -> closes (flip_face f).
Proof.
  destruct f as [a b c d]. unfold closes, flip_face. cbn [fa fb fc fd]. intros [->|H]; [now left|right]. rewrite !NoDup_cons_iff in *. cbn [In] in *. pose proof (NoDup_nil nat). intuition congruence.
Qed.
Lemma moved_node o c prof T th0 i j : vadd (node o prof T th0 i j) c = node (vadd o c) prof T th0 i j.
Proof. unfold node, tp. destruct o as [ox oy oz], c as [cx cy cz]. apply vec_ext; cbn [vadd vx vy vz]; ring. Qed.

Section Pieces.
  Variable argsort : list R -> list nat.
  Hypothesis Hs : sorts argsort.
  Variable set_order : list nat -> list nat.
  Hypothesis Ho : forall l, Permutation l (set_order l).
  Variables (prof : nat -> R * R) (n T : nat) (th0 : R).
  Hypotheses (Hn : (0 < n)%nat) (HT : (3 <= T)%nat).
  Notation rho i := (fst (prof i)). Notation zed i := (snd (prof i)).
  Hypothesis Hpos : forall i, (i <= n)%nat -> 0 <= rho i.
  Hypothesis Hmid : forall i, (0 < i < n)%nat -> 0 < rho i.
  Hypothesis Hinj : forall i i', (i <= n)%nat -> (i' <= n)%nat -> prof i = prof i' -> i = i'.
  Hypothesis Hpoles : n = 1%nat -> ~ (rho 0 = 0 /\ rho n = 0).
  Hypothesis Hsz : visible_strips prof n T.
  Hypothesis Hcmp : comparable_strips prof n T.
  Notation P o := (node o prof T th0).
  Hypothesis Hspread : spread_nodes (P v0) n T.
  Let HN : (0 < T <= T)%nat. Proof. lia. Qed.
  Lemma spec_round o i : P o i T = P o i 0%nat.
  Proof. rewrite <- (node_round o prof T th0 HT i 0). reflexivity. Qed.
  Lemma spread_all i j i' j' : (i <= n)%nat -> (j <= T)%nat -> (i' <= n)%nat -> (j' <= T)%nat -> P v0 i j = P v0 i' j' \/ / 1000000 <= dist (P v0 i j) (P v0 i' j').
  Proof.
    intros A B C D. assert (E : forall i j, (j <= T)%nat -> exists k, (k < T)%nat /\ P v0 i j = P v0 i k).
    { clear - HT Hn HN Hpoles. intros i j H. destruct (Nat.eq_dec j T) as [->|]; [exists 0%nat; split; [lia|apply spec_round]|exists j; split; [lia|reflexivity]]. }
    destruct (E i j B) as (k & Hk & ->), (E i' j' D) as (k' & Hk' & ->). now apply Hspread.
  Qed.
  Definition columns (l : list nat) : Prop := l <> [] /\ forall j, In j l -> (j < T)%nat.
  Lemma panel_fits A i j : (forall i, (i < n)%nat -> A / 100000 <= strip_area (prof i) (prof (S i)) T /\ strip_area (prof i) (prof (S i)) T <= A) -> (i < n)%nat -> (j < T)%nat ->
    well_sized A (revolved_panel (P v0) i j).
  Proof.
    intros HA Hi Hj. apply (panel_sized v0 prof n T T th0 Hn HT HN Hpos Hmid Hpoles A (i, j)); [split; assumption| |now apply Hsz|now apply HA].
    rewrite (panel_is v0 prof n T T th0 Hn HT HN Hmid Hpoles (i, j)) by (split; assumption). apply same_polygon_refl.
  Qed.
  (** Some of the panels. *)
  Definition of_grid (qs : list polygon) : Prop := forall q, In q qs -> exists i j, (i < n)%nat /\ (j < T)%nat /\ q = revolved_panel (P v0) i j.
  Lemma columns_grid l : columns l -> of_grid (strips (P v0) n l) /\ strips (P v0) n l <> [].
  Proof.
    intros [Nl Hl]. split.
    - intros q Hq. apply in_strips in Hq. destruct Hq as (i & j & Hi & Hj & ->). exists i, j. auto.
    - destruct l as [|j l]; [contradiction|]. intros E'.
      assert (X : In (revolved_panel (P v0) 0 j) (strips (P v0) n (j :: l))) by (apply in_strips; exists 0%nat, j; repeat split; [lia|now left]). rewrite E' in X. destruct X.
  Qed.
  Lemma grid_spaced qs : of_grid qs -> spaced qs.
  Proof.
    intros Hl p p' q q' Hq Hq' Hp Hp'. destruct (Hl q Hq) as (i & j & Hi & Hj & ->), (Hl q' Hq') as (i' & j' & Hi' & Hj' & ->).
    unfold revolved_panel in Hp, Hp'. cbn [polygon_corners In] in Hp, Hp'. destruct Hp as [<-|[<-|[<-|[<-|[]]]]], Hp' as [<-|[<-|[<-|[<-|[]]]]]; apply spread_all; lia.
  Qed.
  Lemma grid_tidy m qs : of_grid qs -> qs <> [] -> carried m qs -> (forall f, In f (m_faces m) -> closes f) -> tidy m.
  Proof.
    intros Hl Nl C Cl. pose proof (grid_spaced qs Hl) as Sp. pose proof C as (Vm & Um & Nm & qs' & Pq & S).
    split; [exact Vm|]. split; [exact Um|]. split; [|split; [|split]].
    - intros E. unfold polygons_of in Pq. rewrite E in Pq. inversion Pq. subst. inversion S as [E'|]. congruence.
    - intros i j u v Hi Hj Hn'. destruct (carried_vertex m _ i u C Hi) as (q & Hq & Cu). destruct (carried_vertex m _ j v C Hj) as (q' & Hq' & Cv).
      destruct (Sp u v q q' Hq Hq' Cu Cv) as [-> |K]; [|apply near_dist in Hn'; lra].
      apply (proj1 (NoDup_nth_error (m_vertices m)) Nm); [apply nth_error_Some; congruence|congruence].
    - intros f Hf. exact (Cl f Hf).
    - destruct (largest_strip prof n T Hn Hcmp) as (A & HA). exists A. intros k a b c d (f & Hf & Ca & Cb & Cc & Cd). destruct (carried_face m _ k f C Hf) as (q & q' & Hq & Sq & Cq).
      assert (q' = (a, b, c, d)) as -> by (destruct q' as [[[a' b'] c'] d']; destruct Cq as (? & ? & ? & ?); congruence).
      apply (well_sized_same A q); [exact Sq|]. apply nth_error_In, Hl in Hq. destruct Hq as (i & j & Hi & Hj & ->).
      now apply (panel_fits A i j HA Hi).
  Qed.
  Lemma piece_tidy m l : columns l -> carried m (strips (P v0) n l) -> (forall f, In f (m_faces m) -> closes f) -> tidy m.
  Proof. intros Hl. destruct (columns_grid l Hl). now apply grid_tidy. Qed.
  Lemma piece_moved c m l : carried m (strips (P v0) n l) -> carried (translate m c) (strips (P c) n l).
  Proof.
    intros C. rewrite <- (map_id l). rewrite <- (strips_map (P v0) (P c) (poly_map (fun p => vadd p c))).
    - apply (carried_moved (fun p => vadd p c)); [|exact C]. intros x y. apply (motion_inj _ _ x y (motion_translate c)).
    - intros i j _ _. unfold revolved_panel. cbn [poly_map]. rewrite !moved_node. now rewrite !vadd_v0.
  Qed.
  Definition made_of_strips (c : vec) (t : tree) : Prop := filled t /\ sound_parts t /\ made_of t (revolved (P c) n T).
  Lemma pieces_made c t cols : filled t -> Forall2 carried (leaves t) (map (strips (P c) n) cols) -> Permutation (seq 0 T) (concat cols) -> made_of_strips c t.
  Proof.
    intros F C Pc. split; [exact F|]. split.
    - intros m Hm. apply In_nth_error in Hm. destruct Hm as [i Hi]. destruct (Forall2_nth_l _ _ _ _ _ C Hi) as (qs & _ & (A & B & D & _)). auto.
    - apply (made_carried t _ _ C). rewrite <- strips_concat, strips_all. now apply strips_perm.
  Qed.
  (** A surface in several pieces. *)
  Lemma pieces_healed t cols c : filled t -> (exists k l, t = Node k l) -> Forall2 carried (leaves t) (map (strips (P v0) n) cols) -> (forall l, In l cols -> columns l) ->
    (forall m f, In m (leaves t) -> In f (m_faces m) -> closes f) -> Permutation (seq 0 T) (concat cols) ->
    exists t', healed_at argsort set_order t c = Ok t' /\ made_of_strips c t' /\ length (leaves t') = length (leaves t).
  Proof.
    intros Fl (k0 & l0 & ET) C Hc Cl Pc.
    assert (T1 : tidy_tree t).
    { split; [exact Fl|]. intros m Hm. pose proof Hm as Hm'. apply In_nth_error in Hm. destruct Hm as [i Hi]. destruct (Forall2_nth_l _ _ _ _ _ C Hi) as (qs & Hq & Cm).
      apply nth_error_In, in_map_iff in Hq. destruct Hq as (l & <- & Hl). apply (piece_tidy m l); [now apply Hc|exact Cm|]. intros f. now apply Cl. }
    destruct (heal_parts_tidy argsort Hs (heal_normals set_order) t T1) as (t2 & E2 & (F2 & T2') & H2 & _).
    assert (C2 : Forall2 carried (leaves t2) (map (strips (P v0) n) cols)).
    { apply Forall2_nth. pose proof C as H'. apply Forall2_nth in H'. destruct H' as [L H']. pose proof H2 as H3. apply Forall2_nth in H3. destruct H3 as [L' H3]. split; [congruence|].
      intros i m1 qs Hm Hq. destruct (Forall2_nth_r _ _ _ _ _ H2 Hm) as (m & Hm0 & Hh'). apply (healed_carried m m1); [now apply (H' i)|exact Hh'|apply Hh']. }
    exists (t_translate t2 c). unfold healed_at. rewrite ET in *. cbn [t_heal]. rewrite E2. cbn [bind]. split; [reflexivity|].
    split; [|rewrite leaves_translate, map_length; symmetry; exact (f2_length _ _ _ H2)].
    apply pieces_made with (cols := cols); [now apply filled_translate| |exact Pc]. rewrite leaves_translate. clear - C2. revert cols C2. generalize (leaves t2). intros ms. induction ms as [|m ms IH]; intros [|l cols] C2; cbn [map] in *; try (now inversion C2); constructor.
    - apply piece_moved. now inversion C2.
    - apply IH. now inversion C2.
  Qed.
  (** Closed surfaces. *)
  Lemma strips_proper c q q' : In q (revolved (P c) n T) -> same_polygon q q' -> proper_face q'.
  Proof.
    intros Hq Sq. rewrite strips_all in Hq. apply in_strips in Hq. destruct Hq as (i & j & Hi & Hj & ->). apply in_seq in Hj.
    apply (panel_proper c prof n T T th0 Hn HT HN Hpos Hmid Hinj Hpoles (i, j)); [split; cbn; lia| |now apply Hsz].
    rewrite (panel_is c prof n T T th0 Hn HT HN Hmid Hpoles (i, j)) by (split; cbn; lia). exact Sq.
  Qed.
  Lemma surface_proper c t : made_of_strips c t -> exists qs, proper_surface t qs /\ exists qs', Permutation (revolved (P c) n T) qs' /\ Forall2 same_polygon qs' qs.
  Proof.
    intros (F & _ & qs' & qs & Tq & Pq & S). exists qs. split; [|eauto]. split; [exact F|]. split; [exact Tq|]. apply Forall_forall. intros q Hq.
    apply In_nth_error in Hq. destruct Hq as [k Hq]. destruct (Forall2_nth_r _ _ _ _ _ S Hq) as (q0 & H0 & Sq). apply (strips_proper c q0); [|exact Sq]. apply (Permutation_in _ (Permutation_sym Pq)). now apply nth_error_In in H0.
  Qed.
  Lemma surface_closed c t : rho 0 = 0 -> rho n = 0 -> made_of_strips c t -> exists qs, proper_surface t qs /\ watertight qs /\ volume t = Ok (INR T * solid prof n T).
  Proof.
    intros R0 Rn M. destruct (surface_proper c t M) as (qs & Su & qs' & Pq & S). exists qs. split; [exact Su|].
    assert (Po : forall i, rho i = 0 -> forall j j', P c i j = P c i j') by (intros i E j j'; now apply node_pole).
    assert (W : watertight qs).
    { apply (watertight_same (revolved (P c) n T) qs'); [exact Pq|exact S|]. apply revolved_watertight; [exact Hn|apply spec_round|now apply Po|now apply Po]. }
    split; [exact W|]. rewrite (volume_value t qs Su). f_equal. rewrite <- flux_total. destruct (closed_flux qs W) as [F1 F2]. rewrite F1, F2.
    assert (V : Rsum (map (fun q => vz (flux q)) qs) = INR T * Rsum (map (strip_flux c prof T 0) (seq 0 n))); [|rewrite V, flux_sum, R0, Rn; field].
    rewrite <- (rect_sum (strip_flux c prof T 0) n T).
    assert (K : exists ks, Permutation (rect_keys n T) ks /\ qs' = map (fun k : key => revolved_panel (P c) (fst k) (snd k)) ks).
    { enough (exists ks, qs' = map (fun k : key => revolved_panel (P c) (fst k) (snd k)) ks /\ Permutation (rect_keys n T) ks) as (ks & A & B) by eauto. apply Permutation_map_inv.
      apply Permutation_sym in Pq. rewrite Pq. unfold revolved, rect_keys, key. rewrite map_flat. apply Permutation_refl'. apply flat_ext_in. intros i _. rewrite map_map. reflexivity. }
    destruct K as (ks & Pk & ->). rewrite (Rsum_perm _ _ (Permutation_map _ Pk)).
    assert (Rk : forall k, In k ks -> ranged n T k) by (intros k Hk; apply in_rect; exact (Permutation_in _ (Permutation_sym Pk) Hk)).
    revert S Rk. clear Pq Pk Su W F1 F2. revert qs. induction ks as [|k ks IH]; intros qs S Rk; inversion S as [|a b la lb Sab Sl E1 E2]; subst; [reflexivity|]. cbn [map]. rewrite !Rsum_cons. f_equal.
    - rewrite <- (panel_flux c prof n T T th0 Hn HT HN Hmid Hpoles 0 k b); [ring|apply Rk; now left|].
      rewrite (panel_is c prof n T T th0 Hn HT HN Hmid Hpoles k) by (apply Rk; now left). exact Sab.
    - apply IH; [exact Sl|]. intros k' Hk'. apply Rk. now right.
  Qed.
End Pieces.

Lemma strips_ext P1 P2 m l : (forall i j, P1 i j = P2 i j) -> strips P1 m l = strips P2 m l.
Proof. intros E. unfold strips. apply flat_ext_in. intros i _. apply map_ext. intros j. unfold revolved_panel. now rewrite !E. Qed.
Lemma Oz_proper : proper_axis Oz_axis.
Proof. unfold proper_axis. apply unit_dot. cbn. vring. Qed.
Lemma mapM_map {A B} (f : A -> result B) (g : A -> B) l : (forall x, f x = Ok (g x)) -> mapM f l = Ok (map g l).
Proof. intros H. induction l as [|x l IH]; [reflexivity|]. cbn [mapM map]. rewrite H. cbn [bind]. now rewrite IH. Qed.
Lemma Oz_point th p : rotate_point Oz_axis th p = V (cos th * vx p - sin th * vy p) (sin th * vx p + cos th * vy p) (vz p).
Proof.
  destruct p as [x y z]. replace (cos th) with (1 - 2 * (sin (th / 2) * sin (th / 2))) by (replace th with (2 * (th / 2)) at 3 by field; rewrite cos_2a_sin; ring).
  unfold rotate_point, rotate_vector, rotation_matrix, mapply. apply vec_ext; cbn; unfold dot, vadd, vscale, vsub, col1, col2, col3, skew, e_z, v0; cbn [vx vy vz r1 r2 r3]; ring.
Qed.
Lemma turned_node prof T th0 k i j : (0 < T)%nat -> (k <= T)%nat -> rotate_point Oz_axis (2 * INR k * PI / INR T) (node v0 prof T th0 i j) = node v0 prof T th0 i (T - k + j).
Proof.
  intros HT H. assert (IT : INR T <> 0) by (apply not_0_INR; lia).
  rewrite Oz_point. unfold node, tp, angle. rewrite plus_INR, minus_INR by exact H.
  replace (th0 + 2 * PI * (INR T - INR k + INR j) / INR T) with ((th0 + 2 * PI * INR j / INR T - 2 * INR k * PI / INR T) + 2 * PI) by (field; exact IT).
  set (a := th0 + 2 * PI * INR j / INR T). set (b := 2 * INR k * PI / INR T).
  rewrite sin_plus, cos_plus, sin_2PI, cos_2PI, sin_minus, cos_minus. apply vec_ext; cbn [vadd vx vy vz v0]; ring.
Qed.
