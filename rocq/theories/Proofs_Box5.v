From Coq Require Import Reals List Bool Arith ZArith Lia Lra Permutation.
From Verif Require Import Model_Base Model_Geometry Model_Mesh Model_Clip Spec_Mesh Spec_Tree Spec_Clip Model_Tree Model_Body Spec_Body
  Proofs_Geometry Proofs_Mesh Proofs_Mesh2 Proofs_Mesh3 Proofs_Clip4 Proofs_Clip5 Model_Integrals Spec_Integrals Proofs_Integrals Proofs_Tree Proofs_Tree2 Proofs_Body Proofs_Body2 Proofs_Body5
  Model_Quality Spec_Quality Proofs_Quality Model_Normals Spec_Normals Proofs_Normals4 Model_Grid Spec_Grid Proofs_Grid Proofs_Grid2 Proofs_Grid3 Proofs_Grid4 Proofs_Grid5 Proofs_Grid6
  Model_Box Spec_Box Proofs_Box Proofs_Box2 Proofs_Box3 Proofs_Box4.
Import ListNotations.
Open Scope R_scope.

Lemma fold_max_le l : forall z, z <= fold_left (fun z w => Rmax z (vz w)) l z /\ forall v, In v l -> vz v <= fold_left (fun z w => Rmax z (vz w)) l z.
Proof.
  induction l as [|x l IH]; intros z; cbn [fold_left]; [split; [lra|intros v []]|]. destruct (IH (Rmax z (vz x))) as [A B].
  pose proof (Rmax_l z (vz x)). pose proof (Rmax_r z (vz x)). split; [lra|]. intros v [<-|Hv]; [lra|now apply B].
Qed.
Lemma fold_max_in l : forall z, fold_left (fun z w => Rmax z (vz w)) l z = z \/ exists v, In v l /\ fold_left (fun z w => Rmax z (vz w)) l z = vz v.
Proof.
  induction l as [|x l IH]; intros z; cbn [fold_left]; [now left|]. destruct (IH (Rmax z (vz x))) as [E|(v & Hv & E)]; [|right; exists v; split; [now right|exact E]].
  rewrite E. unfold Rmax. destruct (Rle_dec z (vz x)); [right; exists x; split; [now left|reflexivity]|now left].
Qed.
Lemma highest_spec m : m_vertices m <> [] -> exists z, highest m = Ok z /\ (forall v, In v (m_vertices m) -> vz v <= z) /\ exists v, In v (m_vertices m) /\ vz v = z.
Proof.
  unfold highest. destruct (m_vertices m) as [|x l]; [contradiction|]. intros _. eexists. split; [reflexivity|]. destruct (fold_max_le l (vz x)) as [A B]. split.
  - intros v [<-|Hv]; [exact A|now apply B].
  - destruct (fold_max_in l (vz x)) as [E|(v & Hv & E)]; [exists x; split; [now left|now rewrite E]|exists v; split; [now right|now rewrite E]].
Qed.
Lemma carried_same m qs qs2 : carried m qs -> Forall2 same_polygon qs2 qs -> carried m qs2.
Proof. intros (A & B & C & qs' & P & S) S2. split; [exact A|]. split; [exact B|]. split; [exact C|]. exists qs'. split; [exact P|]. exact (Forall2_same_trans _ _ _ S2 S). Qed.

Section Box.
  Variable argsort : list R -> list nat.
  Hypothesis Hs : sorts argsort.
  Variable set_order : list nat -> list nat.
  Hypothesis Ho : forall l, Permutation l (set_order l).
  Section Sizes.
  Variables (w t h : R) (nw nt nh : nat).
  Hypotheses (Hw : (0 < nw)%nat) (Ht : (0 < nt)%nat) (Hh : (0 < nh)%nat).
  Hypotheses (Dw : / 1000000 <= w / INR nw) (Dt : / 1000000 <= t / INR nt) (Dh : / 1000000 <= h / INR nh).
  Notation in_range := (in_range nw nt nh). Notation on := (on nw nt nh).

  Section Centre.
  Variable c : vec.
  Notation P := (box_node c w t h nw nt nh). Notation keyed := (keyed c w t h nw nt nh).
  Lemma on_range k g : in_range k -> on k g -> let '(x, y, z) := g in (x <= nw /\ y <= nt /\ z <= nh)%nat.
  Proof.
    clear. destruct k as [[s i] j], g as [[x y] z]. unfold Proofs_Box.in_range, Proofs_Box.on, within.
    destruct s; cbn [side_count across level seen_from fst snd]; lia.
  Qed.
  Lemma P_height x y z : (z <= nh)%nat -> vz c - h / 2 <= vz (P (x, y, z)) <= vz c + h / 2.
  Proof.
    intros L. cbn [box_node vadd vz]. apply le_INR in L. pose proof (pos_INR z). assert (0 < INR nh) by (apply lt_0_INR; exact Hh).
    replace (INR z * h / INR nh) with (INR z * (h / INR nh)) by (unfold Rdiv; ring).
    assert (E : h = INR nh * (h / INR nh)) by (field; lra).
    assert (0 <= INR z * (h / INR nh)) by (apply Rmult_le_pos; lra).
    assert (INR z * (h / INR nh) <= INR nh * (h / INR nh)) by (apply Rmult_le_compat_r; lra). lra.
  Qed.
  Lemma heal_keyed m ks A : NoDup ks -> (forall k, In k ks -> in_range k) -> ks <> [] ->
    (forall k, In k ks -> A / 100000 <= side_area w t h nw nt nh (skey k) <= A) -> carried m (map keyed ks) ->
    exists m', heal_leaf argsort (heal_normals set_order) true m = Ok m' /\ carried m' (map keyed ks).
  Proof.
    intros Nk Rk Ne HA C.
    assert (T : tidy m).
    { apply (plates_tidy A m (map keyed ks)); [now apply keyed_plates|now apply keyed_spaced|destruct ks; [contradiction|discriminate]|exact C]. }
    destruct (heal_tidy argsort Hs (heal_normals set_order) m T) as (m' & E & T' & N' & H').
    assert (C' : carried m' (map keyed ks)) by (apply (healed_carried m m' _ C); [split; [exact T'|split; assumption]|exact T']).
    exists m'. split; [|exact C']. rewrite heal_leaf_closed, E. cbn [bind].
    assert (Nf : m_faces m' <> []) by apply T'.
    destruct (heal_consistent_already set_order Ho m' (proj1 T') Nf (keyed_conformal c w t h nw nt nh Hw Ht Hh Dw Dt Dh m' ks Nk Rk C')
      (keyed_consistent c w t h nw nt nh Hw Ht Hh Dw Dt Dh m' ks Nk Rk C')) as [K|K]; [exact K|]. rewrite K. unfold outwards.
    assert (Nv : m_vertices m' <> []).
    { intros Ev. destruct (m_faces m') as [|f fs] eqn:Ef; [contradiction|].
      assert (H : (fa f < length (m_vertices m'))%nat) by (apply (proj1 T' f); [rewrite Ef; now left|now left]). rewrite Ev in H. cbn in H. lia. }
    destruct (highest_spec m' Nv) as (z & -> & Zu & v & Hv & Zv). cbn [bind].
    assert (Vz : forall v, In v (m_vertices m') -> vz c - h / 2 <= vz v <= vz c + h / 2).
    { intros u Hu. apply In_nth_error in Hu. destruct Hu as [i Hu]. destruct (carried_vertex m' _ i u C' Hu) as (q & Hq & Cq).
      apply in_map_iff in Hq. destruct Hq as (k & <- & Hk). apply keyed_corner in Cq. destruct Cq as (g & Og & ->). pose proof (on_range k g (Rk k Hk) Og) as L.
      destruct g as [[x y] z0]. apply P_height. apply L. }
    pose proof (Vz v Hv) as Bz. rewrite Zv in Bz.
    destruct (carried_tree (Leaf m') [map keyed ks]) as (qs' & Tq & S); [constructor; [exact C'|constructor]|]. cbn [concat] in S. rewrite app_nil_r in S.
    pose proof (tree_props (Leaf m') qs' ltac:(constructor) Tq) as Ep. cbn [t_props] in Ep. rewrite Ep. cbn [bind].
    rewrite (proj2 (Rltb_false _ _)); [reflexivity|]. unfold vertical_flux. clear - S Bz Hw Ht Hh Dw Dt Dh.
    remember (map keyed ks) as qs eqn:Eq. revert ks Eq. induction S as [|q q' qs qs' Sq S IH]; intros ks Eq; [cbn; lra|].
    destruct ks as [|k ks]; [discriminate|]. cbn in Eq. injection Eq as -> ->. cbn [map]. rewrite Rsum_cons. specialize (IH ks eq_refl).
    pose proof (keyed_props c w t h nw nt nh Hw Ht Hh Dw Dt Dh k q' Sq) as Kp. unfold side_panel_is in Kp.
    assert (Ap : 0 <= p_area (face_of q')).
    { pose proof (side_area_pos w t h nw nt nh Dw Dt Dh (skey k)) as Ha. unfold side_area in Ha. destruct (side_edges _ _ _ _ _ _ _). destruct Kp as ((-> & _) & _). lra. }
    assert (Kn : p_normal (face_of q') = side_normal (skey k) /\ dot (vsub (p_center (face_of q')) c) (side_normal (skey k)) = side_distance w t h (skey k))
      by (destruct (side_edges _ _ _ _ _ _ _); destruct Kp as ((_ & X & _) & Y); auto). destruct Kn as [-> Kd]. clear Kp.
    enough (0 <= (vz (p_center (face_of q')) - z) * p_area (face_of q') * vz (side_normal (skey k))) by lra.
    destruct (skey k); cbn [side_normal side_distance vz] in *; try lra; unfold dot in Kd; cbn [vsub vx vy vz] in Kd.
    - replace (_ * 1) with ((vz (p_center (face_of q')) - z) * p_area (face_of q')) by ring. apply Rmult_le_pos; lra.
    - replace (_ * -1) with ((z - vz (p_center (face_of q'))) * p_area (face_of q')) by ring. apply Rmult_le_pos; lra.
  Qed.
  End Centre.

  (** ** The mesh of a side *)
  Notation P := (box_node v0 w t h nw nt nh). Notation keyed := (keyed v0 w t h nw nt nh).
  Definition side_dirs (s : box_side) : vec * vec :=
    match s with
    | LeftSide => (e_y, e_z) | RightSide => (V 0 (-1) 0, e_z) | FrontSide => (V (-1) 0 0, e_z)
    | BackSide => (e_x, e_z) | TopSide => (e_y, e_x) | BottomSide => (e_y, V (-1) 0 0)
    end.
  Lemma side_alignable s : alignable start (side_normal s).
  Proof.
    assert (N : forall x, dot x x = 1 -> / 1000000 <= norm x) by (intros x Hx; unfold norm; rewrite Hx, sqrt_1; lra).
    destruct s; cbn [side_normal]; unfold alignable, start.
    - now left.
    - right; left. vring.
    - right; right. apply N. unfold dot. cbn. ring.
    - right; right. apply N. unfold dot. cbn. ring.
    - right; right. apply N. unfold dot. cbn. ring.
    - right; right. apply N. unfold dot. cbn. ring.
  Qed.
  Lemma side_turns l s : turns l start (side_normal s) -> (l e_y, l e_z) = side_dirs s.
  Proof.
    intros (Sc & Ad & _ & Cr & Ln & Lc & Id & Op).
    assert (Lx : l e_x = vopp (side_normal s)).
    { replace e_x with (vscale (-1) start) by (unfold start; vring). rewrite Sc, Ln. vring'. }
    assert (Neg : forall x y, l (vscale (-1) x) = vscale (-1) y -> l x = y).
    { intros x y E. rewrite Sc in E. apply (f_equal (vscale (-1))) in E. replace x with (vscale (-1) (vscale (-1) x)) by vring'. rewrite !Sc, E. vring'. }
    assert (Ey : l e_y = cross (l e_z) (l e_x)) by (rewrite Cr; f_equal; vring).
    assert (Ez : l e_z = cross (l e_x) (l e_y)) by (rewrite Cr; f_equal; vring).
    destruct s; cbn [side_normal side_dirs] in *.
    - rewrite !Id by reflexivity. reflexivity.
    - assert (Lz : l e_z = e_z).
      { apply Neg. destruct Op as [Op _]; [unfold start; vring|]. specialize (Op ltac:(unfold start; vring)).
        replace (cross start e_y) with (vscale (-1) e_z) in Op by (unfold start; vring). exact Op. }
      rewrite Ey, Lz, Lx. f_equal; vring.
    - assert (Lz : l e_z = e_z) by (replace (cross start _) with e_z in Lc by (unfold start; vring); exact Lc). rewrite Ey, Lz, Lx. f_equal; vring.
    - assert (Lz : l e_z = e_z) by (apply Neg; replace (cross start _) with (vscale (-1) e_z) in Lc by (unfold start; vring); exact Lc). rewrite Ey, Lz, Lx. f_equal; vring.
    - assert (Ly : l e_y = e_y) by (replace (cross start _) with e_y in Lc by (unfold start; vring); exact Lc). rewrite Ez, Ly, Lx. f_equal; vring.
    - assert (Ly : l e_y = e_y) by (apply Neg; replace (cross start _) with (vscale (-1) e_y) in Lc by (unfold start; vring); exact Lc). rewrite Ez, Ly, Lx. f_equal; vring.
  Qed.
  (** The nodes and the panels of the rectangle of a side, in the grid of the box. *)
  Definition rect_count (s : box_side) : nat * nat :=
    match s with LeftSide | RightSide => (nt, nh) | FrontSide | BackSide => (nw, nh) | TopSide | BottomSide => (nt, nw) end.
  Definition rect_size (s : box_side) : R * R :=
    match s with LeftSide | RightSide => (t, h) | FrontSide | BackSide => (w, h) | TopSide | BottomSide => (t, w) end.
  Definition rect_center (s : box_side) : vec :=
    match s with
    | LeftSide => V (- w / 2) 0 0 | RightSide => V (w / 2) 0 0 | FrontSide => V 0 (- t / 2) 0
    | BackSide => V 0 (t / 2) 0 | TopSide => V 0 0 (h / 2) | BottomSide => V 0 0 (- h / 2)
    end.
  Definition rect_point (s : box_side) (i j : nat) : grid_point :=
    match s with
    | LeftSide => (0, i, j) | RightSide => (nw, nt - i, j) | FrontSide => (nw - i, 0, j)
    | BackSide => (i, nt, j) | TopSide => (j, i, nh) | BottomSide => (nw - j, i, 0)
    end%nat.
  Definition rect_key (s : box_side) (i j : nat) : panel_key :=
    match s with
    | LeftSide => (s, i, j) | RightSide => (s, nt - 1 - i, j) | FrontSide => (s, nw - 1 - i, j)
    | BackSide => (s, i, j) | TopSide => (s, j, i) | BottomSide => (s, nw - 1 - j, i)
    end%nat.
  Lemma rect_nodes s i j : (i <= fst (rect_count s))%nat -> (j <= snd (rect_count s))%nat ->
    rectangle_node (rect_center s) (fst (side_dirs s)) (snd (side_dirs s)) (fst (rect_size s)) (snd (rect_size s)) (fst (rect_count s)) (snd (rect_count s)) i j
    = P (rect_point s i j).
  Proof.
    assert (INR nw <> 0) by (apply not_0_INR; lia). assert (INR nt <> 0) by (apply not_0_INR; lia). assert (INR nh <> 0) by (apply not_0_INR; lia).
    intros Hi Hj. destruct s; cbn [rect_count rect_size rect_center rect_point side_dirs fst snd] in *; unfold rectangle_node; cbn [box_node];
      rewrite ?minus_INR by assumption; apply vec_ext; cbn [vadd vscale vx vy vz e_x e_y e_z v0]; cbn [INR]; field; repeat split; assumption.
  Qed.
  Lemma rect_same s i j : (i < fst (rect_count s))%nat -> (j < snd (rect_count s))%nat ->
    same_polygon (keyed (rect_key s i j)) (cell (fun i j => P (rect_point s i j)) i j).
  Proof.
    intros Hi Hj. unfold Proofs_Box2.keyed, cell. destruct s; cbn [rect_count rect_key rect_point gpanel side_panel placed fst snd same_polygon] in *.
    - now left.
    - replace (S (nt - 1 - i)) with (nt - i)%nat by lia. replace (nt - S i)%nat with (nt - 1 - i)%nat by lia. tauto.
    - replace (S (nw - 1 - i)) with (nw - i)%nat by lia. replace (nw - S i)%nat with (nw - 1 - i)%nat by lia. tauto.
    - now left.
    - now left.
    - replace (S (nw - 1 - j)) with (nw - j)%nat by lia. replace (nw - S j)%nat with (nw - 1 - j)%nat by lia. tauto.
  Qed.
  Definition rect_keys (s : box_side) : list panel_key := flat_map (fun i => map (rect_key s i) (seq 0 (snd (rect_count s)))) (seq 0 (fst (rect_count s))).
  Lemma rect_keys_same s : Forall2 same_polygon (map keyed (rect_keys s)) (cells (fun i j => P (rect_point s i j)) (fst (rect_count s)) (snd (rect_count s))).
  Proof.
    unfold rect_keys, cells. rewrite map_flat.
    assert (G : forall n a, (forall i, In i (seq a n) -> (i < fst (rect_count s))%nat) ->
      Forall2 same_polygon (flat_map (fun i => map keyed (map (rect_key s i) (seq 0 (snd (rect_count s))))) (seq a n))
                           (flat_map (fun i => map (cell (fun i j => P (rect_point s i j)) i) (seq 0 (snd (rect_count s)))) (seq a n))).
    { induction n as [|n IH]; intros a H; cbn [seq flat_map]; [constructor|]. apply Forall2_app; [|apply IH; intros i Hi; apply H; now right].
      assert (Ha : (a < fst (rect_count s))%nat) by (apply H; now left). rewrite map_map.
      assert (J : forall j, In j (seq 0 (snd (rect_count s))) -> (j < snd (rect_count s))%nat) by (intros j Hj; apply in_seq in Hj; lia). revert J.
      generalize (seq 0 (snd (rect_count s))). intros l J. induction l as [|j l IHl]; cbn; constructor; [apply rect_same; [exact Ha|apply J; now left]|apply IHl; intros; apply J; now right]. }
    apply G. intros i Hi. apply in_seq in Hi. lia.
  Qed.
  Lemma in_rect_keys s k : In k (rect_keys s) <-> in_range k /\ skey k = s.
  Proof.
    unfold rect_keys. rewrite in_flat_map. destruct k as [[s' i] j]. unfold skey, Proofs_Box.in_range. cbn [fst]. split.
    - intros (i' & Hi & H). apply in_map_iff in H. destruct H as (j' & E & Hj). apply in_seq in Hi, Hj.
      destruct s; cbn [rect_key rect_count fst snd] in *; injection E as <- <- <-; cbn [side_count fst snd]; (split; [split; lia|reflexivity]).
    - intros ((Hi & Hj) & ->). destruct s; cbn [rect_count side_count fst snd] in *.
      + exists i. split; [apply in_seq; lia|]. apply in_map_iff. exists j. split; [reflexivity|apply in_seq; lia].
      + exists (nt - 1 - i)%nat. split; [apply in_seq; lia|]. apply in_map_iff. exists j. split; [cbn [rect_key]; do 2 f_equal; lia|apply in_seq; lia].
      + exists (nw - 1 - i)%nat. split; [apply in_seq; lia|]. apply in_map_iff. exists j. split; [cbn [rect_key]; do 2 f_equal; lia|apply in_seq; lia].
      + exists i. split; [apply in_seq; lia|]. apply in_map_iff. exists j. split; [reflexivity|apply in_seq; lia].
      + exists j. split; [apply in_seq; lia|]. apply in_map_iff. exists i. split; [reflexivity|apply in_seq; lia].
      + exists j. split; [apply in_seq; lia|]. apply in_map_iff. exists (nw - 1 - i)%nat. split; [cbn [rect_key]; do 2 f_equal; lia|apply in_seq; lia].
  Qed.
  Lemma nodup_flat_in {A B} (f : A -> list B) l : NoDup l -> (forall a, In a l -> NoDup (f a)) -> (forall a b x, In a l -> In b l -> In x (f a) -> In x (f b) -> a = b) -> NoDup (flat_map f l).
  Proof.
    clear. intros Nl. induction Nl as [|a l Na Nl IH]; intros Nf Df; cbn; [constructor|].
    apply NoDup_app_intro; [apply Nf; now left|apply IH; [intros; apply Nf; now right|intros; eapply Df; [now right|now right|eassumption..]]|].
    intros x Hx Hy. apply in_flat_map in Hy. destruct Hy as (b & Hb & Hy). assert (a = b) as <- by (apply (Df a b x); [now left|now right|assumption..]). contradiction.
  Qed.
  Lemma NoDup_map_in {A B} (f : A -> B) l : (forall x y, In x l -> In y l -> f x = f y -> x = y) -> NoDup l -> NoDup (map f l).
  Proof.
    clear. intros H N. induction N as [|a l Na N IH]; cbn; constructor; [|apply IH; intros; apply H; [now right|now right|assumption]].
    intros K. apply in_map_iff in K. destruct K as (b & E & Hb). rewrite (H b a) in Hb; [contradiction|now right|now left|exact E].
  Qed.
  Lemma nodup_rect_keys s : NoDup (rect_keys s).
  Proof.
    apply nodup_flat_in; [apply seq_NoDup| |].
    - intros i Hi. apply NoDup_map_in; [|apply seq_NoDup]. intros x y Hx Hy E. apply in_seq in Hx, Hy, Hi. destruct s; cbn [rect_key rect_count fst snd] in *; injection E; intros; lia.
    - intros a b x Ia Ib Ha Hb. apply in_seq in Ia, Ib. apply in_map_iff in Ha, Hb. destruct Ha as (j & <- & Hj), Hb as (j' & E & Hj'). apply in_seq in Hj, Hj'.
      destruct s; cbn [rect_key rect_count fst snd] in *; injection E; intros; lia.
  Qed.
  Lemma side_ok s : 0 < w -> 0 < t -> 0 < h ->
    exists m, side_mesh argsort set_order w t h (Z.of_nat nw) (Z.of_nat nt) (Z.of_nat nh) s = Ok (Leaf m) /\ carried m (map keyed (rect_keys s)).
  Proof.
    intros Pw Pt Ph.
    assert (E : side_mesh argsort set_order w t h (Z.of_nat nw) (Z.of_nat nt) (Z.of_nat nh) s
      = simple_rectangle argsort set_order (fst (rect_size s)) (snd (rect_size s)) (Z.of_nat (fst (rect_count s))) (Z.of_nat (snd (rect_count s))) (rect_center s) (side_normal s))
      by (destruct s; reflexivity).
    destruct (simple_ok argsort Hs set_order Ho (fst (rect_size s)) (snd (rect_size s)) (fst (rect_count s)) (snd (rect_count s))) with (c := rect_center s) (n := side_normal s)
      as (l & m & Em & _ & Tu & C); try (destruct s; cbn [rect_count rect_size fst snd]; assumption).
    { apply side_unit. } { apply side_alignable. }
    exists m. split; [now rewrite E|]. apply side_turns in Tu. assert (E1 : l e_y = fst (side_dirs s)) by now rewrite <- Tu. assert (E2 : l e_z = snd (side_dirs s)) by now rewrite <- Tu.
    rewrite E1, E2 in C. rewrite (cells_ext _ (fun i j => P (rect_point s i j))) in C by (intros; now apply rect_nodes).
    apply (carried_same m _ _ C). apply rect_keys_same.
  Qed.

  (** ** The merged sides *)
  Lemma merged_ok missing : 0 < w -> 0 < t -> 0 < h -> existsb (fun s => negb (missing s)) box_sides = true ->
    exists m ks, merged_sides argsort set_order w t h (Z.of_nat nw) (Z.of_nat nt) (Z.of_nat nh) missing = Ok m /\ carried m (map keyed ks)
      /\ NoDup ks /\ ks <> [] /\ (forall k, In k ks <-> in_range k /\ negb (missing (skey k)) = true).
  Proof.
    intros Pw Pt Ph Ex. unfold merged_sides. change [LeftSide; RightSide; FrontSide; BackSide; TopSide; BottomSide] with box_sides.
    set (ss := filter (fun s => negb (missing s)) box_sides).
    assert (Sd : exists ms, mapM (side_mesh argsort set_order w t h (Z.of_nat nw) (Z.of_nat nt) (Z.of_nat nh)) ss = Ok (map Leaf ms)
      /\ Forall2 carried ms (map (fun s => map keyed (rect_keys s)) ss)).
    { clearbody ss. clear Ex. induction ss as [|s ss (ms & E & F2)]; [exists []; split; [reflexivity|constructor]|].
      destruct (side_ok s Pw Pt Ph) as (m & Em & Cm). exists (m :: ms). split; [cbn [mapM map]; now rewrite Em, E|now constructor]. }
    destruct Sd as (ms & -> & F2). cbn [bind].
    assert (Ec : concat (map (fun s => map keyed (rect_keys s)) ss) = map keyed (flat_map rect_keys ss)) by (rewrite map_flat; now rewrite flat_map_concat_map).
    assert (In_ks : forall k, In k (flat_map rect_keys ss) <-> in_range k /\ negb (missing (skey k)) = true).
    { intros k. rewrite in_flat_map. unfold ss. split.
      - intros (s & Hs' & Hk). apply filter_In in Hs'. apply in_rect_keys in Hk. destruct Hk as [Hk <-]. tauto.
      - intros (Hk & Pk). exists (skey k). split; [apply filter_In; split; [destruct (skey k); cbn; tauto|assumption]|]. now apply in_rect_keys. }
    assert (Ne : flat_map rect_keys ss <> []).
    { apply existsb_exists in Ex. destruct Ex as (s & _ & Es). intros E0. assert (K : In (s, 0%nat, 0%nat) (flat_map rect_keys ss)); [|rewrite E0 in K; destruct K].
      apply In_ks. split; [|exact Es]. unfold Proofs_Box.in_range. destruct s; cbn; lia. }
    destruct (merged_carried argsort Hs ms _ F2) as (m & Em & Cm).
    { rewrite Ec. now apply keyed_spaced. } { rewrite Ec. destruct (flat_map rect_keys ss); [contradiction|discriminate]. }
    exists m, (flat_map rect_keys ss). split; [exact Em|]. rewrite Ec in Cm. split; [exact Cm|]. split; [|split; [exact Ne|exact In_ks]].
    apply nodup_flat; [apply NoDup_filter; repeat constructor; cbn; intuition discriminate|apply nodup_rect_keys|].
    intros a b x Ha Hb. apply in_rect_keys in Ha, Hb. destruct Ha as [_ <-], Hb as [_ <-]. reflexivity.
  Qed.
  End Sizes.
End Box.
