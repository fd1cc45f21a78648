From Coq Require Import Reals List Bool Arith ZArith Lia Lra Permutation.
From Verif Require Import Model_Base Model_Geometry Model_Mesh Model_Clip Spec_Mesh Spec_Tree Spec_Clip Model_Tree Model_Body Spec_Body
  Proofs_Geometry Proofs_Mesh Proofs_Mesh2 Proofs_Mesh3 Proofs_Clip4 Proofs_Clip5 Proofs_Problem Model_Integrals Spec_Integrals Proofs_Integrals Proofs_Tree Proofs_Tree2 Proofs_Body Proofs_Body2 Proofs_Body5
  Model_Quality Spec_Quality Proofs_Quality Model_Normals Spec_Normals Proofs_Normals4 Model_Grid Spec_Grid Proofs_Grid Proofs_Grid2 Proofs_Grid3 Proofs_Grid4 Proofs_Grid5 Proofs_Grid6
  Model_Box Spec_Box Proofs_Box Proofs_Box2 Proofs_Box3 Proofs_Box4 Proofs_Box5.
Import ListNotations.
Open Scope R_scope.

Lemma largest (f : box_side -> R) (present : box_side -> bool) : forall l, existsb present l = true ->
  exists s, present s = true /\ forall s', In s' l -> present s' = true -> f s' <= f s.
Proof.
  induction l as [|a l IH]; intros H; [discriminate|]. cbn in H. destruct (present a) eqn:Pa.
  - destruct (existsb present l) eqn:El.
    + destruct (IH eq_refl) as (s & Ps & Hs). destruct (Rle_lt_dec (f a) (f s)) as [L|L].
      * exists s. split; [exact Ps|]. intros s' [<-|Hi] Ps'; [exact L|now apply Hs].
      * exists a. split; [exact Pa|]. intros s' [<-|Hi] Ps'; [lra|]. specialize (Hs s' Hi Ps'). lra.
    + exists a. split; [exact Pa|]. intros s' [<-|Hi] Ps'; [lra|]. assert (existsb present l = true) by (apply existsb_exists; eauto). congruence.
  - cbn in H. destruct (IH H) as (s & Ps & Hs). exists s. split; [exact Ps|]. intros s' [<-|Hi] Ps'; [congruence|now apply Hs].
Qed.
Lemma comparable_bound w t h nw nt nh present : comparable w t h nw nt nh present -> existsb present box_sides = true ->
  exists A, forall s, present s = true -> A / 100000 <= side_area w t h nw nt nh s <= A.
Proof.
  intros C E. destruct (largest (side_area w t h nw nt nh) present box_sides E) as (s & Ps & Hs). exists (side_area w t h nw nt nh s).
  intros s' Ps'. split; [exact (C s s' Ps Ps')|]. apply Hs; [destruct s'; cbn; tauto|exact Ps'].
Qed.
Lemma keyed_moved c0 c w t h nw nt nh ks :
  map (poly_map (fun p => vadd p c)) (map (keyed c0 w t h nw nt nh) ks) = map (keyed (vadd c0 c) w t h nw nt nh) ks.
Proof.
  rewrite map_map. apply map_ext. intros k. unfold keyed. destruct (gpanel nw nt nh k) as [[[a b] d] e].
  assert (E : forall g, vadd (box_node c0 w t h nw nt nh g) c = box_node (vadd c0 c) w t h nw nt nh g) by (intros [[x y] z]; cbn [box_node]; apply vec_ext; cbn; ring).
  cbn [placed poly_map]. now rewrite !E.
Qed.
Lemma vadd_v0 c : vadd v0 c = c. Proof. apply vec_ext; cbn; ring. Qed.
Lemma carried_translate c0 c w t h nw nt nh m ks : carried m (map (keyed c0 w t h nw nt nh) ks) -> carried (translate m c) (map (keyed (vadd c0 c) w t h nw nt nh) ks).
Proof.
  intros C. rewrite <- keyed_moved. apply (carried_moved (fun p => vadd p c)); [|exact C]. intros x y. apply (motion_inj _ _ x y (motion_translate c)).
Qed.

Section Box.
  Variable argsort : list R -> list nat.
  Hypothesis Hs : sorts argsort.
  Variable set_order : list nat -> list nat.
  Hypothesis Ho : forall l, Permutation l (set_order l).

  (** ** Boxes in one piece *)
  Lemma simple_ok' w t h nw nt nh c missing : (0 < nw)%nat -> (0 < nt)%nat -> (0 < nh)%nat ->
    / 1000000 <= w / INR nw -> / 1000000 <= t / INR nt -> / 1000000 <= h / INR nh -> 0 < w -> 0 < t -> 0 < h ->
    comparable w t h nw nt nh (fun s => negb (missing s)) -> existsb (fun s => negb (missing s)) box_sides = true ->
    exists m ks, bind (merged_sides argsort set_order w t h (Z.of_nat nw) (Z.of_nat nt) (Z.of_nat nh) missing) (fun m => healed_at argsort set_order (Leaf m) c) = Ok (Leaf m)
      /\ carried m (map (keyed c w t h nw nt nh) ks) /\ NoDup ks /\ ks <> [] /\ (forall k, In k ks <-> in_range nw nt nh k /\ negb (missing (skey k)) = true).
  Proof.
    intros Hw Ht Hh Dw Dt Dh Pw Pt Ph Cm Ex.
    destruct (merged_ok argsort Hs set_order Ho w t h nw nt nh Hw Ht Hh Dw Dt Dh missing Pw Pt Ph Ex) as (m & ks & -> & C & Nk & Ne & Ik). cbn [bind].
    destruct (comparable_bound _ _ _ _ _ _ _ Cm Ex) as (A & HA).
    destruct (heal_keyed argsort Hs set_order Ho w t h nw nt nh Hw Ht Hh Dw Dt Dh v0 m ks A) as (m' & E & C'); try assumption.
    { intros k Hk. now apply Ik. } { intros k Hk. apply HA. now apply Ik. }
    exists (translate m' c), ks. unfold healed_at. cbn [t_heal]. rewrite E. cbn [bind t_translate]. split; [reflexivity|]. split; [|auto].
    rewrite <- (vadd_v0 c) at 2. now apply carried_translate.
  Qed.
  Lemma checks_ok w t h nw nt nh : 0 < w -> 0 < t -> 0 < h -> (0 < nw)%nat -> (0 < nt)%nat -> (0 < nh)%nat -> box_checks w t h (Z.of_nat nw) (Z.of_nat nt) (Z.of_nat nh) = true.
  Proof.
    intros. unfold box_checks. rewrite !(proj2 (Rltb_true 0 _)) by assumption. cbn [andb].
    rewrite !(proj2 (Z.ltb_lt 0 _)) by lia. reflexivity.
  Qed.
  Lemma edge_pos w n : (0 < n)%nat -> / 1000000 <= w / INR n -> 0 < w.
  Proof.
    intros Hn H. assert (0 < INR n) by (apply lt_0_INR; exact Hn). replace w with (w / INR n * INR n) by (field; lra). apply Rmult_lt_0_compat; lra.
  Qed.

  Section Sizes.
  Variables (w t h : R) (nw nt nh : nat).
  Hypotheses (Hw : (0 < nw)%nat) (Ht : (0 < nt)%nat) (Hh : (0 < nh)%nat).
  Hypotheses (Dw : / 1000000 <= w / INR nw) (Dt : / 1000000 <= t / INR nt) (Dh : / 1000000 <= h / INR nh).
  Notation in_range := (in_range nw nt nh). Notation on := (on nw nt nh).
  Notation P := (box_node v0 w t h nw nt nh). Notation keyed := (keyed v0 w t h nw nt nh).
  Notation keyed_at c := (Proofs_Box2.keyed c w t h nw nt nh).

  (** ** Boxes in several pieces *)
  Lemma heal_pieces T kss A c : filled T -> (exists k l, T = Node k l) -> Forall2 carried (leaves T) (map (map keyed) kss) ->
    (forall ks, In ks kss -> ks <> [] /\ forall k, In k ks -> A / 100000 <= side_area w t h nw nt nh (skey k) <= A) ->
    exists T', healed_at argsort set_order T c = Ok T' /\ filled T' /\ Forall2 carried (leaves T') (map (map (keyed_at c)) kss).
  Proof.
    intros Fl (k0 & l0 & ET) H G.
    assert (T1 : tidy_tree T).
    { split; [exact Fl|]. intros m Hm. apply In_nth_error in Hm. destruct Hm as [i Hi]. destruct (Forall2_nth_l _ _ _ _ _ H Hi) as (qs & Hq & C).
      apply nth_error_In in Hq. apply in_map_iff in Hq. destruct Hq as (ks & <- & Hk). destruct (G ks Hk) as [Ne B].
      apply (plates_tidy A m (map keyed ks)); [now apply keyed_plates|now apply keyed_spaced|destruct ks; [contradiction|discriminate]|exact C]. }
    destruct (heal_parts_tidy argsort Hs (heal_normals set_order) T T1) as (T2 & E2 & (F2 & T2') & H2 & _).
    assert (C2 : Forall2 carried (leaves T2) (map (map keyed) kss)).
    { apply Forall2_nth. pose proof H as H'. apply Forall2_nth in H'. destruct H' as [L H']. pose proof H2 as H3. apply Forall2_nth in H3. destruct H3 as [L' H3]. split; [congruence|].
      intros i m1 qs Hm Hq. destruct (Forall2_nth_r _ _ _ _ _ H2 Hm) as (m & Hm0 & Hh'). apply (healed_carried m m1); [now apply (H' i)|exact Hh'|apply Hh']. }
    exists (t_translate T2 c). unfold healed_at. rewrite ET in *. cbn [t_heal]. rewrite E2. cbn [bind]. split; [reflexivity|]. split; [now apply filled_translate|].
    rewrite leaves_translate. clear - C2. remember (map (map keyed) kss) as qss eqn:Eq. revert kss Eq. induction C2 as [|m qs ms qss C H IH]; intros kss Eq.
    - symmetry in Eq. apply map_eq_nil in Eq. subst. constructor.
    - destruct kss as [|ks kss]; [discriminate|]. cbn in Eq. injection Eq as -> ->. cbn [map]. constructor; [|now apply IH].
      rewrite <- (vadd_v0 c) at 2. now apply carried_translate.
  Qed.
  Lemma yOz_point p : mirror_point yOz_Plane p = V (- vx p) (vy p) (vz p).
  Proof.
    assert (Z : pl_c yOz_Plane = 0) by (unfold pl_c; replace (dot (pl_normal yOz_Plane) (pl_point yOz_Plane)) with 0 by (unfold dot; cbn; ring); apply Rabs_R0).
    unfold mirror_point. rewrite Z. apply vec_ext; unfold dot; cbn; ring.
  Qed.
  Lemma xOz_point p : mirror_point xOz_Plane p = V (vx p) (- vy p) (vz p).
  Proof.
    assert (Z : pl_c xOz_Plane = 0) by (unfold pl_c; replace (dot (pl_normal xOz_Plane) (pl_point xOz_Plane)) with 0 by (unfold dot; cbn; ring); apply Rabs_R0).
    unfold mirror_point. rewrite Z. apply vec_ext; unfold dot; cbn; ring.
  Qed.
  Definition mirror_x (k : panel_key) : panel_key :=
    match k with
    | (LeftSide, i, j) => (RightSide, i, j) | (RightSide, i, j) => (LeftSide, i, j) | (s, i, j) => (s, nw - 1 - i, j)%nat
    end.
  Definition mirror_y (k : panel_key) : panel_key :=
    match k with
    | (FrontSide, i, j) => (BackSide, i, j) | (BackSide, i, j) => (FrontSide, i, j)
    | (LeftSide, i, j) => (LeftSide, nt - 1 - i, j) | (RightSide, i, j) => (RightSide, nt - 1 - i, j) | (s, i, j) => (s, i, nt - 1 - j)
    end%nat.
  Lemma P_mirror_x x y z : (x <= nw)%nat -> mirror_point yOz_Plane (P (x, y, z)) = P ((nw - x)%nat, y, z).
  Proof.
    intros L. assert (INR nw <> 0) by (apply not_0_INR; lia). rewrite yOz_point. cbn [box_node]. rewrite minus_INR by exact L. apply vec_ext; cbn [vadd vx vy vz v0]; try reflexivity; field; assumption.
  Qed.
  Lemma P_mirror_y x y z : (y <= nt)%nat -> mirror_point xOz_Plane (P (x, y, z)) = P (x, (nt - y)%nat, z).
  Proof.
    intros L. assert (INR nt <> 0) by (apply not_0_INR; lia). rewrite xOz_point. cbn [box_node]. rewrite minus_INR by exact L. apply vec_ext; cbn [vadd vx vy vz v0]; try reflexivity; field; assumption.
  Qed.
  Lemma keyed_mirror_x k : in_range k -> same_polygon (keyed (mirror_x k)) (poly_flip (poly_map (mirror_point yOz_Plane) (keyed k))).
  Proof.
    intros Hk. destruct k as [[s i] j]. unfold Proofs_Box.in_range in Hk. unfold Proofs_Box2.keyed.
    destruct s; cbn [side_count fst snd] in Hk; cbn [mirror_x gpanel side_panel placed poly_map poly_flip]; rewrite !P_mirror_x by lia; cbn [same_polygon];
      rewrite ?Nat.sub_0_r, ?Nat.sub_diag; try tauto;
      replace (S (nw - 1 - i)) with (nw - i)%nat by lia; replace (nw - S i)%nat with (nw - 1 - i)%nat by lia; tauto.
  Qed.
  Lemma keyed_mirror_y k : in_range k -> same_polygon (keyed (mirror_y k)) (poly_flip (poly_map (mirror_point xOz_Plane) (keyed k))).
  Proof.
    intros Hk. destruct k as [[s i] j]. unfold Proofs_Box.in_range in Hk. unfold Proofs_Box2.keyed.
    destruct s; cbn [side_count fst snd] in Hk; cbn [mirror_y gpanel side_panel placed poly_map poly_flip]; rewrite !P_mirror_y by lia; cbn [same_polygon];
      rewrite ?Nat.sub_0_r, ?Nat.sub_diag; try tauto;
      try (replace (S (nt - 1 - i)) with (nt - i)%nat by lia; replace (nt - S i)%nat with (nt - 1 - i)%nat by lia; tauto);
      replace (S (nt - 1 - j)) with (nt - j)%nat by lia; replace (nt - S j)%nat with (nt - 1 - j)%nat by lia; tauto.
  Qed.
  Lemma mirror_x_range k : in_range k -> in_range (mirror_x k).
  Proof. destruct k as [[s i] j]. unfold Proofs_Box.in_range. destruct s; cbn; lia. Qed.
  Lemma mirror_y_range k : in_range k -> in_range (mirror_y k).
  Proof. destruct k as [[s i] j]. unfold Proofs_Box.in_range. destruct s; cbn; lia. Qed.
  Lemma mirror_x_twice k : in_range k -> mirror_x (mirror_x k) = k.
  Proof. destruct k as [[s i] j]. unfold Proofs_Box.in_range. destruct s; cbn; intros; try reflexivity; do 2 f_equal; lia. Qed.
  Lemma mirror_y_twice k : in_range k -> mirror_y (mirror_y k) = k.
  Proof. destruct k as [[s i] j]. unfold Proofs_Box.in_range. destruct s; cbn; intros; try reflexivity; do 2 f_equal; lia. Qed.
  Lemma mirror_xy k : mirror_x (mirror_y k) = mirror_y (mirror_x k).
  Proof. destruct k as [[s i] j]. destruct s; reflexivity. Qed.
  Lemma carried_mirror_x m ks : (forall k, In k ks -> in_range k) -> carried m (map keyed ks) -> carried (mirror m yOz_Plane) (map keyed (map mirror_x ks)).
  Proof.
    intros Rk C. assert (U : unit_vector (pl_normal yOz_Plane)) by (apply unit_dot; cbn; vring). pose proof (carried_mirror yOz_Plane m _ U C) as C'.
    apply (carried_same _ _ _ C'). rewrite !map_map. clear - Rk Hw Ht Hh. induction ks as [|k ks IH]; cbn; constructor; [apply keyed_mirror_x; apply Rk; now left|apply IH; intros; apply Rk; now right].
  Qed.
  Lemma carried_mirror_y m ks : (forall k, In k ks -> in_range k) -> carried m (map keyed ks) -> carried (mirror m xOz_Plane) (map keyed (map mirror_y ks)).
  Proof.
    intros Rk C. assert (U : unit_vector (pl_normal xOz_Plane)) by (apply unit_dot; cbn; vring). pose proof (carried_mirror xOz_Plane m _ U C) as C'.
    apply (carried_same _ _ _ C'). rewrite !map_map. clear - Rk Hw Ht Hh. induction ks as [|k ks IH]; cbn; constructor; [apply keyed_mirror_y; apply Rk; now left|apply IH; intros; apply Rk; now right].
  Qed.

  (** ** With two reflections *)
  Section Reflected.
  Variables (pw pt : nat).
  Hypotheses (Ew : nw = (pw + pw)%nat) (Et : nt = (pt + pt)%nat).
  Definition low_x (k : panel_key) : bool := match k with (LeftSide, _, _) => true | (RightSide, _, _) => false | (_, i, _) => Nat.ltb i pw end.
  Definition low_y (k : panel_key) : bool :=
    match k with (FrontSide, _, _) => true | (BackSide, _, _) => false | (LeftSide, i, _) | (RightSide, i, _) => Nat.ltb i pt | (_, _, j) => Nat.ltb j pt end.
  Lemma ltb_flip i n p : n = (p + p)%nat -> (i < n)%nat -> Nat.ltb (n - 1 - i) p = negb (Nat.ltb i p).
  Proof. intros -> H. destruct (Nat.ltb_spec i p), (Nat.ltb_spec (p + p - 1 - i) p); cbn; lia. Qed.
  Lemma low_xx k : in_range k -> low_x (mirror_x k) = negb (low_x k).
  Proof. destruct k as [[s i] j]. unfold Proofs_Box.in_range. destruct s; cbn [side_count fst snd mirror_x low_x]; intros [? ?]; try reflexivity; now apply ltb_flip. Qed.
  Lemma low_yy k : in_range k -> low_y (mirror_y k) = negb (low_y k).
  Proof. destruct k as [[s i] j]. unfold Proofs_Box.in_range. destruct s; cbn [side_count fst snd mirror_y low_y]; intros [? ?]; try reflexivity; now apply ltb_flip. Qed.
  Lemma low_xy k : low_x (mirror_y k) = low_x k.
  Proof. destruct k as [[s i] j]. destruct s; reflexivity. Qed.
  Lemma low_yx k : low_y (mirror_x k) = low_y k.
  Proof. destruct k as [[s i] j]. destruct s; reflexivity. Qed.
  Lemma quarter_range k : skey k <> RightSide -> skey k <> BackSide -> Proofs_Box.in_range pw pt nh k <-> in_range k /\ low_x k = true /\ low_y k = true.
  Proof.
    destruct k as [[s i] j]. unfold Proofs_Box.in_range, skey. cbn [fst]. intros N1 N2. destruct s; try contradiction; cbn [side_count fst snd low_x low_y]; rewrite ?Nat.ltb_lt; lia.
  Qed.
  Lemma quarter_keyed k : skey k <> RightSide -> skey k <> BackSide -> Proofs_Box2.keyed (V (- w / 4) (- t / 4) 0) (w / 2) (t / 2) h pw pt nh k = keyed k.
  Proof.
    intros N1 N2. assert (Qw : INR nw = 2 * INR pw) by (rewrite Ew, plus_INR; ring). assert (Qt : INR nt = 2 * INR pt) by (rewrite Et, plus_INR; ring).
    assert (INR pw <> 0) by (apply not_0_INR; lia). assert (INR pt <> 0) by (apply not_0_INR; lia). assert (INR nh <> 0) by (apply not_0_INR; lia).
    assert (E : forall g, box_node (V (- w / 4) (- t / 4) 0) (w / 2) (t / 2) h pw pt nh g = P g).
    { intros [[x y] z]. cbn [box_node]. rewrite Qw, Qt. apply vec_ext; cbn [vadd vx vy vz v0]; field; assumption. }
    destruct k as [[s i] j]. unfold Proofs_Box2.keyed. unfold skey in *. cbn [fst] in *. destruct s; try contradiction; cbn [gpanel side_panel placed]; now rewrite !E.
  Qed.
  Lemma mirror_back_x ks k : (forall k, In k ks -> in_range k) -> in_range k -> In k (map mirror_x ks) <-> In (mirror_x k) ks.
  Proof.
    intros Rk Hk. rewrite in_map_iff. split; [intros (k' & <- & Hk'); rewrite mirror_x_twice; [exact Hk'|now apply Rk]|]. intros H. exists (mirror_x k). split; [now apply mirror_x_twice|exact H].
  Qed.
  Lemma mirror_back_y ks k : (forall k, In k ks -> in_range k) -> in_range k -> In k (map mirror_y ks) <-> In (mirror_y k) ks.
  Proof.
    intros Rk Hk. rewrite in_map_iff. split; [intros (k' & <- & Hk'); rewrite mirror_y_twice; [exact Hk'|now apply Rk]|]. intros H. exists (mirror_y k). split; [now apply mirror_y_twice|exact H].
  Qed.
  Lemma reflected_ok missing c : comparable w t h nw nt nh (shown true missing) -> existsb (shown true missing) box_sides = true ->
    exists T, bind (simple_box argsort set_order (w / 2) (t / 2) h (Z.of_nat pw) (Z.of_nat pt) (Z.of_nat nh) (V (- w / 4) (- t / 4) 0) (without [RightSide; BackSide] missing)) (fun quarter =>
      bind (ReflectionSymmetricMesh quarter yOz_Plane) (fun half => bind (ReflectionSymmetricMesh half xOz_Plane) (fun t => healed_at argsort set_order t c))) = Ok T
      /\ filled T /\ is_box c w t h nw nt nh (shown true missing) T.
  Proof.
    intros Cm Ex. pose proof (edge_pos w nw Hw Dw) as Pw. pose proof (edge_pos t nt Ht Dt) as Pt. pose proof (edge_pos h nh Hh Dh) as Ph.
    assert (Qw : INR nw = 2 * INR pw) by (rewrite Ew, plus_INR; ring). assert (Qt : INR nt = 2 * INR pt) by (rewrite Et, plus_INR; ring).
    assert (Ip : INR pw <> 0) by (apply not_0_INR; lia). assert (It : INR pt <> 0) by (apply not_0_INR; lia).
    assert (E1 : w / 2 / INR pw = w / INR nw) by (rewrite Qw; field; assumption). assert (E2 : t / 2 / INR pt = t / INR nt) by (rewrite Qt; field; assumption).
    assert (Ms : forall s, negb (without [RightSide; BackSide] missing s) = true -> shown true missing s = true /\ s <> RightSide /\ s <> BackSide).
    { intros s. unfold without, shown. destruct s; cbn [existsb orb]; rewrite ?orb_false_r, ?orb_true_r; intros H; try discriminate; repeat split; try exact H; discriminate. }
    assert (Sa : forall s, panel_area (w / 2) (t / 2) h pw pt nh s = panel_area w t h nw nt nh s) by (intros s; unfold panel_area; destruct s; cbn [side_edges]; rewrite ?E1, ?E2; reflexivity).
    unfold simple_box. rewrite checks_ok by (lra || lia). cbn [negb].
    destruct (simple_ok' (w / 2) (t / 2) h pw pt nh (V (- w / 4) (- t / 4) 0) (without [RightSide; BackSide] missing)) as (m & ks & -> & C & Nk & Ne & Ik);
      try (rewrite ?E1, ?E2; assumption || lra || lia).
    { intros s s' Hs1 Hs2. rewrite !Sa. apply Cm; now apply Ms. }
    { apply existsb_exists in Ex. destruct Ex as (s & _ & Es). apply existsb_exists.
      exists (match s with RightSide => LeftSide | BackSide => FrontSide | _ => s end). unfold shown in Es. unfold without. destruct s; cbn in *; rewrite ?orb_false_r, Es; tauto. }
    assert (Kq : forall k, In k ks <-> in_range k /\ low_x k = true /\ low_y k = true /\ shown true missing (skey k) = true).
    { intros k. rewrite Ik. split.
      - intros (A & B). apply Ms in B. destruct B as (B1 & B2 & B3). apply (quarter_range k B2 B3) in A. tauto.
      - intros (A & B1 & B2 & B3). assert (N1 : skey k <> RightSide) by (destruct k as [[s i] j]; unfold skey; cbn; intros ->; cbn in B1; discriminate).
        assert (N2 : skey k <> BackSide) by (destruct k as [[s i] j]; unfold skey; cbn; intros ->; cbn in B2; discriminate).
        split; [apply quarter_range; auto|]. unfold without. unfold shown in B3. destruct (skey k); cbn in *; rewrite ?orb_false_r; try contradiction; exact B3. }
    assert (C0 : carried m (map keyed ks)).
    { erewrite map_ext_in; [exact C|]. intros k Hk. symmetry. apply Ik in Hk. destruct Hk as [_ Hk]. apply Ms in Hk. apply quarter_keyed; tauto. }
    assert (Rk : forall k, In k ks -> in_range k) by (intros k Hk; now apply Kq in Hk).
    assert (Rx : forall k, In k (map mirror_x ks) -> in_range k) by (intros k Hk; apply in_map_iff in Hk; destruct Hk as (k' & <- & Hk'); apply mirror_x_range; now apply Rk).
    assert (Ry : forall k, In k (map mirror_y ks) -> in_range k) by (intros k Hk; apply in_map_iff in Hk; destruct Hk as (k' & <- & Hk'); apply mirror_y_range; now apply Rk).
    assert (Rxy : forall k, In k (map mirror_y (map mirror_x ks)) -> in_range k) by (intros k Hk; apply in_map_iff in Hk; destruct Hk as (k' & <- & Hk'); apply mirror_y_range; now apply Rx).
    pose proof (carried_mirror_x m ks Rk C0) as Cx. pose proof (carried_mirror_y m ks Rk C0) as Cy. pose proof (carried_mirror_y _ _ Rx Cx) as Cxy.
    cbn [bind]. unfold ReflectionSymmetricMesh at 1. unfold make_reflection. cbn [pl_normal yOz_Plane vz]. rewrite Reqb_refl. cbn [negb bind copy depth copy_within t_mirror].
    unfold ReflectionSymmetricMesh, make_reflection. cbn [pl_normal xOz_Plane vz]. rewrite Reqb_refl. cbn [negb].
    change (copy (Node (Reflection yOz_Plane) [Leaf m; Leaf (mirror m yOz_Plane)])) with (make_reflection (copy_within 0) (Leaf m) yOz_Plane).
    unfold make_reflection. cbn [pl_normal yOz_Plane vz]. rewrite Reqb_refl. cbn [negb bind copy_within t_mirror map sequence].
    change (sequence [Ok (Leaf (mirror m xOz_Plane)); Ok (Leaf (mirror (mirror m yOz_Plane) xOz_Plane))])
      with (Ok [Leaf (mirror m xOz_Plane); Leaf (mirror (mirror m yOz_Plane) xOz_Plane)]). cbn [bind].
    match goal with |- exists T, healed_at _ _ ?X _ = _ /\ _ => set (T0 := X) end.
    destruct (comparable_bound _ _ _ _ _ _ _ Cm Ex) as (A & HA).
    assert (Sx : forall k, shown true missing (skey (mirror_x k)) = shown true missing (skey k)) by (intros [[s i] j]; destruct s; reflexivity).
    assert (Sy : forall k, shown true missing (skey (mirror_y k)) = shown true missing (skey k)) by (intros [[s i] j]; destruct s; reflexivity).
    assert (Q : forall k x y, low_x k = x -> low_y k = y -> in_range k -> In k (if x then if y then ks else map mirror_y ks else if y then map mirror_x ks else map mirror_y (map mirror_x ks)) <-> shown true missing (skey k) = true).
    { intros k x y Lx Ly Hk. destruct x, y.
      - rewrite Kq. tauto.
      - rewrite (mirror_back_y _ k Rk Hk), Kq, low_xy, low_yy, Sy, Lx, Ly by exact Hk. pose proof (mirror_y_range k Hk). cbn. tauto.
      - rewrite (mirror_back_x _ k Rk Hk), Kq, low_yx, low_xx, Sx, Lx, Ly by exact Hk. pose proof (mirror_x_range k Hk). cbn. tauto.
      - pose proof (mirror_y_range k Hk) as Hk'. rewrite (mirror_back_y _ k Rx Hk), (mirror_back_x _ _ Rk Hk'), Kq, low_xx, low_yx, low_xy, low_yy, Sx, Sy, Lx, Ly by assumption.
        pose proof (mirror_x_range _ Hk'). cbn. tauto. }
    assert (L1 : forall k, In k ks -> low_x k = true /\ low_y k = true) by (intros k Hk; now apply Kq in Hk).
    assert (L2 : forall k, In k (map mirror_x ks) -> low_x k = false /\ low_y k = true).
    { intros k Hk. apply in_map_iff in Hk. destruct Hk as (k' & <- & Hk'). pose proof (Rk k' Hk'). rewrite low_xx, low_yx by assumption. destruct (L1 k' Hk') as [-> ->]. auto. }
    assert (L3 : forall k, In k (map mirror_y ks) -> low_x k = true /\ low_y k = false).
    { intros k Hk. apply in_map_iff in Hk. destruct Hk as (k' & <- & Hk'). pose proof (Rk k' Hk'). rewrite low_xy, low_yy by assumption. destruct (L1 k' Hk') as [-> ->]. auto. }
    assert (L4 : forall k, In k (map mirror_y (map mirror_x ks)) -> low_x k = false /\ low_y k = false).
    { intros k Hk. apply in_map_iff in Hk. destruct Hk as (k' & <- & Hk'). pose proof (Rx k' Hk'). rewrite low_xy, low_yy by assumption. destruct (L2 k' Hk') as [-> ->]. auto. }
    assert (Nx : NoDup (map mirror_x ks)).
    { apply NoDup_map_in; [|exact Nk]. intros x y Hx Hy E. rewrite <- (mirror_x_twice x), <- (mirror_x_twice y) by now apply Rk. now rewrite E. }
    assert (Ny : NoDup (map mirror_y ks)).
    { apply NoDup_map_in; [|exact Nk]. intros x y Hx Hy E. rewrite <- (mirror_y_twice x), <- (mirror_y_twice y) by now apply Rk. now rewrite E. }
    assert (Nxy : NoDup (map mirror_y (map mirror_x ks))).
    { apply NoDup_map_in; [|exact Nx]. intros x y Hx Hy E. rewrite <- (mirror_y_twice x), <- (mirror_y_twice y) by now apply Rx. now rewrite E. }
    destruct (heal_pieces T0 [ks; map mirror_x ks; map mirror_y ks; map mirror_y (map mirror_x ks)] A c) as (T & ET & FT & CT).
    - constructor; [discriminate|]. intros x [<-|[<-|[]]]; (constructor; [discriminate|]); intros y [<-|[<-|[]]]; constructor.
    - unfold T0. eauto.
    - cbn. repeat (constructor; [assumption|]). constructor.
    - intros ks' Hks. assert (Ne' : ks' <> []) by (destruct Hks as [<-|[<-|[<-|[<-|[]]]]]; destruct ks; (contradiction || discriminate)). split; [exact Ne'|].
      intros k Hk. apply HA.
      destruct Hks as [<-|[<-|[<-|[<-|[]]]]].
      + apply Kq in Hk. tauto.
      + pose proof (L2 k Hk) as [X Y]. apply (Q k false true X Y (Rx k Hk)). exact Hk.
      + pose proof (L3 k Hk) as [X Y]. apply (Q k true false X Y (Ry k Hk)). exact Hk.
      + pose proof (L4 k Hk) as [X Y]. apply (Q k false false X Y (Rxy k Hk)). exact Hk.
    - exists T. split; [exact ET|]. split; [exact FT|].
      apply (keyed_box c w t h nw nt nh Hw Ht Hh Dw Dt Dh T [ks; map mirror_x ks; map mirror_y ks; map mirror_y (map mirror_x ks)]); [exact FT|exact CT| |].
      + cbn [concat]. rewrite app_nil_r. apply NoDup_app_intro; [exact Nk|apply NoDup_app_intro; [exact Nx|apply NoDup_app_intro; [exact Ny|exact Nxy|]|]|].
        * intros k A1 A2. apply L3 in A1. apply L4 in A2. destruct A1, A2. congruence.
        * intros k A1 A2. apply L2 in A1. apply in_app_or in A2. destruct A2 as [A2|A2]; [apply L3 in A2|apply L4 in A2]; destruct A1, A2; congruence.
        * intros k A1 A2. apply L1 in A1. apply in_app_or in A2. destruct A2 as [A2|A2]; [apply L2 in A2|apply in_app_or in A2; destruct A2 as [A2|A2]; [apply L3 in A2|apply L4 in A2]]; destruct A1, A2; congruence.
      + intros k. cbn [concat]. rewrite app_nil_r. split.
        * intros H. repeat (apply in_app_or in H; destruct H as [H|H]).
          -- apply Kq in H. tauto.
          -- pose proof (L2 k H) as [X Y]. split; [now apply Rx|]. now apply (Q k false true X Y (Rx k H)).
          -- pose proof (L3 k H) as [X Y]. split; [now apply Ry|]. now apply (Q k true false X Y (Ry k H)).
          -- pose proof (L4 k H) as [X Y]. split; [now apply Rxy|]. now apply (Q k false false X Y (Rxy k H)).
        * intros (Hk & Sk). pose proof (proj2 (Q k _ _ eq_refl eq_refl Hk) Sk) as H. rewrite !in_app_iff. destruct (low_x k), (low_y k); tauto.
  Qed.
  End Reflected.

  (** ** With translations *)
  Definition shifted (n : nat) (k : panel_key) : panel_key := let '(s, i, j) := k in (s, (n + i)%nat, j).
  Lemma strip_keyed n k : skey k <> LeftSide -> skey k <> RightSide ->
    poly_map (fun p => vadd p (vscale (INR n) (V (w / INR nw) 0 0))) (Proofs_Box2.keyed (V (- w / 2 + w / (2 * INR nw)) 0 0) (w / INR nw) t h 1 nt nh k) = keyed (shifted n k).
  Proof.
    intros N1 N2. assert (In_ : INR nw <> 0) by (apply not_0_INR; lia).
    assert (E : forall x y z, vadd (box_node (V (- w / 2 + w / (2 * INR nw)) 0 0) (w / INR nw) t h 1 nt nh (x, y, z)) (vscale (INR n) (V (w / INR nw) 0 0)) = P ((n + x)%nat, y, z)).
    { intros x y z. cbn [box_node]. rewrite plus_INR. change (INR 1) with 1. apply vec_ext; cbn [vadd vscale vx vy vz v0]; [field; assumption|ring|ring]. }
    destruct k as [[s i] j]. unfold Proofs_Box2.keyed. unfold skey in *. cbn [fst] in *.
    destruct s; try contradiction; cbn [gpanel shifted side_panel placed poly_map]; rewrite !E; rewrite ?Nat.add_succ_r; reflexivity.
  Qed.
  Lemma strip_range k : skey k <> LeftSide -> skey k <> RightSide -> Proofs_Box.in_range 1 nt nh k ->
    forall n, (n < nw)%nat -> in_range (shifted n k).
  Proof.
    destruct k as [[s i] j]. unfold Proofs_Box.in_range, skey. cbn [fst]. intros N1 N2. destruct s; try contradiction; cbn [side_count fst snd shifted]; lia.
  Qed.
  Lemma translated_ok missing c : (2 <= nw)%nat -> comparable w t h nw nt nh (shown false missing) ->
    existsb (fun s => negb (without [LeftSide; RightSide] missing s)) box_sides = true ->
    exists T, bind (simple_box argsort set_order (w / INR nw) t h 1 (Z.of_nat nt) (Z.of_nat nh) (V (- w / 2 + w / (2 * INR nw)) 0 0) (without [LeftSide; RightSide] missing)) (fun strip =>
      bind (TranslationalSymmetricMesh strip (V (w / INR nw) 0 0) false (nw - 1)) (fun open =>
      bind (if missing RightSide then Ok [] else bind (side_mesh argsort set_order w t h (Z.of_nat nw) (Z.of_nat nt) (Z.of_nat nh) RightSide) (fun x => Ok [x])) (fun right =>
      bind (if missing LeftSide then Ok [] else bind (side_mesh argsort set_order w t h (Z.of_nat nw) (Z.of_nat nt) (Z.of_nat nh) LeftSide) (fun x => Ok [x])) (fun left =>
      healed_at argsort set_order (Node Plain (open :: right ++ left)) c)))) = Ok T
      /\ filled T /\ is_box c w t h nw nt nh (shown false missing) T.
  Proof.
    intros N2 Cm Ex. pose proof (edge_pos w nw Hw Dw) as Pw. pose proof (edge_pos t nt Ht Dt) as Pt. pose proof (edge_pos h nh Hh Dh) as Ph.
    assert (Ip : INR nw <> 0) by (apply not_0_INR; lia). set (dw := w / INR nw) in *.
    assert (E1 : dw / INR 1 = dw) by (change (INR 1) with 1; field).
    assert (Ms : forall s, negb (without [LeftSide; RightSide] missing s) = true <-> shown false missing s = true /\ s <> LeftSide /\ s <> RightSide).
    { intros s. unfold without, shown. destruct s; cbn [existsb orb]; rewrite ?orb_false_r, ?orb_true_r; split; intros H; try discriminate; try (destruct H as (? & ? & ?)); try contradiction; repeat split; try assumption; discriminate. }
    assert (Sa : forall s, panel_area dw t h 1 nt nh s = panel_area w t h nw nt nh s) by (intros s; unfold panel_area; destruct s; cbn [side_edges]; rewrite ?E1; reflexivity).
    unfold simple_box. change 1%Z with (Z.of_nat 1). rewrite checks_ok by (lra || lia). cbn [negb].
    destruct (simple_ok' dw t h 1 nt nh (V (- w / 2 + w / (2 * INR nw)) 0 0) (without [LeftSide; RightSide] missing)) as (m & ks & -> & C & Nk & Ne & Ik);
      try (rewrite ?E1; assumption || lra || lia).
    { intros s s' Hs1 Hs2. rewrite !Sa. apply Cm; now apply Ms. }
    cbn [bind].
    assert (Kn : forall k, In k ks -> skey k <> LeftSide /\ skey k <> RightSide /\ shown false missing (skey k) = true) by (intros k Hk; apply Ik in Hk; destruct Hk as [_ Hk]; apply Ms in Hk; tauto).
    set (tr := fun k => Mesh (map (fun p => vadd p (vscale (INR k) (V dw 0 0))) (m_vertices m)) (m_faces m)).
    assert (E0 : tr 0%nat = m).
    { unfold tr. destruct m as [vs fs]. cbn [m_vertices m_faces]. f_equal. rewrite <- (map_id vs) at 2. apply map_ext. intros x. cbn [INR]. vring'. }
    assert (Ct : forall n, carried (tr n) (map keyed (map (shifted n) ks))).
    { intros n. pose proof (carried_moved (fun p => vadd p (vscale (INR n) (V dw 0 0))) m _ (fun x y => motion_inj _ _ x y (motion_translate (vscale (INR n) (V dw 0 0)))) C) as C'.
      erewrite map_map, map_ext_in; [rewrite map_map in C'; exact C'|]. intros k Hk. cbn beta. symmetry. apply strip_keyed; now apply Kn. }
    assert (ET : TranslationalSymmetricMesh (Leaf m) (V dw 0 0) false (nw - 1) = Ok (Node (Translation (V dw 0 0) false) (map Leaf (map tr (seq 0 nw))))).
    { unfold TranslationalSymmetricMesh, make_translation. rewrite (proj2 (Nat.ltb_ge _ _)) by lia. cbn [vz]. rewrite Reqb_refl. cbn [negb].
      assert (X : forall l, mapM (fun i => bind (copy (Leaf m)) (fun c0 => Ok (t_translate c0 (vscale (INR i) (V dw 0 0))))) l = Ok (map Leaf (map tr l))).
      { induction l as [|k l IH]; cbn [mapM map]; [reflexivity|]. rewrite IH. reflexivity. }
      rewrite X. cbn [bind]. destruct nw as [|n]; [lia|]. cbn [seq map]. rewrite E0. replace (S n - 1)%nat with n by lia. reflexivity. }
    rewrite ET. cbn [bind].
    destruct (side_ok argsort Hs set_order Ho w t h nw nt nh Hw Ht Hh Dw Dt Dh RightSide Pw Pt Ph) as (mr & -> & Cr).
    destruct (side_ok argsort Hs set_order Ho w t h nw nt nh Hw Ht Hh Dw Dt Dh LeftSide Pw Pt Ph) as (ml & -> & Cl). cbn [bind].
    set (ends := (if missing RightSide then [] else [(RightSide, mr)]) ++ (if missing LeftSide then [] else [(LeftSide, ml)])).
    assert (Ee : forall F, bind (if missing RightSide then Ok [] else Ok [Leaf mr]) (fun right => bind (if missing LeftSide then Ok [] else Ok [Leaf ml]) (fun left => F (right ++ left)))
      = F (map (fun e => Leaf (snd e)) ends) :> result tree) by (intros F; unfold ends; destruct (missing RightSide), (missing LeftSide); reflexivity).
    rewrite (Ee (fun l => healed_at argsort set_order (Node Plain (_ :: l)) c)).
    assert (He : forall e, In e ends -> (fst e = RightSide \/ fst e = LeftSide) /\ shown false missing (fst e) = true /\ carried (snd e) (map keyed (rect_keys nw nt nh (fst e)))).
    { intros e He. unfold ends in He. apply in_app_or in He. unfold shown. destruct He as [He|He]; [destruct (missing RightSide) eqn:Em|destruct (missing LeftSide) eqn:Em]; (destruct He as [<-|[]] || destruct He); cbn [fst snd]; rewrite Em; auto. }
    assert (Ie : forall s, (s = RightSide \/ s = LeftSide) -> shown false missing s = true -> In s (map fst ends)).
    { intros s Hs' Sh. unfold shown in Sh. unfold ends. destruct Hs' as [-> | ->]; destruct (missing RightSide), (missing LeftSide); cbn in *; tauto || discriminate. }
    assert (Nend : NoDup (map fst ends)) by (unfold ends; destruct (missing RightSide), (missing LeftSide); cbn; repeat constructor; cbn; intuition discriminate).
    clearbody ends. clear Ee.
    set (kss := map (fun n => map (shifted n) ks) (seq 0 nw) ++ map (fun e => rect_keys nw nt nh (fst e)) ends).
    assert (Si : exists s, shown false missing s = true) by (destruct ks as [|k ks']; [contradiction|]; exists (skey k); apply Kn; now left).
    assert (Ex' : existsb (shown false missing) box_sides = true) by (destruct Si as [s Ss]; apply existsb_exists; exists s; split; [destruct s; cbn; tauto|exact Ss]).
    destruct (comparable_bound _ _ _ _ _ _ _ Cm Ex') as (A & HA).
    set (T0 := Node Plain _).
    assert (Lv : leaves T0 = map tr (seq 0 nw) ++ map snd ends).
    { unfold T0. assert (G : forall l, concat (map leaves (map Leaf l)) = l) by (clear; induction l as [|x l IH]; cbn; [reflexivity|]; now rewrite IH).
      cbn [leaves map concat]. rewrite G. f_equal. rewrite map_map. cbn [leaves]. clear. induction ends as [|x l IH]; cbn; [reflexivity|]. now rewrite IH. }
    assert (Fl : filled T0).
    { constructor; [discriminate|]. intros x [<-|Hx].
      - constructor; [destruct nw as [|n0]; [lia|discriminate]|]. intros x Hx. apply in_map_iff in Hx. destruct Hx as (y & <- & _). constructor.
      - apply in_map_iff in Hx. destruct Hx as (e & <- & _). constructor. }
    assert (F2 : Forall2 carried (leaves T0) (map (map keyed) kss)).
    { rewrite Lv. unfold kss. rewrite map_app. apply Forall2_app.
      - rewrite map_map. clear - Ct. induction (seq 0 nw) as [|n l IH]; cbn; constructor; [apply Ct|exact IH].
      - rewrite map_map. clear - He. induction ends as [|e l IH]; cbn; constructor; [now apply He; left|apply IH; intros; apply He; now right]. }
    assert (Sh : forall n k, skey (shifted n k) = skey k) by (intros n [[s i] j]; reflexivity).
    assert (K1 : forall ks', In ks' kss -> ks' <> [] /\ forall k, In k ks' -> in_range k /\ shown false missing (skey k) = true).
    { intros ks' H. unfold kss in H. apply in_app_or in H. destruct H as [H|H]; apply in_map_iff in H.
      - destruct H as (n & <- & Hn). apply in_seq in Hn. split; [destruct ks; [contradiction|discriminate]|]. intros k Hk. apply in_map_iff in Hk. destruct Hk as (k' & <- & Hk').
        rewrite Sh. destruct (Kn k' Hk') as (A1 & A2 & A3). split; [|exact A3]. apply strip_range; [exact A1|exact A2|now apply Ik in Hk'|lia].
      - destruct H as (e & <- & He'). destruct (He e He') as (A1 & A2 & _). split.
        + intros E. assert (K : In (fst e, 0%nat, 0%nat) (rect_keys nw nt nh (fst e))); [|rewrite E in K; destruct K]. apply in_rect_keys; [assumption..|].
          split; [unfold Proofs_Box.in_range; destruct A1 as [-> | ->]; cbn; lia|reflexivity].
        + intros k Hk. apply in_rect_keys in Hk; [|assumption..]. destruct Hk as [Hk ->]. auto. }
    destruct (heal_pieces T0 kss A c) as (T & ETT & FT & CT); [exact Fl|unfold T0; eauto|exact F2| |].
    { intros ks' Hks. destruct (K1 ks' Hks) as [B1 B2]. split; [exact B1|]. intros k Hk. apply HA. now apply B2. }
    exists T. split; [exact ETT|]. split; [exact FT|].
    apply (keyed_box c w t h nw nt nh Hw Ht Hh Dw Dt Dh T kss); [exact FT|exact CT| |].
    - unfold kss. rewrite concat_app, <- !flat_map_concat_map. apply NoDup_app_intro.
      + apply nodup_flat_in; [apply seq_NoDup| |].
        * intros n _. apply NoDup_map_inj; [|exact Nk]. intros [[s i] j] [[s' i'] j'] E. cbn in E. injection E as -> E ->. do 2 f_equal. lia.
        * intros a b x _ _ Ha Hb. apply in_map_iff in Ha, Hb. destruct Ha as (k & <- & Hk), Hb as (k' & E & Hk').
          destruct (Kn k Hk) as (A1 & A2 & _). destruct (Kn k' Hk') as (A1' & A2' & _). apply Ik in Hk, Hk'. destruct Hk as [Hk _], Hk' as [Hk' _].
          destruct k as [[s i] j], k' as [[s' i'] j']. unfold Proofs_Box.in_range, skey in *. cbn [fst shifted] in *. injection E as -> E ->.
          destruct s; try contradiction; cbn [side_count fst snd] in *; lia.
      + clear - Nend Hw Ht Hh Dw Dt Dh. induction ends as [|e l IH]; cbn; [constructor|]. cbn in Nend. apply NoDup_cons_iff in Nend. destruct Nend as [Na Nl].
        apply NoDup_app_intro; [now apply nodup_rect_keys|now apply IH|]. intros x Hx Hy. apply in_flat_map in Hy. destruct Hy as (e' & He' & Hy).
        apply in_rect_keys in Hx; [|assumption..]. apply in_rect_keys in Hy; [|assumption..]. apply Na. apply in_map_iff. exists e'. split; [|exact He']. destruct Hx as [_ <-], Hy as [_ <-]. reflexivity.
      + intros x Hx Hy. apply in_flat_map in Hx, Hy. destruct Hx as (n & _ & Hx), Hy as (e & He' & Hy). apply in_map_iff in Hx. destruct Hx as (k & <- & Hk).
        apply in_rect_keys in Hy; [|assumption..]. destruct Hy as [_ Hy]. rewrite Sh in Hy. destruct (Kn k Hk) as (A1 & A2 & _). destruct (He e He') as ([A3|A3] & _); rewrite A3 in Hy; contradiction.
    - intros k. split.
      + intros H. apply in_concat in H. destruct H as (ks' & H1 & H2). now apply (K1 ks').
      + intros (Hk & Sk). apply in_concat. destruct k as [[s i] j]. unfold skey in Sk. cbn [fst] in Sk.
        assert (D : (s = RightSide \/ s = LeftSide) \/ (s <> LeftSide /\ s <> RightSide)) by (destruct s; auto; right; split; discriminate).
        destruct D as [D|[D1 D2]].
        * specialize (Ie s D Sk). apply in_map_iff in Ie. destruct Ie as (e & <- & He'). exists (rect_keys nw nt nh (fst e)). split; [unfold kss; apply in_or_app; right; apply in_map_iff; eauto|].
          apply in_rect_keys; [assumption..|]. split; [exact Hk|reflexivity].
        * exists (map (shifted i) ks). unfold Proofs_Box.in_range in Hk. split.
          -- unfold kss. apply in_or_app. left. apply in_map_iff. exists i. split; [reflexivity|]. apply in_seq. destruct s; try contradiction; cbn [side_count fst snd] in Hk; lia.
          -- apply in_map_iff. exists (s, 0%nat, j). split; [cbn [shifted]; do 2 f_equal; lia|]. apply Ik. unfold skey. cbn [fst]. split; [|apply Ms; auto].
             unfold Proofs_Box.in_range. destruct s; try contradiction; cbn [side_count fst snd] in *; lia.
  Qed.
End Sizes.
End Box.
