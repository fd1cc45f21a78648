From Coq Require Import Reals List Bool Arith ZArith Lia Lra Permutation.
From Verif Require Import Model_Base Model_Geometry Model_Mesh Model_Clip Spec_Mesh Spec_Tree Spec_Clip Model_Tree Model_Body Spec_Body
  Proofs_Geometry Proofs_Mesh Proofs_Mesh3 Proofs_Clip4 Proofs_Clip5 Model_Integrals Spec_Integrals Proofs_Integrals Proofs_Tree Proofs_Tree2 Proofs_Body Proofs_Body2 Proofs_Body5
  Model_Quality Spec_Quality Model_Normals Spec_Normals Proofs_Normals4 Model_Grid Spec_Grid Proofs_Grid Proofs_Grid2 Proofs_Grid3 Proofs_Grid4 Proofs_Grid5
  Model_Box Spec_Box Proofs_Box Proofs_Box2.
Import ListNotations.
Open Scope R_scope.

Section Panels.
  Variables (c : vec) (w t h : R) (nw nt nh : nat).
  Hypotheses (Hw : (0 < nw)%nat) (Ht : (0 < nt)%nat) (Hh : (0 < nh)%nat).
  Hypotheses (Dw : / 1000000 <= w / INR nw) (Dt : / 1000000 <= t / INR nt) (Dh : / 1000000 <= h / INR nh).
  Notation P := (box_node c w t h nw nt nh).
  Notation gpanel := (gpanel nw nt nh). Notation on := (on nw nt nh). Notation gsides := (gsides nw nt nh). Notation in_range := (in_range nw nt nh).
  Notation keyed := (keyed c w t h nw nt nh).
  Notation side_area := (side_area w t h nw nt nh).
  Lemma INR_pos' n : (0 < n)%nat -> INR n <> 0. Proof. intros H. apply not_0_INR. lia. Qed.
  Lemma on_plane k g : on k g -> dot (vsub (P g) c) (side_normal (skey k)) = side_distance w t h (skey k).
  Proof.
    destruct k as [[s i] j], g as [[x y] z]. unfold Proofs_Box.on, within. pose proof (INR_pos' _ Hw). pose proof (INR_pos' _ Ht). pose proof (INR_pos' _ Hh).
    destruct s; cbn [across level seen_from skey fst side_normal side_distance box_node]; intros (-> & _); unfold dot; cbn [vsub vadd vx vy vz]; cbn [INR]; field; repeat split; assumption.
  Qed.
  Lemma keyed_props k q' : same_polygon (keyed k) q' -> side_panel_is c w t h nw nt nh (skey k) (face_of q').
  Proof.
    intros S. pose proof (rectq_same _ _ _ _ _ S (keyed_rect c w t h nw nt nh k)) as Rq.
    destruct (rectq_props (side_area (skey k)) (side_diag w t h nw nt nh (skey k)) (side_normal (skey k)) q') as (A & N & Ra & Ce).
    { apply side_unit. } { apply side_area_pos; assumption. }
    { unfold side_diag. destruct (side_edges _ _ _ _ _ _ _). apply sqrt_pos. } { exact Rq. }
    unfold side_panel_is. unfold side_area, side_diag in *. destruct (side_edges w t h nw nt nh (skey k)) as [a b]. split; [repeat split; assumption|].
    rewrite Ce. assert (Cor : forall p, In p (polygon_corners q') -> dot (vsub p c) (side_normal (skey k)) = side_distance w t h (skey k)).
    { intros p Hp. apply (same_polygon_corners _ _ _ S) in Hp. apply keyed_corner in Hp. destruct Hp as (g & Og & ->). now apply on_plane. }
    destruct q' as [[[p1 p2] p3] p4]. cbn [polygon_corners] in *.
    pose proof (Cor p1 ltac:(cbn; tauto)) as C1. pose proof (Cor p2 ltac:(cbn; tauto)) as C2. pose proof (Cor p3 ltac:(cbn; tauto)) as C3. pose proof (Cor p4 ltac:(cbn; tauto)) as C4.
    revert C1 C2 C3 C4. generalize (side_distance w t h (skey k)) (side_normal (skey k)). clear. intros d [nx ny nz]. unfold dot. destruct p1, p2, p3, p4, c. cbn. intros. lra.
  Qed.

  (** ** The panels of the sides *)
  Definition side_keys (s : box_side) : list panel_key :=
    flat_map (fun i => map (fun j => (s, i, j)) (seq 0 (snd (side_count nw nt nh s)))) (seq 0 (fst (side_count nw nt nh s))).
  Definition box_keys (present : box_side -> bool) : list panel_key := flat_map side_keys (filter present box_sides).
  Lemma in_side_keys s k : In k (side_keys s) <-> in_range k /\ skey k = s.
  Proof.
    unfold side_keys. rewrite in_flat_map. destruct k as [[s' i] j]. unfold skey, Proofs_Box.in_range. cbn [fst]. split.
    - intros (i' & Hi & H). apply in_map_iff in H. destruct H as (j' & E & Hj). injection E as <- <- <-. apply in_seq in Hi, Hj. split; [split; lia|reflexivity].
    - intros ((Hi & Hj) & ->). exists i. split; [apply in_seq; lia|]. apply in_map_iff. exists j. split; [reflexivity|apply in_seq; lia].
  Qed.
  Lemma in_box_keys present k : In k (box_keys present) <-> in_range k /\ present (skey k) = true.
  Proof.
    unfold box_keys. rewrite in_flat_map. split.
    - intros (s & Hs & Hk). apply filter_In in Hs. apply in_side_keys in Hk. destruct Hk as [Hk <-]. tauto.
    - intros (Hk & Pk). exists (skey k). split; [apply filter_In; split; [destruct (skey k); cbn; tauto|assumption]|]. now apply in_side_keys.
  Qed.
  Lemma nodup_flat {A B} (f : A -> list B) l : NoDup l -> (forall a, NoDup (f a)) -> (forall a b x, In x (f a) -> In x (f b) -> a = b) -> NoDup (flat_map f l).
  Proof.
    clear. intros Nl Nf Df. induction Nl as [|a l Na Nl IH]; cbn; [constructor|].
    apply NoDup_app_intro; [apply Nf|exact IH|]. intros x Hx Hy. apply in_flat_map in Hy. destruct Hy as (b & Hb & Hy). rewrite (Df a b x Hx Hy) in Na. contradiction.
  Qed.
  Lemma nodup_side_keys s : NoDup (side_keys s).
  Proof.
    apply nodup_flat; [apply seq_NoDup| |].
    - intros i. apply NoDup_map_inj; [intros x y E; now injection E|apply seq_NoDup].
    - intros a b x Ha Hb. apply in_map_iff in Ha, Hb. destruct Ha as (? & <- & _), Hb as (? & E & _). now injection E.
  Qed.
  Lemma nodup_box_keys present : NoDup (box_keys present).
  Proof.
    apply nodup_flat; [apply NoDup_filter| |].
    - repeat constructor; cbn; intuition discriminate.
    - apply nodup_side_keys.
    - intros a b x Ha Hb. apply in_side_keys in Ha, Hb. destruct Ha as [_ <-], Hb as [_ <-]. reflexivity.
  Qed.
  Lemma map_flat {A B C} (g : B -> C) (f : A -> list B) l : map g (flat_map f l) = flat_map (fun a => map g (f a)) l.
  Proof. clear. induction l as [|a l IH]; cbn; [reflexivity|]. now rewrite map_app, IH. Qed.
  Lemma box_panels_keyed present : box_panels c w t h nw nt nh present = map keyed (box_keys present).
  Proof.
    unfold box_panels, box_keys. rewrite map_flat. apply flat_map_ext. intros s. unfold side_panels, side_keys. rewrite map_flat. apply flat_map_ext. intros i.
    rewrite map_map. reflexivity.
  Qed.
  Lemma keys_perm present ks : NoDup ks -> (forall k, In k ks <-> in_range k /\ present (skey k) = true) -> Permutation (box_keys present) ks.
  Proof. intros N H. apply NoDup_Permutation; [apply nodup_box_keys|exact N|]. intros k. rewrite H. apply in_box_keys. Qed.

  (** A tree of meshes of such panels is a box. *)
  Lemma keyed_box T kss present : filled T -> Forall2 carried (leaves T) (map (map keyed) kss) -> NoDup (concat kss) ->
    (forall k, In k (concat kss) <-> in_range k /\ present (skey k) = true) -> is_box c w t h nw nt nh present T.
  Proof.
    intros Fl H N K. split; [|split].
    - intros m Hm. apply In_nth_error in Hm. destruct Hm as [i Hi]. destruct (Forall2_nth_l _ _ _ _ _ H Hi) as (qs & _ & C). destruct C as (A & B & D & _). auto.
    - apply (made_carried T (map (map keyed) kss)); [exact H|]. rewrite <- concat_map, box_panels_keyed. apply Permutation_map. now apply keys_perm.
    - destruct (carried_tree T _ H) as (qs' & Tq & S). exists (map face_of qs'). split; [now apply tree_props|]. rewrite <- concat_map in S.
      assert (Kp : forall k, In k (concat kss) -> present (skey k) = true) by (intros k Hk; now apply K).
      clear - S Kp Hw Ht Hh Dw Dt Dh. remember (map keyed (concat kss)) as qs eqn:Eq. revert Eq Kp. generalize (concat kss). clear kss. induction S as [|q q' qs qs' Sq S IH]; intros ks Eq Kp; cbn; [constructor|].
      destruct ks as [|k ks]; [discriminate|]. cbn in Eq. injection Eq as -> ->. constructor.
      + exists (skey k). split; [apply Kp; now left|]. now apply keyed_props.
      + apply (IH ks); [reflexivity|]. intros k' Hk'. apply Kp. now right.
  Qed.

  (** ** Closed boxes *)
  Lemma edges_rot q q' : same_polygon q q' -> Permutation (edges q) (edges q').
  Proof.
    clear. destruct q as [[[a b] d] e]. intros [->|[->|[->| ->]]]; cbn [edges].
    - reflexivity.
    - apply (Permutation_app_comm [_] [_; _; _]).
    - apply (Permutation_app_comm [_; _] [_; _]).
    - apply (Permutation_app_comm [_; _; _] [_]).
  Qed.
  Lemma edges_perm qs qs' : Forall2 same_polygon qs qs' -> Permutation (flat_map edges qs) (flat_map edges qs').
  Proof. intros S. induction S; cbn; [constructor|]. apply Permutation_app; [now apply edges_rot|assumption]. Qed.
  Lemma watertight_same qs qs' qs'' : Permutation qs qs' -> Forall2 same_polygon qs' qs'' -> watertight qs -> watertight qs''.
  Proof.
    intros Pq S W. unfold watertight in *. assert (E : Permutation (flat_map edges qs) (flat_map edges qs'')).
    { etransitivity; [apply Permutation_flat_map; exact Pq|]. now apply edges_perm. }
    rewrite <- E. rewrite W at 1. now apply Permutation_map.
  Qed.
  Lemma gsides_nodup k : NoDup (gsides k).
  Proof.
    clear. destruct k as [[s i] j]. unfold Proofs_Box.gsides, Proofs_Box.gpanel.
    destruct s; cbn [side_panel]; repeat (apply NoDup_cons; [cbn [In]; intros K; repeat destruct K as [K|K]; try contradiction; injection K; intros; lia|]); constructor.
  Qed.
  Lemma all_edges : Permutation (flat_map gsides (box_keys (fun _ => true))) (map (fun e => (snd e, fst e)) (flat_map gsides (box_keys (fun _ => true)))).
  Proof.
    set (ks := box_keys _).
    assert (N : NoDup (flat_map gsides ks)).
    { assert (Rk : forall k, In k ks -> in_range k) by (intros k Hk; apply in_box_keys in Hk; tauto). assert (Nk : NoDup ks) by apply nodup_box_keys. clearbody ks.
      induction Nk as [|k ks Na Nk IH]; cbn; [constructor|]. apply NoDup_app_intro; [apply gsides_nodup|apply IH; intros; apply Rk; now right|].
      intros [p q] Hx Hy. apply in_flat_map in Hy. destruct Hy as (k' & Hk' & Hy).
      apply (one_way nw nt nh Hw Ht Hh k k' p q); [apply Rk; now left|apply Rk; now right|intros ->; contradiction|assumption..]. }
    assert (Sy : forall p q, In (p, q) (flat_map gsides ks) -> In (q, p) (flat_map gsides ks)).
    { intros p q H. apply in_flat_map in H. destruct H as (k & Hk & H). apply in_box_keys in Hk. destruct Hk as [Rk _]. destruct k as [[s i] j].
      destruct (neighbour nw nt nh Hw Ht Hh s i j p q Rk H) as (k' & Rk' & H'). apply in_flat_map. exists k'. split; [apply in_box_keys; auto|exact H']. }
    apply NoDup_Permutation; [exact N|apply NoDup_map_inj; [intros [a b] [a' b'] E; cbn in E; congruence|exact N]|].
    intros [p q]. rewrite in_map_iff. split.
    - intros H. exists (q, p). split; [reflexivity|now apply Sy].
    - intros ([a b] & E & H). cbn in E. injection E as <- <-. now apply Sy.
  Qed.
  Lemma panels_watertight : watertight (box_panels c w t h nw nt nh (fun _ => true)).
  Proof.
    rewrite box_panels_keyed. unfold watertight.
    assert (E : forall ks, flat_map edges (map keyed ks) = map (fun e => (P (fst e), P (snd e))) (flat_map gsides ks)).
    { clear. intros ks. induction ks as [|k ks IH]; cbn [map flat_map]; [reflexivity|]. rewrite map_app, IH. f_equal. apply edges_keyed. }
    rewrite E. rewrite all_edges at 1. rewrite !map_map. cbn [fst snd swap]. reflexivity.
  Qed.
  Lemma keyed_proper k q' : same_polygon (keyed k) q' -> proper_face q' /\ signed_volume q' = side_area (skey k) * (dot c (side_normal (skey k)) + side_distance w t h (skey k)) / 3.
  Proof.
    intros S. pose proof (rectq_same _ _ _ _ _ S (keyed_rect c w t h nw nt nh k)) as (p & u & v & -> & O & X & L).
    pose proof (side_unit (skey k)) as Un. pose proof (side_area_pos w t h nw nt nh Dw Dt Dh (skey k)) as Ha. split.
    - split; [right|].
      + exists (side_normal (skey k)), (side_area (skey k)), (side_area (skey k)), (side_area (skey k)), (side_area (skey k)).
        split; [exact Un|]. do 4 (split; [lra|]). rewrite <- X. clear. repeat split; vring'.
      + assert (E : area_vector p (vadd p v) (vadd p (vadd u v)) (vadd p u) = vscale (side_area (skey k)) (side_normal (skey k))) by (rewrite <- X; clear; vfield).
        rewrite E, norm_scaled; [lra|exact Un|lra].
    - assert (Pl : dot (vsub p c) (side_normal (skey k)) = side_distance w t h (skey k)).
      { assert (Hp : In p (polygon_corners (keyed k))) by (apply (same_polygon_corners _ _ _ S); now left). apply keyed_corner in Hp. destruct Hp as (g & Og & ->). now apply on_plane. }
      cbn [signed_volume]. rewrite <- Pl.
      transitivity (dot p (cross v u) / 3); [unfold triple, dot; clear; cbn; field|]. rewrite X. clear. unfold dot. cbn. field.
  Qed.
  Lemma Rsum_const {A} (f : A -> R) x l : (forall a, In a l -> f a = x) -> Rsum (map f l) = INR (length l) * x.
  Proof.
    clear. induction l as [|a l IH]; intros H; [cbn; ring|]. cbn [map length]. rewrite Rsum_cons, S_INR, (H a) by now left. rewrite IH by (intros; apply H; now right). ring.
  Qed.
  Lemma side_keys_length s : length (side_keys s) = (fst (side_count nw nt nh s) * snd (side_count nw nt nh s))%nat.
  Proof.
    clear. unfold side_keys. assert (E : forall a b n, length (flat_map (fun i => map (fun j => (s, i, j)) (seq 0 b)) (seq a n)) = (n * b)%nat).
    { intros a b n. revert a. induction n as [|n IH]; intros a; cbn; [reflexivity|]. rewrite app_length, IH, map_length, seq_length. lia. }
    apply E.
  Qed.
  Lemma box_volume : Rsum (map (fun k => side_area (skey k) * (dot c (side_normal (skey k)) + side_distance w t h (skey k)) / 3) (box_keys (fun _ => true))) = w * t * h.
  Proof.
    unfold box_keys. cbn [filter box_sides flat_map]. rewrite app_nil_r, !map_app, !Rsum_app.
    assert (E : forall s, Rsum (map (fun k => side_area (skey k) * (dot c (side_normal (skey k)) + side_distance w t h (skey k)) / 3) (side_keys s))
      = INR (fst (side_count nw nt nh s)) * INR (snd (side_count nw nt nh s)) * (side_area s * (dot c (side_normal s) + side_distance w t h s) / 3)).
    { intros s. rewrite (Rsum_const _ (side_area s * (dot c (side_normal s) + side_distance w t h s) / 3)).
      - now rewrite side_keys_length, mult_INR.
      - intros k Hk. apply in_side_keys in Hk. destruct Hk as [_ ->]. reflexivity. }
    rewrite !E. unfold side_area, dot. cbn [side_count side_edges side_normal side_distance fst snd vx vy vz].
    pose proof (INR_pos' _ Hw). pose proof (INR_pos' _ Ht). pose proof (INR_pos' _ Hh). field. auto.
  Qed.
  Lemma closed_box T : filled T -> is_box c w t h nw nt nh (fun _ => true) T ->
    exists qs, proper_surface T qs /\ watertight qs /\ volume T = Ok (w * t * h).
  Proof.
    intros Fl (_ & (qs' & qs & Tq & Pq & S) & _). exists qs. rewrite box_panels_keyed in Pq.
    assert (K : exists ks, Permutation (box_keys (fun _ => true)) ks /\ qs' = map keyed ks).
    { apply Permutation_sym in Pq. apply Permutation_map_inv in Pq. destruct Pq as (ks & -> & Pk). eauto. }
    destruct K as (ks & Pk & ->).
    assert (Pr : Forall proper_face qs /\ Rsum (map signed_volume qs) = Rsum (map (fun k => side_area (skey k) * (dot c (side_normal (skey k)) + side_distance w t h (skey k)) / 3) ks)).
    { clear - S Hw Ht Hh Dw Dt Dh. remember (map keyed ks) as qs1 eqn:Eq. revert ks Eq. induction S as [|q q' qs1 qs Sq S IH]; intros ks Eq.
      - symmetry in Eq. apply map_eq_nil in Eq. subst. split; [constructor|reflexivity].
      - destruct ks as [|k ks]; [discriminate|]. cbn in Eq. injection Eq as -> ->. destruct (IH ks eq_refl) as [I1 I2]. destruct (keyed_proper k q' Sq) as [K1 K2].
        split; [now constructor|]. cbn [map]. rewrite !Rsum_cons, I2, K2. reflexivity. }
    destruct Pr as [Pr V]. assert (Su : proper_surface T qs) by (repeat split; assumption).
    split; [exact Su|]. split.
    - apply (watertight_same (box_panels c w t h nw nt nh (fun _ => true)) (map keyed ks)); [rewrite box_panels_keyed; now apply Permutation_map|exact S|apply panels_watertight].
    - rewrite (volume_value T qs Su), V. f_equal. rewrite <- box_volume. apply Rsum_perm. apply Permutation_map. now apply Permutation_sym.
  Qed.
End Panels.
