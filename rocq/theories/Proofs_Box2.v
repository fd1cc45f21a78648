From Coq Require Import Reals List Bool Arith ZArith Lia Lra Permutation.
From Verif Require Import Model_Base Model_Geometry Model_Mesh Model_Clip Spec_Mesh Spec_Tree Spec_Clip Model_Tree Model_Body Spec_Body
  Proofs_Geometry Proofs_Mesh Proofs_Mesh3 Proofs_Clip4 Proofs_Clip5 Spec_Integrals Proofs_Integrals Proofs_Tree Proofs_Tree2 Proofs_Body Proofs_Body2
  Model_Quality Spec_Quality Model_Normals Spec_Normals Proofs_Normals4 Model_Grid Spec_Grid Proofs_Grid Proofs_Grid2 Proofs_Grid3 Proofs_Grid4 Proofs_Grid5
  Model_Box Spec_Box Proofs_Box.
Import ListNotations.
Open Scope R_scope.

Lemma norm_ge_x p : Rabs (vx p) <= norm p.
Proof. rewrite <- sqrt_Rsqr_abs. unfold norm. apply sqrt_le_1_alt. unfold dot, Rsqr. nra. Qed.
Lemma norm_ge_y p : Rabs (vy p) <= norm p.
Proof. rewrite <- sqrt_Rsqr_abs. unfold norm. apply sqrt_le_1_alt. unfold dot, Rsqr. nra. Qed.
Lemma norm_ge_z p : Rabs (vz p) <= norm p.
Proof. rewrite <- sqrt_Rsqr_abs. unfold norm. apply sqrt_le_1_alt. unfold dot, Rsqr. nra. Qed.
Lemma nat_step a b : a <> b -> 1 <= Rabs (INR a - INR b).
Proof.
  intros N. destruct (Nat.lt_total a b) as [L|[E|L]]; [|contradiction|].
  - apply le_INR in L. rewrite S_INR in L. rewrite Rabs_left1; lra.
  - apply le_INR in L. rewrite S_INR in L. rewrite Rabs_right; lra.
Qed.
Lemma rectq_sized A a D n q : unit_vector n -> / 1000000000000 <= a -> A / 100000 <= a <= A -> rectq a D n q -> well_sized A q.
Proof.
  intros U H B (p & u & v & -> & O & X & L). unfold well_sized, tri_area.
  assert (E : area_vector p (vadd p v) (vadd p (vadd u v)) (vadd p u) = vscale a n) by (rewrite <- X; vfield).
  rewrite E, norm_scaled by (assumption || lra).
  assert (T1 : forall x, x = vscale a n -> norm x = a) by (intros x ->; apply norm_scaled; [exact U|lra]).
  rewrite !(fun w => T1 w) by (rewrite <- X; vring). lra.
Qed.

(** Rectangles of various sizes. *)
Definition plate (A : R) (q : polygon) : Prop := exists a D n, unit_vector n /\ / 1000000000000 <= a /\ A / 100000 <= a <= A /\ rectq a D n q.
Lemma plates_tidy A m qs : Forall (plate A) qs -> spaced qs -> qs <> [] -> carried m qs -> tidy m.
Proof.
  intros Rq Sp Nq C. pose proof C as (Vm & Um & Nm & qs' & P & S).
  split; [exact Vm|]. split; [exact Um|]. split; [|split; [|split]].
  - intros E. unfold polygons_of in P. rewrite E in P. inversion P. subst. inversion S. now subst.
  - intros i j u v Hi Hj Hn. destruct (carried_vertex m qs i u C Hi) as (q & Hq & Cu). destruct (carried_vertex m qs j v C Hj) as (q' & Hq' & Cv).
    destruct (Sp u v q q' Hq Hq' Cu Cv) as [-> |K]; [|apply near_dist in Hn; lra].
    apply (proj1 (NoDup_nth_error (m_vertices m)) Nm); [apply nth_error_Some; congruence|congruence].
  - intros f Hf. right. apply In_nth_error in Hf. destruct Hf as [k Hf]. destruct (carried_face m qs k f C Hf) as (q & q' & Hq & Sq & Cq).
    destruct (proj1 (Forall_forall _ _) Rq q) as (a & D & n & Un & Ha & _ & R1); [now apply nth_error_In in Hq|].
    apply (corners_nodup _ _ _ Cq). apply (same_polygon_nodup _ _ Sq). apply (rectq_corners a D n); [exact Un|lra|exact R1].
  - exists A. intros k a b c d (f & Hf & Ca & Cb & Cc & Cd). destruct (carried_face m qs k f C Hf) as (q & q' & Hq & Sq & Cq).
    assert (q' = (a, b, c, d)) as ->.
    { destruct q' as [[[a' b'] c'] d']. destruct Cq as (? & ? & ? & ?). congruence. }
    destruct (proj1 (Forall_forall _ _) Rq q) as (a0 & D & n & Un & Ha & Hb & R1); [now apply nth_error_In in Hq|].
    apply (rectq_sized A a0 D n); [exact Un|exact Ha|exact Hb|]. exact (rectq_same _ _ _ _ _ Sq R1).
Qed.
Lemma plate_corners A q : plate A q -> NoDup (polygon_corners q).
Proof. intros (a & D & n & Un & Ha & _ & R1). apply (rectq_corners a D n); [exact Un|lra|exact R1]. Qed.

Section Panels.
  Variables (c : vec) (w t h : R) (nw nt nh : nat).
  Hypotheses (Hw : (0 < nw)%nat) (Ht : (0 < nt)%nat) (Hh : (0 < nh)%nat).
  Hypotheses (Dw : / 1000000 <= w / INR nw) (Dt : / 1000000 <= t / INR nt) (Dh : / 1000000 <= h / INR nh).
  Notation P := (box_node c w t h nw nt nh).
  Notation dw := (w / INR nw). Notation dt := (t / INR nt). Notation dh := (h / INR nh).
  Notation gpanel := (gpanel nw nt nh). Notation on := (on nw nt nh). Notation gsides := (gsides nw nt nh). Notation in_range := (in_range nw nt nh).
  Definition keyed (k : panel_key) : polygon := placed P (gpanel k).
  Definition skey (k : panel_key) : box_side := fst (fst k).
  Definition side_area (s : box_side) : R := let '(a, b) := side_edges w t h nw nt nh s in a * b.
  Definition side_diag (s : box_side) : R := let '(a, b) := side_edges w t h nw nt nh s in sqrt (a * a + b * b).

  Lemma P_sub x y z x' y' z' : vsub (P (x', y', z')) (P (x, y, z)) = V ((INR x' - INR x) * dw) ((INR y' - INR y) * dt) ((INR z' - INR z) * dh).
  Proof. clear. unfold box_node, Rdiv. apply vec_ext; cbn; ring. Qed.
  Lemma P_gap p q : p <> q -> / 1000000 <= dist (P p) (P q).
  Proof.
    destruct p as [[x y] z], q as [[x' y'] z']. intros N. unfold dist. rewrite P_sub.
    assert (G : forall a b d, a <> b -> / 1000000 <= d -> / 1000000 <= Rabs ((INR a - INR b) * d)).
    { intros a b d Nab Hd. rewrite Rabs_mult, (Rabs_right d) by lra. pose proof (nat_step a b Nab). nra. }
    destruct (Nat.eq_dec x x') as [<-|Nx]; [destruct (Nat.eq_dec y y') as [<-|Ny]; [destruct (Nat.eq_dec z z') as [<-|Nz]; [now destruct N|]|]|].
    - eapply Rle_trans; [|apply norm_ge_z]. now apply G.
    - eapply Rle_trans; [|apply norm_ge_y]. now apply G.
    - eapply Rle_trans; [|apply norm_ge_x]. now apply G.
  Qed.
  Lemma point_eq_dec (p q : grid_point) : {p = q} + {p <> q}.
  Proof. repeat decide equality. Qed.
  Lemma P_inj p q : P p = P q -> p = q.
  Proof.
    intros E. destruct (point_eq_dec p q) as [|N]; [assumption|]. apply P_gap in N. rewrite E in N. unfold dist in N.
    replace (vsub (P q) (P q)) with v0 in N by (apply vec_ext; cbn; ring). rewrite (proj2 (norm_zero v0) eq_refl) in N. lra.
  Qed.
  Lemma side_unit s : unit_vector (side_normal s).
  Proof. unfold unit_vector, norm, dot. destruct s; cbn [side_normal vx vy vz]; replace (_ + _ + _) with 1 by ring; apply sqrt_1. Qed.
  Lemma side_area_pos s : / 1000000000000 <= side_area s.
  Proof. unfold side_area. destruct s; cbn [side_edges]; nra. Qed.
  Lemma vsub_add (x y z : vec) : vsub y x = z -> y = vadd x z.
  Proof. intros <-. apply vec_ext; cbn; ring. Qed.
  Lemma side_rect s i j : rectq (side_area s) (side_diag s) (side_normal s) (keyed (s, i, j)).
  Proof.
    unfold side_area, side_diag.
    assert (Sq : forall a b, sqrt (a * a + b * b) * sqrt (a * a + b * b) = a * a + b * b) by (intros; apply sqrt_sqrt; nra).
    assert (E : exists p u v, keyed (s, i, j) = (p, vadd p v, vadd p (vadd u v), vadd p u) /\
      (s = LeftSide /\ u = V 0 dt 0 /\ v = V 0 0 dh \/ s = RightSide /\ u = V 0 0 dh /\ v = V 0 dt 0
       \/ s = FrontSide /\ u = V 0 0 dh /\ v = V dw 0 0 \/ s = BackSide /\ u = V dw 0 0 /\ v = V 0 0 dh
       \/ s = TopSide /\ u = V 0 dt 0 /\ v = V dw 0 0 \/ s = BottomSide /\ u = V dw 0 0 /\ v = V 0 dt 0)).
    { unfold keyed. destruct s; cbn [Proofs_Box.gpanel side_panel placed].
      - exists (P (0%nat, i, j)), (V 0 dt 0), (V 0 0 dh). split; [|clear; tauto]. repeat f_equal; apply vsub_add; rewrite P_sub; apply vec_ext; cbn [vx vy vz vadd]; rewrite ?S_INR; ring.
      - exists (P (nw, i, j)), (V 0 0 dh), (V 0 dt 0). split; [|clear; tauto]. repeat f_equal; apply vsub_add; rewrite P_sub; apply vec_ext; cbn [vx vy vz vadd]; rewrite ?S_INR; ring.
      - exists (P (i, 0%nat, j)), (V 0 0 dh), (V dw 0 0). split; [|clear; tauto]. repeat f_equal; apply vsub_add; rewrite P_sub; apply vec_ext; cbn [vx vy vz vadd]; rewrite ?S_INR; ring.
      - exists (P (i, nt, j)), (V dw 0 0), (V 0 0 dh). split; [|clear; tauto]. repeat f_equal; apply vsub_add; rewrite P_sub; apply vec_ext; cbn [vx vy vz vadd]; rewrite ?S_INR; ring.
      - exists (P (i, j, nh)), (V 0 dt 0), (V dw 0 0). split; [|clear; tauto]. repeat f_equal; apply vsub_add; rewrite P_sub; apply vec_ext; cbn [vx vy vz vadd]; rewrite ?S_INR; ring.
      - exists (P (i, j, 0%nat)), (V dw 0 0), (V 0 dt 0). split; [|clear; tauto]. repeat f_equal; apply vsub_add; rewrite P_sub; apply vec_ext; cbn [vx vy vz vadd]; rewrite ?S_INR; ring. }
    destruct E as (p & u & v & E & K). exists p, u, v. split; [exact E|]. clear E.
    destruct K as [K|[K|[K|[K|[K|K]]]]]; destruct K as (-> & -> & ->); cbn [side_edges side_normal]; rewrite Sq; split; try split;
      try (unfold dot; cbn [vx vy vz]; ring); apply vec_ext; cbn [cross vscale vx vy vz]; ring.
  Qed.
  Lemma keyed_rect k : rectq (side_area (skey k)) (side_diag (skey k)) (side_normal (skey k)) (keyed k).
  Proof. destruct k as [[s i] j]. apply side_rect. Qed.
  Lemma keyed_corner k p : In p (polygon_corners (keyed k)) <-> exists g, on k g /\ p = P g.
  Proof.
    assert (E : polygon_corners (keyed k) = map P (gcorners nw nt nh k)) by (unfold keyed, gcorners; now destruct (gpanel k) as [[[a b] c0] d]).
    rewrite E, in_map_iff. split; intros (g & A & B); exists g; split; try (now symmetry); now apply gcorners_on.
  Qed.
  Lemma keyed_spaced ks : spaced (map keyed ks).
  Proof.
    intros p p' q q' Hq Hq' Hp Hp'. apply in_map_iff in Hq, Hq'. destruct Hq as (k & <- & _), Hq' as (k' & <- & _).
    apply keyed_corner in Hp, Hp'. destruct Hp as (g & _ & ->), Hp' as (g' & _ & ->).
    destruct (point_eq_dec g g') as [<-|N]; [now left|right; now apply P_gap].
  Qed.
  (** The areas of the sides are comparable. *)
  Lemma keyed_plates A ks : (forall k, In k ks -> A / 100000 <= side_area (skey k) <= A) -> Forall (plate A) (map keyed ks).
  Proof.
    intros H. apply Forall_forall. intros q Hq. apply in_map_iff in Hq. destruct Hq as (k & <- & Hk).
    exists (side_area (skey k)), (side_diag (skey k)), (side_normal (skey k)).
    split; [apply side_unit|]. split; [apply side_area_pos|]. split; [now apply H|apply keyed_rect].
  Qed.

  (** ** The faces of a mesh of such panels *)
  Section Mesh.
    Variables (m : mesh) (ks : list panel_key).
    Hypotheses (Nk : NoDup ks) (Rk : forall k, In k ks -> in_range k) (C : carried m (map keyed ks)).
    Notation vertex x g := (nth_error (m_vertices m) x = Some (P g)).
    Lemma vertex_once x y g : vertex x g -> vertex y g -> x = y.
    Proof. intros A B. destruct C as (_ & _ & N & _). apply (proj1 (NoDup_nth_error (m_vertices m)) N); [apply nth_error_Some; congruence|congruence]. Qed.
    Lemma vertex_point x g g' : vertex x g -> vertex x g' -> g = g'.
    Proof. intros A B. apply P_inj. congruence. Qed.
    Lemma edges_keyed k : edges (keyed k) = map (fun e => (P (fst e), P (snd e))) (gsides k).
    Proof. unfold keyed, Proofs_Box.gsides. now destruct (gpanel k) as [[[a b] c0] d]. Qed.
    Lemma edges_same q q' e : same_polygon q q' -> In e (edges q') <-> In e (edges q).
    Proof. destruct q as [[[a b] c0] d]. intros [->|[->|[->| ->]]]; cbn; tauto. Qed.
    Lemma face_key i f : nth_error (m_faces m) i = Some f -> exists k, nth_error ks i = Some k /\ NoDup [fa f; fb f; fc f; fd f]
      /\ (forall x, has f x -> exists g, on k g /\ vertex x g)
      /\ (forall x y, In (x, y) (sides f) -> exists p q, In (p, q) (gsides k) /\ vertex x p /\ vertex y q)
      /\ (forall x y p q, In (p, q) (gsides k) -> vertex x p -> vertex y q -> In (x, y) (sides f)).
    Proof.
      intros Hi. destruct (carried_face m _ i f C Hi) as (q & q' & Hq & S & K).
      rewrite nth_error_map in Hq. destruct (nth_error ks i) as [k|] eqn:Ek; [|discriminate]. cbn in Hq. injection Hq as <-.
      exists k. split; [reflexivity|].
      assert (N : NoDup [fa f; fb f; fc f; fd f]).
      { apply (corners_nodup _ _ _ K). apply (same_polygon_nodup _ _ S). eapply rectq_corners; [| |apply keyed_rect]; [apply side_unit|]. pose proof (side_area_pos (skey k)). lra. }
      split; [exact N|]. split; [|].
      - intros x Hx. destruct (corners_in _ _ _ _ K Hx) as (p & Hp & Hc). apply (same_polygon_corners _ _ _ S) in Hc. apply keyed_corner in Hc.
        destruct Hc as (g & Og & ->). eauto.
      - assert (E : forall x y u v, nth_error (m_vertices m) x = Some u -> nth_error (m_vertices m) y = Some v -> (In (x, y) (sides f) <-> In (u, v) (edges (keyed k)))).
        { intros x y u v Hx Hy. rewrite <- (edges_same _ _ _ S), (sides_quad f N). destruct q' as [[[a b] c0] d]. destruct K as (Ka & Kb & Kc & Kd). cbn [edges In].
          assert (J : forall z1 z2 s1, nth_error (m_vertices m) z1 = Some s1 -> nth_error (m_vertices m) z2 = Some s1 -> z1 = z2).
          { intros z1 z2 s1 A B. destruct C as (_ & _ & Nv & _). apply (proj1 (NoDup_nth_error (m_vertices m)) Nv); [apply nth_error_Some; congruence|congruence]. }
          split; intros [H|[H|[H|[H|[]]]]]; injection H as <- <-.
          - left. f_equal; congruence.
          - right; left. f_equal; congruence.
          - do 2 right; left. f_equal; congruence.
          - do 3 right; left. f_equal; congruence.
          - left. f_equal; eapply J; eassumption.
          - right; left. f_equal; eapply J; eassumption.
          - do 2 right; left. f_equal; eapply J; eassumption.
          - do 3 right; left. f_equal; eapply J; eassumption. }
        split.
        + intros x y Hs. assert (Lx : exists u, nth_error (m_vertices m) x = Some u /\ exists v, nth_error (m_vertices m) y = Some v).
          { rewrite (sides_quad f N) in Hs. destruct q' as [[[a b] c0] d]. destruct K as (Ka & Kb & Kc & Kd).
            destruct Hs as [H|[H|[H|[H|[]]]]]; injection H as <- <-; eauto. }
          destruct Lx as (u & Hx & v & Hy). pose proof (proj1 (E x y u v Hx Hy) Hs) as H. rewrite edges_keyed in H. apply in_map_iff in H.
          destruct H as ([p q] & Epq & Hpq). cbn in Epq. injection Epq as <- <-. exists p, q. auto.
        + intros x y p q Hpq Hx Hy. apply (E x y _ _ Hx Hy). rewrite edges_keyed. apply in_map_iff. exists (p, q). auto.
    Qed.
    Lemma keys_differ i j k k' : nth_error ks i = Some k -> nth_error ks j = Some k' -> i <> j -> k <> k'.
    Proof. intros A B N E. apply N. apply (proj1 (NoDup_nth_error ks) Nk); [apply nth_error_Some; congruence|congruence]. Qed.
    Lemma keyed_consistent : consistent (m_faces m).
    Proof.
      intros i j f g a b Hi Hj N Hf Hg. destruct (face_key i f Hi) as (k & Ek & _ & _ & F1 & _). destruct (face_key j g Hj) as (k' & Ek' & _ & _ & G1 & _).
      destruct (F1 _ _ Hf) as (p & q & Hpq & Xa & Xb). destruct (G1 _ _ Hg) as (p' & q' & Hpq' & Ya & Yb).
      rewrite (vertex_point _ _ _ Ya Xa), (vertex_point _ _ _ Yb Xb) in Hpq'.
      apply (one_way nw nt nh Hw Ht Hh) with (k := k) (k' := k') (p := p) (q := q); try assumption.
      - apply Rk. now apply nth_error_In in Ek.
      - apply Rk. now apply nth_error_In in Ek'.
      - exact (keys_differ i j k k' Ek Ek' N).
    Qed.
    Lemma keyed_conformal : conformal (m_faces m).
    Proof.
      split; [|split].
      - intros f Hf. apply In_nth_error in Hf. destruct Hf as [i Hf]. destruct (face_key i f Hf) as (_ & _ & N & _). now right.
      - intros i j f g a b Hi Hj Ne Nab Fa Fb Ga Gb.
        destruct (face_key i f Hi) as (k & Ek & _ & F1 & _ & F3). destruct (face_key j g Hj) as (k' & Ek' & _ & G1 & _ & G3).
        destruct (F1 _ Fa) as (p & Op & Xa). destruct (F1 _ Fb) as (q & Oq & Xb). destruct (G1 _ Ga) as (p' & Op' & Ya). destruct (G1 _ Gb) as (q' & Oq' & Yb).
        rewrite (vertex_point _ _ _ Ya Xa) in Op'. rewrite (vertex_point _ _ _ Yb Xb) in Oq'.
        assert (Npq : p <> q) by (intros E; rewrite E in Xa; exact (Nab (vertex_once _ _ _ Xa Xb))).
        destruct (shared nw nt nh Hw Ht Hh k k' p q (keys_differ i j k k' Ek Ek' Ne) Npq Op Oq Op' Oq') as (Nx & Only).
        split; [|split].
        + destruct (next_side nw nt nh k p q Op Oq Nx) as [K|K]; [left; exact (F3 _ _ _ _ K Xa Xb)|right; exact (F3 _ _ _ _ K Xb Xa)].
        + destruct (next_side nw nt nh k' p q Op' Oq' Nx) as [K|K]; [left; exact (G3 _ _ _ _ K Xa Xb)|right; exact (G3 _ _ _ _ K Xb Xa)].
        + intros c0 Fc Gc. destruct (F1 _ Fc) as (r & Or & Xc). destruct (G1 _ Gc) as (r' & Or' & Yc). rewrite (vertex_point _ _ _ Yc Xc) in Or'.
          destruct (Only r Or Or') as [E|E]; rewrite E in Xc; [left; exact (vertex_once _ _ _ Xc Xa)|right; exact (vertex_once _ _ _ Xc Xb)].
      - intros i j l f g e a b Hi Hj Hl Nab Fa Fb Ga Gb Ea Eb.
        destruct (Nat.eq_dec i j) as [|Nij]; [tauto|]. destruct (Nat.eq_dec i l) as [|Nil]; [tauto|]. destruct (Nat.eq_dec j l) as [|Njl]; [tauto|]. exfalso.
        destruct (face_key i f Hi) as (k1 & E1 & _ & F1 & _). destruct (face_key j g Hj) as (k2 & E2 & _ & G1 & _). destruct (face_key l e Hl) as (k3 & E3 & _ & H1 & _).
        destruct (F1 _ Fa) as (p & Op & Xa). destruct (F1 _ Fb) as (q & Oq & Xb).
        destruct (G1 _ Ga) as (p' & Op' & Ya). destruct (G1 _ Gb) as (q' & Oq' & Yb). rewrite (vertex_point _ _ _ Ya Xa) in Op'. rewrite (vertex_point _ _ _ Yb Xb) in Oq'.
        destruct (H1 _ Ea) as (p2 & Op2 & Za). destruct (H1 _ Eb) as (q2 & Oq2 & Zb). rewrite (vertex_point _ _ _ Za Xa) in Op2. rewrite (vertex_point _ _ _ Zb Xb) in Oq2.
        assert (Npq : p <> q) by (intros E; rewrite E in Xa; exact (Nab (vertex_once _ _ _ Xa Xb))).
        apply (two_panels nw nt nh Hw Ht Hh) with (k1 := k1) (k2 := k2) (k3 := k3) (p := p) (q := q); try assumption;
          solve [apply Rk; eapply nth_error_In; eassumption | refine (keys_differ _ _ _ _ E1 E2 _); assumption | refine (keys_differ _ _ _ _ E1 E3 _); assumption | refine (keys_differ _ _ _ _ E2 E3 _); assumption].
    Qed.
  End Mesh.
End Panels.
