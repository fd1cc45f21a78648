(** The faces of a mesh of revolution. *)
From Coq Require Import Reals List Bool Arith Lia Lra Permutation.
From Verif Require Import Model_Base Model_Geometry Model_Mesh Spec_Mesh Spec_Clip Spec_Tree Spec_Integrals Spec_Body Model_Normals Spec_Normals Proofs_Clip4 Proofs_Grid2
  Proofs_Box2 Proofs_Cylinder.
Import ListNotations.
Open Scope nat_scope.

(** A triangle whose side without length is the last or the second one, or a quadrangle. *)
Definition trapezoid (q : polygon) : Prop :=
  let '(a, b, c, d) := q in a <> b /\ a <> c /\ b <> d /\ c <> d /\ ~ (a = d /\ b = c).
Definition closes (f : face) : Prop := fa f = fd f \/ NoDup [fa f; fb f; fc f; fd f].
Lemma closes_formed vs f q q' : NoDup vs -> corners_at vs f q' -> same_polygon q q' -> trapezoid q -> closes f -> well_formed f.
Proof.
  intros Nv K S T [E|N]; [left; split; [exact E|]|now right]. destruct q as [[[a b] c] d]. destruct T as (T1 & T2 & T3 & T4 & T5).
  destruct S as [->|[->|[->| ->]]]; destruct K as (Ka & Kb & Kc & Kd); rewrite E in Ka; rewrite Ka in Kd; injection Kd as Kd; rewrite E.
  - rewrite !NoDup_cons_iff. cbn [In]. pose proof (NoDup_nil nat). assert (b <> c) by (intros ->; apply T5; auto). clear T5. intuition congruence.
  - exfalso. congruence.
  - rewrite !NoDup_cons_iff. cbn [In]. pose proof (NoDup_nil nat). assert (a <> d) by (intros ->; apply T5; auto). clear T5. intuition congruence.
  - exfalso. congruence.
Qed.
Lemma sides_edges vs f q x y u v : NoDup vs -> corners_at vs f q -> well_formed f -> nth_error vs x = Some u -> nth_error vs y = Some v ->
  (In (x, y) (sides f) <-> In (u, v) (edges q) /\ u <> v).
Proof.
  intros Nv K W Hx Hy.
  assert (J : forall i j p, nth_error vs i = Some p -> nth_error vs j = Some p -> i = j).
  { intros i j p A B. apply (proj1 (NoDup_nth_error vs) Nv); [apply nth_error_Some; congruence|congruence]. }
  assert (D : u <> v <-> x <> y) by (split; [intros A ->; congruence|intros A ->; apply A; eapply J; eassumption]). rewrite D. clear D.
  destruct q as [[[a b] c] d]. destruct K as (Ka & Kb & Kc & Kd). cbn [edges]. unfold sides.
  assert (Eq : forall i j p p', nth_error vs i = Some p -> nth_error vs j = Some p' -> (p = p' <-> i = j)).
  { intros i j p p' A B. split; [intros ->; eapply J; eassumption|intros ->; congruence]. }
  assert (Pr : forall i j p p', nth_error vs i = Some p -> nth_error vs j = Some p' -> ((p, p') = (u, v) <-> i = x /\ j = y)).
  { intros i j p p' A B. rewrite pair_equal_spec, (Eq i x p u A Hx), (Eq j y p' v B Hy). tauto. }
  cbn [In]. rewrite (Pr _ _ _ _ Ka Kb), (Pr _ _ _ _ Kb Kc), (Pr _ _ _ _ Kc Kd), (Pr _ _ _ _ Kd Ka).
  destruct W as [[E N]|N].
  - rewrite E, Nat.eqb_refl. cbn [In]. rewrite !pair_equal_spec. rewrite <- E in *. rewrite !NoDup_cons_iff in N. cbn [In] in N. split.
    + intros [[<- <-]|[[<- <-]|[[<- <-]|[]]]]; (split; [tauto|intuition congruence]).
    + intros [H Nx]. assert (D : ~ (fa f = x /\ fa f = y)) by (intros [A B]; apply Nx; congruence). tauto.
  - rewrite !NoDup_cons_iff in N. cbn [In] in N. destruct (Nat.eqb_spec (fa f) (fd f)) as [E|_]; [intuition congruence|]. cbn [In]. rewrite !pair_equal_spec. split.
    + intros [[<- <-]|[[<- <-]|[[<- <-]|[[<- <-]|[]]]]]; (split; [tauto|intuition congruence]).
    + intros [H Nx]. tauto.
Qed.
Lemma sides_corners f x y : In (x, y) (sides f) -> has f x /\ has f y.
Proof.
  unfold sides, has. destruct (Nat.eqb (fa f) (fd f)); cbn [In]; rewrite !pair_equal_spec; intuition.
Qed.

Section Keyed.
  Variables (n N : nat) (full pole0 pole1 : bool).
  Hypothesis Hn : 0 < n.
  Hypothesis HN : 0 < N.
  Hypothesis Hfull : full = true -> 3 <= N.
  Hypothesis Hpoles : n = 1 -> pole0 && pole1 = false.
  Variable X : key -> vec.
  Notation kcorners := (kcorners n N full pole0 pole1). Notation lies := (lies n N full pole0 pole1). Notation ranged := (ranged n N).
  Notation runs_along := (runs_along n N full pole0 pole1). Notation col := (col n pole0 pole1). Notation nx := (nx N full).
  (** Different points are at different places. *)
  Hypothesis Xinj : forall k k' p q, ranged k -> ranged k' -> lies k p -> lies k' q -> X p = X q -> p = q.
  Definition turned_panel (k : key) : polygon := let '(a, b, c, d) := kcorners k in (X a, X b, X c, X d).
  Notation panel := turned_panel.

  Lemma panel_corner k p : In p (polygon_corners (panel k)) <-> exists g, lies k g /\ p = X g.
  Proof.
    unfold panel. pose proof (lies_corner n N full pole0 pole1 k) as L. destruct (kcorners k) as [[[a b] c] d]. cbn [polygon_corners In]. split.
    - intros [<-|[<-|[<-|[<-|[]]]]]; eexists; (split; [apply L|reflexivity]); auto.
    - intros (g & Hg & ->). apply L in Hg. destruct Hg as [->|[->|[->| ->]]]; auto.
  Qed.
  Lemma panel_trapezoid k : ranged k -> trapezoid (panel k).
  Proof.
    intros Rk. unfold panel. pose proof (lies_corner n N full pole0 pole1 k) as L. pose proof (two_poles n N full pole0 pole1 Hn HN Hfull Hpoles (fst k) (proj1 Rk)) as TP.
    pose proof (nx_ne n N full pole0 pole1 Hn HN Hfull Hpoles (snd k) (proj2 Rk)) as Ne.
    destruct k as [i j]. cbn [kcorners Proofs_Cylinder.kcorners fst snd] in *. unfold trapezoid.
    assert (G : forall p q, lies (i, j) p -> lies (i, j) q -> X p = X q -> p = q) by (intros p q A B; exact (Xinj _ _ _ _ Rk Rk A B)).
    repeat split.
    - intros E. apply G in E; [|apply L; auto..]. injection E. lia.
    - intros E. apply G in E; [|apply L; auto..]. injection E. lia.
    - intros E. apply G in E; [|apply L; auto..]. injection E. lia.
    - intros E. apply G in E; [|apply L; auto..]. injection E. lia.
    - intros [E1 E2]. apply G in E1; [|apply L; auto..]. apply G in E2; [|apply L; auto..]. injection E1 as E1. injection E2 as E2. unfold Proofs_Cylinder.col in *.
      destruct (pole n pole0 pole1 i); [|congruence]. destruct (pole n pole0 pole1 (S i)); [now apply TP|congruence].
  Qed.
  Lemma edges_panel k u v : ranged k -> (In (u, v) (edges (panel k)) /\ u <> v <-> exists p q, runs_along k p q /\ u = X p /\ v = X q).
  Proof.
    intros Rk. unfold panel, Proofs_Cylinder.runs_along. pose proof (lies_corner n N full pole0 pole1 k) as L. destruct (kcorners k) as [[[a b] c] d]. cbn [edges In]. rewrite !pair_equal_spec. split.
    - intros [H D]. destruct H as [[<- <-]|[[<- <-]|[[<- <-]|[[<- <-]|[]]]]].
      + exists a, b. split; [split; [congruence|auto]|auto].
      + exists b, c. split; [split; [congruence|auto]|auto].
      + exists c, d. split; [split; [congruence|auto]|auto].
      + exists d, a. split; [split; [congruence|auto]|auto].
    - intros (p & q & [D H] & -> & ->). split.
      + destruct H as [[-> ->]|[[-> ->]|[[-> ->]|[-> ->]]]]; auto 6.
      + intros E. apply D. apply (Xinj k k p q Rk Rk); [apply L|apply L|exact E]; destruct H as [[-> ->]|[[-> ->]|[[-> ->]|[-> ->]]]]; auto.
  Qed.

  Section Mesh.
    Variables (m : mesh) (ks : list key).
    Hypotheses (Nk : NoDup ks) (Rk : forall k, In k ks -> ranged k) (C : carried m (map panel ks)) (Cl : forall f, In f (m_faces m) -> closes f).
    Notation vertex x g := (nth_error (m_vertices m) x = Some (X g)).
    Lemma once x y g : vertex x g -> vertex y g -> x = y.
    Proof. intros A B. destruct C as (_ & _ & Nv & _). apply (proj1 (NoDup_nth_error (m_vertices m)) Nv); [apply nth_error_Some; congruence|congruence]. Qed.
    Lemma turned_face i f : nth_error (m_faces m) i = Some f -> exists k, nth_error ks i = Some k /\ ranged k /\ well_formed f
      /\ (forall x, has f x -> exists g, lies k g /\ vertex x g)
      /\ (forall x y, In (x, y) (sides f) -> exists p q, runs_along k p q /\ vertex x p /\ vertex y q)
      /\ (forall x y p q, runs_along k p q -> vertex x p -> vertex y q -> In (x, y) (sides f)).
    Proof.
      intros Hi. destruct (carried_face m _ i f C Hi) as (q & q' & Hq & S & K). pose proof C as (_ & _ & Nv & _).
      rewrite nth_error_map in Hq. destruct (nth_error ks i) as [k|] eqn:Ek; [|discriminate]. cbn in Hq. injection Hq as <-.
      assert (R1 : ranged k) by (apply Rk; now apply nth_error_In in Ek).
      assert (W : well_formed f) by (apply (closes_formed _ _ _ _ Nv K S); [now apply panel_trapezoid|apply Cl; now apply nth_error_In in Hi]).
      assert (Hx : forall x, has f x -> exists g, lies k g /\ vertex x g).
      { intros x Hx. destruct (corners_in _ _ _ _ K Hx) as (p & Hp & Hc). apply (same_polygon_corners _ _ _ S) in Hc. apply panel_corner in Hc. destruct Hc as (g & Og & ->). eauto. }
      exists k. split; [reflexivity|]. split; [exact R1|]. split; [exact W|]. split; [exact Hx|].
      assert (E : forall x y u v, nth_error (m_vertices m) x = Some u -> nth_error (m_vertices m) y = Some v -> (In (x, y) (sides f) <-> exists p q, runs_along k p q /\ u = X p /\ v = X q)).
      { intros x y u v Xx Yy. rewrite (sides_edges _ _ _ _ _ _ _ Nv K W Xx Yy), (edges_same _ _ _ S). now apply edges_panel. }
      split.
      - intros x y H. destruct (sides_corners _ _ _ H) as [A B]. destruct (Hx x A) as (g & _ & G). destruct (Hx y B) as (g' & _ & G').
        destruct (proj1 (E x y _ _ G G') H) as (p & q & Rn & E1 & E2). exists p, q. rewrite <- E1, <- E2. auto.
      - intros x y p q Rn A B. apply (E x y _ _ A B). eauto.
    Qed.
    Lemma keys_apart i j k k' : nth_error ks i = Some k -> nth_error ks j = Some k' -> i <> j -> k <> k'.
    Proof. intros A B D E. apply D. apply (proj1 (NoDup_nth_error ks) Nk); [apply nth_error_Some; congruence|congruence]. Qed.
    Lemma turned_consistent : consistent (m_faces m).
    Proof.
      intros i j f g a b Hi Hj D Hf Hg. destruct (turned_face i f Hi) as (k & Ek & R1 & _ & _ & F1 & _). destruct (turned_face j g Hj) as (k' & Ek' & R2 & _ & _ & G1 & _).
      destruct (F1 _ _ Hf) as (p & q & Hpq & Xa & Xb). destruct (G1 _ _ Hg) as (p' & q' & Hpq' & Ya & Yb).
      destruct (runs_lies _ _ _ _ _ _ _ _ Hpq) as (L1 & L2 & _). destruct (runs_lies _ _ _ _ _ _ _ _ Hpq') as (L1' & L2' & _).
      assert (p' = p) as -> by (apply (Xinj k' k); congruence). assert (q' = q) as -> by (apply (Xinj k' k); congruence).
      apply (keys_apart i j k k' Ek Ek' D). exact (one_direction n N full pole0 pole1 Hn HN Hfull Hpoles k k' p q R1 R2 Hpq Hpq').
    Qed.
    Lemma turned_conformal : conformal (m_faces m).
    Proof.
      split; [|split].
      - intros f Hf. apply In_nth_error in Hf. destruct Hf as [i Hf]. destruct (turned_face i f Hf) as (_ & _ & _ & W & _). exact W.
      - intros i j f g a b Hi Hj Ne Nab Fa Fb Ga Gb.
        destruct (turned_face i f Hi) as (k & Ek & R1 & _ & F1 & _ & F3). destruct (turned_face j g Hj) as (k' & Ek' & R2 & _ & G1 & _ & G3).
        destruct (F1 _ Fa) as (p & Op & Xa). destruct (F1 _ Fb) as (q & Oq & Xb). destruct (G1 _ Ga) as (p' & Op' & Ya). destruct (G1 _ Gb) as (q' & Oq' & Yb).
        assert (p' = p) as -> by (apply (Xinj k' k); congruence). assert (q' = q) as -> by (apply (Xinj k' k); congruence).
        assert (Npq : p <> q) by (intros E; rewrite E in Xa; exact (Nab (once _ _ _ Xa Xb))).
        destruct (shared_points n N full pole0 pole1 Hn HN Hfull Hpoles k k' p q R1 R2 (keys_apart i j k k' Ek Ek' Ne) Npq Op Oq Op' Oq') as (S1 & S2 & Only).
        split; [|split].
        + destruct S1 as [K|K]; [left; exact (F3 _ _ _ _ K Xa Xb)|right; exact (F3 _ _ _ _ K Xb Xa)].
        + destruct S2 as [K|K]; [left; exact (G3 _ _ _ _ K Xa Xb)|right; exact (G3 _ _ _ _ K Xb Xa)].
        + intros c0 Fc Gc. destruct (F1 _ Fc) as (r & Or & Xc). destruct (G1 _ Gc) as (r' & Or' & Yc). assert (r' = r) as -> by (apply (Xinj k' k); congruence).
          destruct (Only r Or Or') as [E|E]; rewrite E in Xc; [left; exact (once _ _ _ Xc Xa)|right; exact (once _ _ _ Xc Xb)].
      - intros i j l f g e a b Hi Hj Hl Nab Fa Fb Ga Gb Ea Eb.
        destruct (Nat.eq_dec i j) as [|Nij]; [tauto|]. destruct (Nat.eq_dec i l) as [|Nil]; [tauto|]. destruct (Nat.eq_dec j l) as [|Njl]; [tauto|]. exfalso.
        destruct (turned_face i f Hi) as (k1 & E1 & R1 & _ & F1 & _). destruct (turned_face j g Hj) as (k2 & E2 & R2 & _ & G1 & _). destruct (turned_face l e Hl) as (k3 & E3 & R3 & _ & H1 & _).
        destruct (F1 _ Fa) as (p & Op & Xa). destruct (F1 _ Fb) as (q & Oq & Xb).
        destruct (G1 _ Ga) as (p' & Op' & Ya). destruct (G1 _ Gb) as (q' & Oq' & Yb). assert (p' = p) as -> by (apply (Xinj k2 k1); congruence). assert (q' = q) as -> by (apply (Xinj k2 k1); congruence).
        destruct (H1 _ Ea) as (p2 & Op2 & Za). destruct (H1 _ Eb) as (q2 & Oq2 & Zb). assert (p2 = p) as -> by (apply (Xinj k3 k1); congruence). assert (q2 = q) as -> by (apply (Xinj k3 k1); congruence).
        assert (Npq : p <> q) by (intros E; rewrite E in Xa; exact (Nab (once _ _ _ Xa Xb))).
        exact (three_panels_never n N full pole0 pole1 Hn HN Hfull Hpoles k1 k2 k3 p q R1 R2 R3 (keys_apart _ _ _ _ E1 E2 Nij) (keys_apart _ _ _ _ E1 E3 Nil) (keys_apart _ _ _ _ E2 E3 Njl) Npq Op Oq Op' Oq' Op2 Oq2).
    Qed.
  End Mesh.
  (** Closed surfaces: each edge is followed in both directions. *)
  Definition turned_edges (k : key) : list (key * key) := let '(a, b, c, d) := kcorners k in [(a, b); (b, c); (c, d); (d, a)].
End Keyed.
