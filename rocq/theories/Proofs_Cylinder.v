(** The panels between the rows and the meridians of a surface of revolution, as a combinatorial surface. *)
From Coq Require Import Reals List Bool Arith Lia Permutation.
From Verif Require Import Model_Base Model_Geometry Model_Mesh Spec_Mesh Spec_Clip Spec_Tree Spec_Integrals Model_Normals Spec_Normals Proofs_Clip4 Proofs_Grid2.
Import ListNotations.
Open Scope nat_scope.

Section Topology.
  Variables (n N : nat) (full pole0 pole1 : bool).
  Hypothesis Hn : 0 < n.
  Hypothesis HN : 0 < N.
  Hypothesis Hfull : full = true -> 3 <= N.
  Hypothesis Hpoles : n = 1 -> pole0 && pole1 = false.

  Definition pole (a : nat) : bool := (a =? 0) && pole0 || (a =? n) && pole1.
  Definition nx (j : nat) : nat := if full && (S j =? N) then 0 else S j.
  (** The meridian that stands for the point of the row a on the meridian j. *)
  Definition col (a j : nat) : nat := if pole a then 0 else j.
  Definition key : Type := nat * nat.
  Definition ranged (k : key) : Prop := fst k < n /\ snd k < N.
  Definition kcorners (k : key) : key * key * key * key :=
    let '(i, j) := k in ((i, col i j), (S i, col (S i) j), (S i, col (S i) (nx j)), (i, col i (nx j))).
  Definition lies (k p : key) : Prop := let '(i, j) := k in (fst p = i \/ fst p = S i) /\ (snd p = col (fst p) j \/ snd p = col (fst p) (nx j)).
  Definition runs_along (k p q : key) : Prop :=
    p <> q /\ let '(a, b, c, d) := kcorners k in (p = a /\ q = b) \/ (p = b /\ q = c) \/ (p = c /\ q = d) \/ (p = d /\ q = a).

  Lemma nx_inj j j' : j < N -> j' < N -> nx j = nx j' -> j = j'.
  Proof. unfold nx. destruct full; cbn [andb]; [|lia]. specialize (Hfull eq_refl). destruct (Nat.eqb_spec (S j) N), (Nat.eqb_spec (S j') N); lia. Qed.
  Lemma nx_ne j : j < N -> nx j <> j.
  Proof. unfold nx. destruct full; cbn [andb]; [|lia]. specialize (Hfull eq_refl). destruct (Nat.eqb_spec (S j) N); lia. Qed.
  Lemma nx_back j j' : j < N -> j' < N -> j = nx j' -> j' = nx j -> False.
  Proof. unfold nx. destruct full; cbn [andb]; [|lia]. specialize (Hfull eq_refl). destruct (Nat.eqb_spec (S j) N), (Nat.eqb_spec (S j') N); lia. Qed.
  Lemma one_col j j' x y : j < N -> j' < N -> j <> j' -> (x = j \/ x = nx j) -> (y = j \/ y = nx j) -> (x = j' \/ x = nx j') -> (y = j' \/ y = nx j') -> x = y.
  Proof.
    intros A B D [->| ->] [->| ->] [Z|Z] [Y|Y]; try reflexivity; try congruence; exfalso.
    - now apply (nx_back j j' A B).
    - now apply (nx_back j j' A B).
  Qed.
  Lemma two_poles i : i < n -> pole i = true -> pole (S i) = true -> False.
  Proof.
    unfold pole. intros Hi A B. change (S i =? 0) with false in B. cbn [andb orb] in B. destruct (Nat.eqb_spec i n) as [E|_]; [lia|]. cbn [andb] in A. rewrite orb_false_r in A.
    apply andb_true_iff in A. apply andb_true_iff in B. destruct A as [A1 A2], B as [B1 B2]. apply Nat.eqb_eq in A1. apply Nat.eqb_eq in B1. rewrite A2, B2 in Hpoles. cbn in Hpoles. specialize (Hpoles ltac:(lia)). discriminate.
  Qed.

  Lemma lies_corner k p : lies k p <-> let '(a, b, c, d) := kcorners k in p = a \/ p = b \/ p = c \/ p = d.
  Proof.
    destruct k as [i j], p as [x y]. cbn. split.
    - intros [[->| ->] [->| ->]]; auto.
    - intros [[= -> ->]|[[= -> ->]|[[= -> ->]|[= -> ->]]]]; auto.
  Qed.
  Lemma runs_lies k p q : runs_along k p q -> lies k p /\ lies k q /\ p <> q.
  Proof. intros [D H]. split; [|split; [|exact D]]; apply lies_corner; destruct (kcorners k) as [[[a b] c] d]; intuition. Qed.

  (** Two points of the same panel, on one row or on two rows. *)
  Lemma same_row k p q : ranged k -> lies k p -> lies k q -> p <> q -> fst p = fst q -> pole (fst p) = false
    /\ (snd p = snd k /\ snd q = nx (snd k) \/ snd q = snd k /\ snd p = nx (snd k)) /\ (runs_along k p q \/ runs_along k q p).
  Proof.
    destruct k as [i j], p as [x y], q as [x' y']. cbn [fst snd]. intros [Ri Rj] [A B] [A' B'] D <-. cbn [fst snd] in *. unfold col in B, B'.
    destruct (pole x) eqn:Px; [exfalso; apply D; destruct B as [->| ->], B' as [->| ->]; reflexivity|]. split; [reflexivity|].
    assert (X : y = j /\ y' = nx j \/ y' = j /\ y = nx j). { destruct B as [->| ->], B' as [->| ->]; auto; exfalso; now apply D. }
    split; [exact X|]. unfold runs_along. cbn [kcorners]. unfold col.
    assert (D' : (x, y') <> (x, y)) by congruence.
    destruct A as [->| ->]; rewrite Px.
    - destruct X as [[-> ->]|[-> ->]]; [right|left]; (split; [assumption|]); do 3 right; auto.
    - destruct X as [[-> ->]|[-> ->]]; [left|right]; (split; [assumption|]); right; left; auto.
  Qed.
  Lemma shared_points k k' p q : ranged k -> ranged k' -> k <> k' -> p <> q -> lies k p -> lies k q -> lies k' p -> lies k' q ->
    (runs_along k p q \/ runs_along k q p) /\ (runs_along k' p q \/ runs_along k' q p) /\ (forall r, lies k r -> lies k' r -> r = p \/ r = q).
  Proof.
    intros R1 R2 Nk D P1 Q1 P2 Q2. destruct (Nat.eq_dec (fst p) (fst q)) as [E|E].
    - destruct (same_row k p q R1 P1 Q1 D E) as (F & C & S1). destruct (same_row k' p q R2 P2 Q2 D E) as (_ & C' & S2). split; [exact S1|]. split; [exact S2|].
      destruct k as [i j], k' as [i' j'], p as [x y], q as [x' y']. cbn [fst snd] in *. subst x'. destruct R1 as [Ri Rj], R2 as [Ri' Rj']. cbn [fst snd] in *.
      assert (j = j'). { destruct C as [[-> ->]|[-> ->]], C' as [[H1 H2]|[H1 H2]]; try assumption; try (symmetry; assumption); exfalso; apply (nx_back j j' Rj Rj'); congruence. }
      subst j'. assert (i <> i') by congruence. intros [u v] [A B] [A' B']. cbn [fst snd] in *. destruct P1 as [P1 _], P2 as [P2 _]. cbn [fst] in *.
      assert (u = x) as -> by lia. unfold col in B. rewrite F in B. destruct B as [->| ->], C as [[-> ->]|[-> ->]]; auto.
    - assert (Er : fst k = fst k' /\ (fst p = fst k /\ fst q = S (fst k) \/ fst q = fst k /\ fst p = S (fst k))).
      { destruct k as [i j], k' as [i' j'], p as [x y], q as [x' y']. destruct P1 as [P1 _], Q1 as [Q1 _], P2 as [P2 _], Q2 as [Q2 _]. cbn [fst snd] in *. lia. }
      destruct Er as [Er Eb]. assert (Nj : snd k <> snd k') by (destruct k, k'; cbn in *; congruence).
      assert (U : forall r r', lies k r -> lies k' r -> lies k r' -> lies k' r' -> fst r = fst r' -> r = r').
      { intros [x y] [x' y'] H1 H2 H3 H4 E0. cbn [fst] in E0. subst x'. f_equal. destruct k as [i j], k' as [i' j']. destruct H1 as [_ H1], H2 as [_ H2], H3 as [_ H3], H4 as [_ H4]. cbn [fst snd] in *. unfold col in *.
        destruct (pole x); [intuition congruence|]. destruct R1 as [_ R1], R2 as [_ R2]. exact (one_col j j' y y' R1 R2 Nj H1 H3 H2 H4). }
      assert (V : forall r r', lies k r -> lies k' r -> lies k r' -> lies k' r' -> pole (fst r) = false -> pole (fst r') = false -> snd r = snd r').
      { intros [x y] [x' y'] H1 H2 H3 H4 F1 F2. destruct k as [i j], k' as [i' j']. destruct H1 as [_ H1], H2 as [_ H2], H3 as [_ H3], H4 as [_ H4]. cbn [fst snd] in *. unfold col in *. rewrite F1 in *. rewrite F2 in *.
        destruct R1 as [_ R1], R2 as [_ R2]. exact (one_col j j' y y' R1 R2 Nj H1 H3 H2 H4). }
      assert (G : forall k r s, ranged k -> lies k r -> lies k s -> fst r = fst k -> fst s = S (fst k) -> (pole (fst r) = false -> pole (fst s) = false -> snd r = snd s) -> runs_along k r s \/ runs_along k s r).
      { intros [i j] [x y] [x' y'] [Ri Rj] [_ H1] [_ H2] E1 E2 H. cbn [fst snd] in *. subst x x'. unfold col in *.
        assert (Dd : (i, y) <> (S i, y')) by (intros [=]; lia). unfold runs_along. cbn [kcorners]. unfold col.
        destruct (pole i) eqn:F1, (pole (S i)) eqn:F2.
        - exfalso. exact (two_poles i Ri F1 F2).
        - assert (y = 0) as -> by tauto. destruct H2 as [->| ->]; [left; split; [exact Dd|left; auto]|right; split; [congruence|right; right; left; auto]].
        - assert (y' = 0) as -> by tauto. destruct H1 as [->| ->]; [left; split; [exact Dd|left; auto]|right; split; [congruence|right; right; left; auto]].
        - specialize (H eq_refl eq_refl). subst y'. destruct H1 as [->| ->]; [left; split; [exact Dd|left; auto]|right; split; [congruence|right; right; left; auto]]. }
      assert (S1 : runs_along k p q \/ runs_along k q p).
      { destruct Eb as [[E1 E2]|[E1 E2]]; [apply (G k p q R1 P1 Q1 E1 E2)|apply or_comm, (G k q p R1 Q1 P1 E1 E2)]; intros; now apply V. }
      assert (S2 : runs_along k' p q \/ runs_along k' q p).
      { rewrite Er in Eb. destruct Eb as [[E1 E2]|[E1 E2]]; [apply (G k' p q R2 P2 Q2 E1 E2)|apply or_comm, (G k' q p R2 Q2 P2 E1 E2)]; intros; now apply V. }
      split; [exact S1|]. split; [exact S2|]. intros r Hr Hr'.
      assert (L : fst r = fst k \/ fst r = S (fst k)) by (destruct k; apply Hr).
      destruct Eb as [[E1 E2]|[E1 E2]], L as [L|L];
        (left; apply U; auto; congruence) || (right; apply U; auto; congruence).
  Qed.
  Lemma three_panels_never k1 k2 k3 p q : ranged k1 -> ranged k2 -> ranged k3 -> k1 <> k2 -> k1 <> k3 -> k2 <> k3 -> p <> q ->
    lies k1 p -> lies k1 q -> lies k2 p -> lies k2 q -> lies k3 p -> lies k3 q -> False.
  Proof.
    intros R1 R2 R3 N12 N13 N23 D P1 Q1 P2 Q2 P3 Q3. destruct (Nat.eq_dec (fst p) (fst q)) as [E|E].
    - destruct (same_row k1 p q R1 P1 Q1 D E) as (_ & C1 & _). destruct (same_row k2 p q R2 P2 Q2 D E) as (_ & C2 & _). destruct (same_row k3 p q R3 P3 Q3 D E) as (_ & C3 & _).
      destruct k1 as [i1 j1], k2 as [i2 j2], k3 as [i3 j3], p as [x y], q as [x' y']. cbn [fst snd] in *. destruct R1 as [_ R1], R2 as [_ R2], R3 as [_ R3]. cbn [fst snd] in *.
      assert (j1 = j2). { destruct C1 as [[-> ->]|[-> ->]], C2 as [[H1 H2]|[H1 H2]]; try assumption; try (symmetry; assumption); exfalso; apply (nx_back j1 j2 R1 R2); congruence. }
      assert (j1 = j3). { destruct C1 as [[-> ->]|[-> ->]], C3 as [[H1 H2]|[H1 H2]]; try assumption; try (symmetry; assumption); exfalso; apply (nx_back j1 j3 R1 R3); congruence. }
      subst j2 j3. assert (i1 <> i2 /\ i1 <> i3 /\ i2 <> i3) as (? & ? & ?) by (repeat split; congruence). destruct P1 as [P1 _], P2 as [P2 _], P3 as [P3 _]. cbn [fst] in *. lia.
    - destruct k1 as [i1 j1], k2 as [i2 j2], k3 as [i3 j3], p as [x y], q as [x' y']. destruct R1 as [Ri R1], R2 as [_ R2], R3 as [_ R3]. cbn [fst snd] in *.
      destruct P1 as [P1 U1], Q1 as [Q1 V1], P2 as [P2 U2], Q2 as [Q2 V2], P3 as [P3 U3], Q3 as [Q3 V3]. cbn [fst snd] in *.
      assert (i1 = i2 /\ i1 = i3) as [<- <-] by lia. assert (j1 <> j2 /\ j1 <> j3 /\ j2 <> j3) as (? & ? & ?) by (repeat split; congruence).
      assert (Z : exists z, (z = j1 \/ z = nx j1) /\ (z = j2 \/ z = nx j2) /\ (z = j3 \/ z = nx j3)).
      { unfold col in *. destruct (pole x) eqn:Fx; [|exists y; auto]. destruct (pole x') eqn:Fx'; [|exists y'; auto]. exfalso. apply (two_poles i1 Ri); destruct P1 as [->| ->], Q1 as [->| ->]; congruence. }
      destruct Z as (z & [Z1|Z1] & [Z2|Z2] & [Z3|Z3]); try congruence;
        match goal with
        | A : z = nx ?a, B : z = nx ?b |- _ => assert (a = b) by (apply nx_inj; congruence); congruence
        end.
  Qed.
  Lemma one_direction k k' p q : ranged k -> ranged k' -> runs_along k p q -> runs_along k' p q -> k = k'.
  Proof.
    destruct k as [i j], k' as [i' j']. intros [Ri Rj] [Ri' Rj'] [D H] [_ H']. cbn [fst snd kcorners] in *.
    destruct p as [x y], q as [x' y']. unfold col in *.
    destruct H as [[A B]|[[A B]|[[A B]|[A B]]]], H' as [[A' B']|[[A' B']|[[A' B']|[A' B']]]];
      apply pair_equal_spec in A; apply pair_equal_spec in B; apply pair_equal_spec in A'; apply pair_equal_spec in B';
      destruct A as [A1 A2], B as [B1 B2], A' as [A1' A2'], B' as [B1' B2']; try lia.
    - assert (E : i' = i) by lia. clear A1' B1'. subst i'. f_equal. destruct (pole i) eqn:F1; [|congruence]. destruct (pole (S i)) eqn:F2; [exfalso; exact (two_poles i Ri F1 F2)|congruence].
    - assert (E : i' = i) by lia. clear A1' B1'. subst i'. f_equal. destruct (pole (S i)); [exfalso; apply D; congruence|congruence].
    - exfalso. assert (E : i' = S i) by lia. clear A1' B1'. subst i'. destruct (pole (S i)); [apply D; congruence|]. apply (nx_back j j'); congruence.
    - assert (E : i' = i) by lia. clear A1' B1'. subst i'. f_equal. apply nx_inj; [assumption..|]. destruct (pole i) eqn:F1; [|congruence]. destruct (pole (S i)) eqn:F2; [exfalso; exact (two_poles i Ri F1 F2)|congruence].
    - exfalso. assert (E : i = S i') by lia. clear A1 B1. subst i. destruct (pole (S i')); [apply D; congruence|]. apply (nx_back j j'); congruence.
    - assert (E : i' = i) by lia. clear A1' B1'. subst i'. f_equal. destruct (pole i); [exfalso; apply D; congruence|congruence].
  Qed.
  (** When the surface is closed, each side has a neighbour. *)
  Definition pv (j : nat) : nat := match j with 0 => N - 1 | S j' => j' end.
  Lemma nx_pv j : full = true -> j < N -> nx (pv j) = j /\ pv j < N.
  Proof. intros E Hj. unfold nx, pv. rewrite E. cbn [andb]. destruct j as [|j]; [replace (S (N - 1)) with N by lia; rewrite Nat.eqb_refl; lia|]. destruct (Nat.eqb_spec (S j) N); lia. Qed.
  Lemma nx_lt j : full = true -> j < N -> nx j < N.
  Proof. intros E Hj. unfold nx. rewrite E. cbn [andb]. destruct (Nat.eqb_spec (S j) N); lia. Qed.
  Lemma other_panel k p q : full = true -> pole0 = true -> pole1 = true -> ranged k -> runs_along k p q -> exists k', ranged k' /\ runs_along k' q p.
  Proof.
    intros Ff F0 F1 [Ri Rj] [D H]. destruct k as [i j]. cbn [fst snd kcorners] in *.
    destruct H as [[-> ->]|[[-> ->]|[[-> ->]|[-> ->]]]].
    - destruct (nx_pv j Ff Rj) as [Ep Lp]. exists (i, pv j). split; [split; assumption|]. split; [congruence|]. cbn [kcorners]. rewrite Ep. do 2 right. left. auto.
    - destruct (Nat.eq_dec (S i) n) as [E|E]; [exfalso; apply D; unfold col, pole; rewrite E, Nat.eqb_refl, F1; cbn; now rewrite orb_true_r|].
      exists (S i, j). split; [split; cbn; lia|]. split; [congruence|]. cbn [kcorners]. do 3 right. auto.
    - exists (i, nx j). split; [split; [assumption|now apply nx_lt]|]. split; [congruence|]. cbn [kcorners]. left. auto.
    - destruct (Nat.eq_dec i 0) as [E|E]; [exfalso; apply D; unfold col, pole; rewrite E, F0; reflexivity|].
      exists (i - 1, j). split; [split; cbn; lia|]. split; [congruence|]. cbn [kcorners]. replace (S (i - 1)) with i by lia. right. left. auto.
  Qed.
End Topology.
