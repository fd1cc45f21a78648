(** The panels of a box, in integer coordinates. *)
From Coq Require Import Reals List Bool Arith Lia Permutation.
From Verif Require Import Model_Base Model_Mesh Model_Box Spec_Box.
Import ListNotations.
Open Scope nat_scope.

Definition panel_key : Type := box_side * nat * nat.
Inductive direction := AlongX | AlongY | AlongZ.
Definition across (s : box_side) : direction := match s with LeftSide | RightSide => AlongX | FrontSide | BackSide => AlongY | _ => AlongZ end.
(** The coordinate across the side, then the two others. *)
Definition seen_from (a : direction) (p : grid_point) : grid_point :=
  let '(x, y, z) := p in match a with AlongX => (x, y, z) | AlongY => (y, x, z) | AlongZ => (z, x, y) end.
Definition turns_left (s : box_side) : bool := match s with LeftSide | BackSide | BottomSide => true | _ => false end.
(** Neighbouring points. *)
Definition next_to (p q : grid_point) : Prop :=
  let '(x, y, z) := p in let '(x', y', z') := q in
  (x = x' /\ y = y' /\ (z = S z' \/ z' = S z)) \/ (x = x' /\ z = z' /\ (y = S y' \/ y' = S y)) \/ (y = y' /\ z = z' /\ (x = S x' \/ x' = S x)).
Lemma two i y : i <= y <= S i -> y = i \/ y = S i. Proof. lia. Qed.
Lemma seen_inj a p q : seen_from a p = seen_from a q -> p = q.
Proof. destruct p as [[x y] z], q as [[x' y'] z'], a; cbn; congruence. Qed.

Section Panels.
  Variables nw nt nh : nat.
  Definition extent (a : direction) : nat * nat * nat := match a with AlongX => (nw, nt, nh) | AlongY => (nt, nw, nh) | AlongZ => (nh, nw, nt) end.
  Definition level (s : box_side) : nat := match s with RightSide => nw | BackSide => nt | TopSide => nh | _ => 0 end.
  Definition in_range (k : panel_key) : Prop := let '(s, i, j) := k in i < fst (side_count nw nt nh s) /\ j < snd (side_count nw nt nh s).
  Definition gpanel (k : panel_key) := let '(s, i, j) := k in side_panel nw nt nh s i j.
  Definition gcorners (k : panel_key) : list grid_point := let '(a, b, c, d) := gpanel k in [a; b; c; d].
  Definition gsides (k : panel_key) : list (grid_point * grid_point) := let '(a, b, c, d) := gpanel k in [(a, b); (b, c); (c, d); (d, a)].
  (** The corners, by inequalities. *)
  Definition within (a : direction) (l i j : nat) (p : grid_point) : Prop :=
    let '(x, y, z) := seen_from a p in x = l /\ i <= y <= S i /\ j <= z <= S j.
  Definition on (k : panel_key) (p : grid_point) : Prop := let '(s, i, j) := k in within (across s) (level s) i j p.
  Lemma corners_seen s i j p : In p (gcorners (s, i, j)) <->
    In (seen_from (across s) p) [(level s, i, j); (level s, i, S j); (level s, S i, S j); (level s, S i, j)].
  Proof.
    destruct p as [[x y] z]. unfold gcorners, gpanel.
    destruct s; cbn [side_panel In across level seen_from]; split; intros H; repeat destruct H as [H|H]; try contradiction; injection H as <- <- <-; auto 6.
  Qed.
  Lemma gcorners_on k p : In p (gcorners k) <-> on k p.
  Proof.
    destruct k as [[s i] j]. rewrite corners_seen. unfold on, within. destruct (seen_from _ p) as [[x y] z]. cbn [In]. split.
    - intros H; repeat destruct H as [H|H]; try contradiction; injection H as <- <- <-; lia.
    - intros (-> & A & B). apply two in A. apply two in B. destruct A as [-> | ->], B as [-> | ->]; auto.
  Qed.
  (** The oriented sides. *)
  Definition runs (l i j : nat) (p q : grid_point) : Prop :=
    let '(x, y, z) := p in let '(x', y', z') := q in x = l /\ x' = l /\
    (y = i /\ y' = i /\ z = j /\ z' = S j \/ y = i /\ y' = S i /\ z = S j /\ z' = S j
     \/ y = S i /\ y' = S i /\ z = S j /\ z' = j \/ y = S i /\ y' = i /\ z = j /\ z' = j).
  Lemma runs_In l i j p q : runs l i j p q <-> In (p, q) [((l, i, j), (l, i, S j)); ((l, i, S j), (l, S i, S j)); ((l, S i, S j), (l, S i, j)); ((l, S i, j), (l, i, j))].
  Proof.
    destruct p as [[x y] z], q as [[x' y'] z']. unfold runs. cbn [In]. split.
    - intros (-> & -> & H). destruct H as [H|[H|[H|H]]]; destruct H as (-> & -> & -> & ->); auto.
    - intros H; repeat destruct H as [H|H]; try contradiction; injection H as <- <- <- <- <- <-; auto 12.
  Qed.
  Lemma gsides_runs s i j p q : In (p, q) (gsides (s, i, j)) <->
    if turns_left s then runs (level s) i j (seen_from (across s) p) (seen_from (across s) q)
    else runs (level s) i j (seen_from (across s) q) (seen_from (across s) p).
  Proof.
    assert (E : forall t : bool, (if t then runs (level s) i j (seen_from (across s) p) (seen_from (across s) q) else runs (level s) i j (seen_from (across s) q) (seen_from (across s) p))
      <-> (if t then In (seen_from (across s) p, seen_from (across s) q) else In (seen_from (across s) q, seen_from (across s) p))
           [((level s, i, j), (level s, i, S j)); ((level s, i, S j), (level s, S i, S j)); ((level s, S i, S j), (level s, S i, j)); ((level s, S i, j), (level s, i, j))]).
    { intros [|]; apply runs_In. }
    rewrite E. clear E. destruct p as [[x y] z], q as [[x' y'] z']. unfold gsides, gpanel.
    destruct s; cbn [side_panel In across level seen_from turns_left]; split; intros H; repeat destruct H as [H|H]; try contradiction;
      injection H as <- <- <- <- <- <-; auto 6.
  Qed.
  Lemma next_seen a p q : next_to p q <-> next_to (seen_from a p) (seen_from a q).
  Proof. destruct p as [[x y] z], q as [[x' y'] z'], a; cbn [seen_from next_to]; tauto. Qed.
  Lemma next_side k p q : on k p -> on k q -> next_to p q -> In (p, q) (gsides k) \/ In (q, p) (gsides k).
  Proof.
    destruct k as [[s i] j]. rewrite !gsides_runs, (next_seen (across s)). unfold on, within.
    destruct (seen_from (across s) p) as [[x y] z], (seen_from (across s) q) as [[x' y'] z'].
    assert (G : x = level s /\ i <= y <= S i /\ j <= z <= S j -> x' = level s /\ i <= y' <= S i /\ j <= z' <= S j -> next_to (x, y, z) (x', y', z') ->
      runs (level s) i j (x, y, z) (x', y', z') \/ runs (level s) i j (x', y', z') (x, y, z)).
    { intros (-> & A1 & A2) (-> & B1 & B2) C. apply two in A1. apply two in A2. apply two in B1. apply two in B2. unfold next_to in C.
      destruct A1 as [-> | ->], A2 as [-> | ->], B1 as [-> | ->], B2 as [-> | ->]; unfold runs;
        first [exfalso; clear - C; lia|left; split; [reflexivity|]; split; [reflexivity|]; solve [auto 8]|right; split; [reflexivity|]; split; [reflexivity|]; solve [auto 8]]. }
    destruct (turns_left s); intros A B C; specialize (G A B C); tauto.
  Qed.
  Lemma side_on k p q : In (p, q) (gsides k) -> on k p /\ on k q /\ next_to p q.
  Proof.
    destruct k as [[s i] j]. rewrite gsides_runs, (next_seen (across s)). unfold on, within.
    destruct (seen_from (across s) p) as [[x y] z], (seen_from (across s) q) as [[x' y'] z']. 
    assert (G : forall y z y' z', (y = i /\ y' = i /\ z = j /\ z' = S j \/ y = i /\ y' = S i /\ z = S j /\ z' = S j
     \/ y = S i /\ y' = S i /\ z = S j /\ z' = j \/ y = S i /\ y' = i /\ z = j /\ z' = j) ->
     (i <= y <= S i /\ j <= z <= S j) /\ (i <= y' <= S i /\ j <= z' <= S j) /\ ((y = y' /\ (z = S z' \/ z' = S z)) \/ (z = z' /\ (y = S y' \/ y' = S y)))).
    { clear. intros y z y' z' [H|[H|[H|H]]]; destruct H as (-> & -> & -> & ->); (split; [lia|]); (split; [lia|]); auto 6. }
    destruct (turns_left s); unfold runs, next_to; intros (-> & -> & H); apply G in H; destruct H as (A & B & C); (split; [tauto|]); (split; [tauto|]); tauto || (destruct C as [(-> & [C|C])|(-> & [C|C])]; auto 8).
  Qed.

  Hypothesis Hw : 0 < nw.
  Hypothesis Ht : 0 < nt.
  Hypothesis Hh : 0 < nh.
  (** A panel known by its direction, level and place. *)
  Definition valid_place (a : direction) (l i j : nat) : Prop := let '(e, m, n) := extent a in (l = 0 \/ l = e) /\ i < m /\ j < n.
  Lemma range_place s i j : in_range (s, i, j) -> valid_place (across s) (level s) i j.
  Proof. destruct s; cbn; lia. Qed.
  Lemma places (s : box_side) (i j : nat) s' i' j' : (s, i, j) <> (s', i', j') -> across s = across s' -> level s <> level s' \/ i <> i' \/ j <> j'.
  Proof.
    intros N E. destruct (Nat.eq_dec i i') as [-> |]; [|tauto]. destruct (Nat.eq_dec j j') as [-> |]; [|tauto]. left. intros L. apply N.
    destruct s, s'; try discriminate E; try reflexivity; cbn in L; lia.
  Qed.
  Lemma apart (p q : grid_point) : p <> q -> let '(x, y, z) := p in let '(x', y', z') := q in x <> x' \/ y <> y' \/ z <> z'.
  Proof.
    destruct p as [[x y] z], q as [[x' y'] z']. intros N. destruct (Nat.eq_dec x x') as [-> |]; [|tauto]. destruct (Nat.eq_dec y y') as [-> |]; [|tauto].
    right. right. intros ->. now apply N.
  Qed.
  Lemma same_plane i j i' j' y z y' z' : i <> i' \/ j <> j' -> y <> y' \/ z <> z' ->
    i <= y <= S i -> j <= z <= S j -> i <= y' <= S i -> j <= z' <= S j -> i' <= y <= S i' -> j' <= z <= S j' -> i' <= y' <= S i' -> j' <= z' <= S j' ->
    (i = i' /\ (j = S j' \/ j' = S j) /\ z = z' /\ z = Nat.max j j' /\ (y = S y' \/ y' = S y))
    \/ (j = j' /\ (i = S i' \/ i' = S i) /\ y = y' /\ y = Nat.max i i' /\ (z = S z' \/ z' = S z)).
  Proof.
    intros N M A B A' B' C D C' D'. destruct (Nat.eq_dec i i') as [-> |Ni].
    - left. destruct N as [N|N]; [now elim N|]. assert (z = z') as -> by lia. lia.
    - right. assert (y = y') as -> by lia. destruct M as [M|M]; [now elim M|]. assert (j = j') as -> by lia. lia.
  Qed.
  Lemma shared_place a a' l i j l' i' j' p q : (a = a' -> l <> l' \/ i <> i' \/ j <> j') -> p <> q ->
    within a l i j p -> within a l i j q -> within a' l' i' j' p -> within a' l' i' j' q ->
    next_to p q /\ forall r, within a l i j r -> within a' l' i' j' r -> r = p \/ r = q.
  Proof.
    intros N M A B A' B'. apply apart in M.
    assert (D : a = a' \/ a <> a') by (destruct a, a'; (now left) || (right; discriminate)). destruct D as [<-|D].
    - specialize (N eq_refl). unfold within in *. rewrite (next_seen a).
      assert (M' : let '(x, y, z) := seen_from a p in let '(x', y', z') := seen_from a q in x <> x' \/ y <> y' \/ z <> z').
      { destruct p as [[x y] z], q as [[x' y'] z'], a; cbn [seen_from]; tauto. }
      clear M. destruct (seen_from a p) as [[x y] z] eqn:Ep, (seen_from a q) as [[x' y'] z'] eqn:Eq.
      destruct A as (-> & A1 & A2), B as (-> & B1 & B2), A' as (<- & A1' & A2'), B' as (_ & B1' & B2').
      assert (P : i <> i' \/ j <> j') by (destruct N as [N|N]; [now elim N|exact N]).
      assert (P' : y <> y' \/ z <> z') by (destruct M' as [N'|N']; [now elim N'|exact N']).
      destruct (same_plane i j i' j' y z y' z' P P' A1 A2 B1 B2 A1' A2' B1' B2') as [(<- & F & <- & G & H)|(<- & F & <- & G & H)].
      + split; [unfold next_to; tauto|]. intros r Rr Rr'. destruct (seen_from a r) as [[x2 y2] z2] eqn:Er. destruct Rr as (-> & R1 & R2), Rr' as (_ & R1' & R2').
        assert (z2 = z) as -> by (clear - R2 R2' F G; lia). assert (K : y2 = y \/ y2 = y') by (clear - R1 A1 B1 H; lia).
        destruct K as [-> | ->]; [left|right]; apply (seen_inj a); congruence.
      + split; [unfold next_to; tauto|]. intros r Rr Rr'. destruct (seen_from a r) as [[x2 y2] z2] eqn:Er. destruct Rr as (-> & R1 & R2), Rr' as (_ & R1' & R2').
        assert (y2 = y) as -> by (clear - R1 R1' F G; lia). assert (K : z2 = z \/ z2 = z') by (clear - R2 A2 B2 H; lia).
        destruct K as [-> | ->]; [left|right]; apply (seen_inj a); congruence.
    - clear N. destruct p as [[x y] z], q as [[x' y'] z']. unfold within in *.
      assert (T : forall i u v w, i <= u <= S i -> i <= v <= S i -> i <= w <= S i -> u <> v -> (u = S v \/ v = S u) /\ (w = u \/ w = v)) by (clear; lia).
      split.
      + unfold next_to. destruct a, a'; (now elim D) || (cbn [seen_from] in *; clear D;
          destruct A as (-> & A1 & A2), B as (-> & B1 & B2), A' as (-> & A1' & A2'), B' as (-> & B1' & B2'); clear T; lia).
      + intros [[x2 y2] z2] C C'. assert (G : (x2 = x /\ y2 = y /\ z2 = z) \/ (x2 = x' /\ y2 = y' /\ z2 = z')).
        { destruct a, a'; (now elim D) || (cbn [seen_from] in *; clear D;
            destruct A as (-> & A1 & A2), B as (-> & B1 & B2), A' as (-> & A1' & A2'), B' as (-> & B1' & B2'), C as (-> & C1 & C2), C' as (-> & C1' & C2'); clear T; lia). }
        destruct G as [(-> & -> & ->)|(-> & -> & ->)]; auto.
  Qed.
  Lemma shared k k' p q : k <> k' -> p <> q -> on k p -> on k q -> on k' p -> on k' q ->
    next_to p q /\ forall r, on k r -> on k' r -> r = p \/ r = q.
  Proof.
    destruct k as [[s i] j], k' as [[s' i'] j']. intros N M A B A' B'.
    exact (shared_place _ _ _ _ _ _ _ _ p q (places _ _ _ _ _ _ N) M A B A' B').
  Qed.
  (** At most two panels on each side. *)
  Lemma two_places a1 a2 a3 l1 i1 j1 l2 i2 j2 l3 i3 j3 p q : valid_place a1 l1 i1 j1 -> valid_place a2 l2 i2 j2 -> valid_place a3 l3 i3 j3 ->
    (a1 = a2 -> l1 <> l2 \/ i1 <> i2 \/ j1 <> j2) -> (a1 = a3 -> l1 <> l3 \/ i1 <> i3 \/ j1 <> j3) -> (a2 = a3 -> l2 <> l3 \/ i2 <> i3 \/ j2 <> j3) ->
    next_to p q -> within a1 l1 i1 j1 p -> within a1 l1 i1 j1 q -> within a2 l2 i2 j2 p -> within a2 l2 i2 j2 q -> within a3 l3 i3 j3 p -> within a3 l3 i3 j3 q -> False.
  Proof.
    intros R1 R2 R3 N12 N13 N23 M A1 B1 A2 B2 A3 B3. destruct p as [[x y] z], q as [[x' y'] z']. unfold valid_place, within, next_to in *.
    destruct a1, a2, a3; cbn [extent seen_from] in *; first [specialize (N12 eq_refl)|clear N12]; first [specialize (N13 eq_refl)|clear N13];
      first [specialize (N23 eq_refl)|clear N23];
      destruct A1 as (E1 & A1 & A1'), B1 as (F1 & B1 & B1'), A2 as (E2 & A2 & A2'), B2 as (F2 & B2 & B2'), A3 as (E3 & A3 & A3'), B3 as (F3 & B3 & B3');
      destruct M as [(M1 & M2 & M)|[(M1 & M2 & M)|(M1 & M2 & M)]]; subst; try (clear - M; lia); destruct R1 as ([R1|R1] & R1' & R1''), R2 as ([R2|R2] & R2' & R2''), R3 as ([R3|R3] & R3' & R3''); lia.
  Qed.
  Lemma two_panels k1 k2 k3 p q : in_range k1 -> in_range k2 -> in_range k3 -> k1 <> k2 -> k1 <> k3 -> k2 <> k3 -> p <> q ->
    on k1 p -> on k1 q -> on k2 p -> on k2 q -> on k3 p -> on k3 q -> False.
  Proof.
    intros R1 R2 R3 N12 N13 N23 M A1 B1 A2 B2 A3 B3. destruct (shared k1 k2 p q N12 M A1 B1 A2 B2) as [Nx _].
    destruct k1 as [[s1 i1] j1], k2 as [[s2 i2] j2], k3 as [[s3 i3] j3].
    exact (two_places _ _ _ _ _ _ _ _ _ _ _ _ p q (range_place _ _ _ R1) (range_place _ _ _ R2) (range_place _ _ _ R3)
      (places _ _ _ _ _ _ N12) (places _ _ _ _ _ _ N13) (places _ _ _ _ _ _ N23) Nx A1 B1 A2 B2 A3 B3).
  Qed.
  Lemma one_way k k' p q : in_range k -> in_range k' -> k <> k' -> In (p, q) (gsides k) -> In (p, q) (gsides k') -> False.
  Proof.
    destruct k as [[s i] j], k' as [[s' i'] j'], p as [[x y] z], q as [[x' y'] z']. intros R R' N. pose proof (places _ _ _ _ _ _ N) as P. clear N.
    rewrite !gsides_runs. unfold in_range in *.
    destruct s, s'; cbn [side_count fst snd turns_left across level seen_from] in *; first [specialize (P eq_refl)|clear P]; unfold runs; lia.
  Qed.
  (** Every side is shared. *)
  Lemma run1 l i j x y z x' y' z' : x = l -> x' = l -> y = i -> y' = i -> z = j -> z' = S j -> runs l i j (x, y, z) (x', y', z').
  Proof. unfold runs. tauto. Qed.
  Lemma run2 l i j x y z x' y' z' : x = l -> x' = l -> y = i -> y' = S i -> z = S j -> z' = S j -> runs l i j (x, y, z) (x', y', z').
  Proof. unfold runs. tauto. Qed.
  Lemma run3 l i j x y z x' y' z' : x = l -> x' = l -> y = S i -> y' = S i -> z = S j -> z' = j -> runs l i j (x, y, z) (x', y', z').
  Proof. unfold runs. tauto. Qed.
  Lemma run4 l i j x y z x' y' z' : x = l -> x' = l -> y = S i -> y' = i -> z = j -> z' = j -> runs l i j (x, y, z) (x', y', z').
  Proof. unfold runs. tauto. Qed.
  Ltac neighbour_is k := exists k; split; [cbn [in_range side_count fst snd] in *; lia|apply gsides_runs; cbn [turns_left across level seen_from];
    first [apply run1; lia|apply run2; lia|apply run3; lia|apply run4; lia]].
  Lemma neighbour s i j p q : in_range (s, i, j) -> In (p, q) (gsides (s, i, j)) -> exists k, in_range k /\ In (q, p) (gsides k).
  Proof.
    intros R H. destruct p as [[x y] z], q as [[x' y'] z']. apply gsides_runs in H.
    destruct s; cbn [turns_left across level seen_from in_range side_count fst snd] in *; unfold runs in H; destruct H as (E1 & E2 & H);
      destruct H as [H|[H|[H|H]]]; destruct H as (E3 & E4 & E5 & E6).
    - destruct (Nat.eq_dec i 0) as [E|E]; [neighbour_is (FrontSide, 0, j)|neighbour_is (LeftSide, i - 1, j)].
    - destruct (Nat.eq_dec (S j) nh) as [E|E]; [neighbour_is (TopSide, 0, i)|neighbour_is (LeftSide, i, S j)].
    - destruct (Nat.eq_dec (S i) nt) as [E|E]; [neighbour_is (BackSide, 0, j)|neighbour_is (LeftSide, S i, j)].
    - destruct (Nat.eq_dec j 0) as [E|E]; [neighbour_is (BottomSide, 0, i)|neighbour_is (LeftSide, i, j - 1)].
    - destruct (Nat.eq_dec i 0) as [E|E]; [neighbour_is (FrontSide, nw - 1, j)|neighbour_is (RightSide, i - 1, j)].
    - destruct (Nat.eq_dec (S j) nh) as [E|E]; [neighbour_is (TopSide, nw - 1, i)|neighbour_is (RightSide, i, S j)].
    - destruct (Nat.eq_dec (S i) nt) as [E|E]; [neighbour_is (BackSide, nw - 1, j)|neighbour_is (RightSide, S i, j)].
    - destruct (Nat.eq_dec j 0) as [E|E]; [neighbour_is (BottomSide, nw - 1, i)|neighbour_is (RightSide, i, j - 1)].
    - destruct (Nat.eq_dec i 0) as [E|E]; [neighbour_is (LeftSide, 0, j)|neighbour_is (FrontSide, i - 1, j)].
    - destruct (Nat.eq_dec (S j) nh) as [E|E]; [neighbour_is (TopSide, i, 0)|neighbour_is (FrontSide, i, S j)].
    - destruct (Nat.eq_dec (S i) nw) as [E|E]; [neighbour_is (RightSide, 0, j)|neighbour_is (FrontSide, S i, j)].
    - destruct (Nat.eq_dec j 0) as [E|E]; [neighbour_is (BottomSide, i, 0)|neighbour_is (FrontSide, i, j - 1)].
    - destruct (Nat.eq_dec i 0) as [E|E]; [neighbour_is (LeftSide, nt - 1, j)|neighbour_is (BackSide, i - 1, j)].
    - destruct (Nat.eq_dec (S j) nh) as [E|E]; [neighbour_is (TopSide, i, nt - 1)|neighbour_is (BackSide, i, S j)].
    - destruct (Nat.eq_dec (S i) nw) as [E|E]; [neighbour_is (RightSide, nt - 1, j)|neighbour_is (BackSide, S i, j)].
    - destruct (Nat.eq_dec j 0) as [E|E]; [neighbour_is (BottomSide, i, nt - 1)|neighbour_is (BackSide, i, j - 1)].
    - destruct (Nat.eq_dec i 0) as [E|E]; [neighbour_is (LeftSide, j, nh - 1)|neighbour_is (TopSide, i - 1, j)].
    - destruct (Nat.eq_dec (S j) nt) as [E|E]; [neighbour_is (BackSide, i, nh - 1)|neighbour_is (TopSide, i, S j)].
    - destruct (Nat.eq_dec (S i) nw) as [E|E]; [neighbour_is (RightSide, j, nh - 1)|neighbour_is (TopSide, S i, j)].
    - destruct (Nat.eq_dec j 0) as [E|E]; [neighbour_is (FrontSide, i, nh - 1)|neighbour_is (TopSide, i, j - 1)].
    - destruct (Nat.eq_dec i 0) as [E|E]; [neighbour_is (LeftSide, j, 0)|neighbour_is (BottomSide, i - 1, j)].
    - destruct (Nat.eq_dec (S j) nt) as [E|E]; [neighbour_is (BackSide, i, 0)|neighbour_is (BottomSide, i, S j)].
    - destruct (Nat.eq_dec (S i) nw) as [E|E]; [neighbour_is (RightSide, j, 0)|neighbour_is (BottomSide, S i, j)].
    - destruct (Nat.eq_dec j 0) as [E|E]; [neighbour_is (FrontSide, i, 0)|neighbour_is (BottomSide, i, j - 1)].
  Qed.
End Panels.
