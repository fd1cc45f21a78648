From Coq Require Import Reals List Bool Arith Lia Lra Permutation.
From Verif Require Import Model_Base Model_Geometry Model_Mesh Model_Clip Spec_Mesh Spec_Tree Spec_Clip Model_Tree Model_Normals Spec_Normals Model_Grid Spec_Grid.
Import ListNotations.
Open Scope nat_scope.

Section Product.
  Context {A : Type} (f : nat -> nat -> A) (ny : nat).
  Lemma grid_length nx start : length (flat_map (fun i => map (f i) (seq 0 ny)) (seq start nx)) = nx * ny.
  Proof. revert start. induction nx as [|nx IH]; intros start; cbn [seq flat_map]; [reflexivity|]. rewrite app_length, map_length, seq_length, IH. lia. Qed.
  Lemma grid_nth nx start i j : i < nx -> j < ny ->
    nth_error (flat_map (fun i => map (f i) (seq 0 ny)) (seq start nx)) (i * ny + j) = Some (f (start + i) j).
  Proof.
    revert start i. induction nx as [|nx IH]; intros start i Hi Hj; [lia|]. cbn [seq flat_map]. destruct i as [|i].
    - rewrite nth_error_app1 by (rewrite map_length, seq_length; lia). cbn [Nat.mul Nat.add].
      erewrite map_nth_error; [|rewrite (nth_error_nth' _ 0) by (rewrite seq_length; lia); rewrite seq_nth by lia; reflexivity].
      f_equal. f_equal. lia.
    - rewrite nth_error_app2 by (rewrite map_length, seq_length; lia). rewrite map_length, seq_length.
      replace (S i * ny + j - ny) with (i * ny + j) by lia. rewrite IH by lia. f_equal. f_equal. lia.
  Qed.
  Lemma grid_index nx k x : nth_error (flat_map (fun i => map (f i) (seq 0 ny)) (seq 0 nx)) k = Some x ->
    exists i j, i < nx /\ j < ny /\ k = i * ny + j /\ x = f i j.
  Proof.
    intros H. assert (L : k < nx * ny) by (rewrite <- (grid_length nx 0); apply nth_error_Some; congruence).
    assert (ny <> 0) by lia. exists (k / ny), (k mod ny).
    assert (k / ny < nx) by (apply Nat.div_lt_upper_bound; lia). assert (k mod ny < ny) by (apply Nat.mod_upper_bound; lia).
    assert (E : k = k / ny * ny + k mod ny) by (rewrite Nat.mul_comm; apply Nat.div_mod; lia).
    split; [assumption|]. split; [assumption|]. split; [exact E|]. rewrite E in H at 1. rewrite grid_nth in H by assumption. now injection H.
  Qed.
  Lemma grid_in nx x : In x (flat_map (fun i => map (f i) (seq 0 ny)) (seq 0 nx)) <-> exists i j, i < nx /\ j < ny /\ x = f i j.
  Proof.
    split.
    - intros H. apply In_nth_error in H. destruct H as [k H]. destruct (grid_index _ _ _ H) as (i & j & ? & ? & _ & ?). eauto 6.
    - intros (i & j & Hi & Hj & ->). apply (nth_error_In _ (i * ny + j)). now apply (grid_nth nx 0).
  Qed.
End Product.

(** Numbers of the vertices. *)
Definition vid (ny i j : nat) : nat := j + i * (ny + 1).
Lemma vid_inj ny i j i' j' : j <= ny -> j' <= ny -> vid ny i j = vid ny i' j' -> i = i' /\ j = j'.
Proof.
  unfold vid. intros A B H. assert (i = i').
  { destruct (Nat.lt_total i i') as [C|[C|C]]; [|exact C|]; exfalso; nia. }
  subst. split; [reflexivity|lia].
Qed.
Lemma panel_vid ny i j : panel ny i j = F (vid ny i j) (vid ny i (j + 1)) (vid ny (i + 1) (j + 1)) (vid ny (i + 1) j).
Proof. reflexivity. Qed.

Lemma linspace_length a b n : length (linspace a b n) = n.
Proof. unfold linspace. now rewrite map_length, seq_length. Qed.
Lemma linspace_nth a b n k : k < n -> nth_error (linspace a b n) k = Some (a + INR k * ((b - a) / INR (n - 1)))%R.
Proof.
  intros H. unfold linspace. apply map_nth_error with (f := fun k => (a + INR k * ((b - a) / INR (n - 1)))%R).
  rewrite (nth_error_nth' _ 0) by (rewrite seq_length; lia). now rewrite seq_nth.
Qed.

Lemma nodes_length f xs ys : length (grid_nodes f xs ys) = length xs * length ys.
Proof. unfold grid_nodes. induction xs as [|x xs IH]; cbn [flat_map length]; [reflexivity|]. rewrite app_length, map_length, IH. lia. Qed.
Lemma nodes_nth f xs ys i j x y : nth_error xs i = Some x -> nth_error ys j = Some y ->
  nth_error (grid_nodes f xs ys) (i * length ys + j) = Some (f x y).
Proof.
  unfold grid_nodes. revert i. induction xs as [|x0 xs IH]; intros i Hi Hj; [destruct i; discriminate|].
  assert (Lj : j < length ys) by (apply nth_error_Some; congruence). destruct i as [|i]; cbn [flat_map].
  - injection Hi as <-. rewrite nth_error_app1 by (rewrite map_length; cbn; lia). cbn [Nat.mul Nat.add]. now apply map_nth_error.
  - rewrite nth_error_app2 by (rewrite map_length; lia). rewrite map_length. replace (S i * length ys + j - length ys) with (i * length ys + j) by lia.
    now apply IH.
Qed.

Section Grid.
  Variables nx ny : nat.
  Variable f : R -> R -> vec.
  Variables x0 x1 y0 y1 : R.
  Let P i j := f (x0 + INR i * ((x1 - x0) / INR nx))%R (y0 + INR j * ((y1 - y0) / INR ny))%R.
  Let nodes := grid_nodes f (linspace x0 x1 (nx + 1)) (linspace y0 y1 (ny + 1)).
  Let m := Mesh nodes (grid_faces nx ny).

  Lemma node_at i j : i <= nx -> j <= ny -> nth_error nodes (vid ny i j) = Some (P i j).
  Proof.
    intros Hi Hj. unfold vid, nodes. replace (j + i * (ny + 1)) with (i * length (linspace y0 y1 (ny + 1)) + j) by (rewrite linspace_length; lia).
    rewrite (nodes_nth f _ _ i j _ _ (linspace_nth x0 x1 (nx + 1) i ltac:(lia)) (linspace_nth y0 y1 (ny + 1) j ltac:(lia))).
    unfold P. now rewrite !Nat.add_sub.
  Qed.
  Lemma nodes_count : length nodes = (nx + 1) * (ny + 1).
  Proof. unfold nodes. now rewrite nodes_length, !linspace_length. Qed.
  Lemma node_index k v : nth_error nodes k = Some v -> exists i j, i <= nx /\ j <= ny /\ k = vid ny i j /\ v = P i j.
  Proof.
    intros H. assert (L : k < (nx + 1) * (ny + 1)) by (rewrite <- nodes_count; apply nth_error_Some; congruence).
    exists (k / (ny + 1)), (k mod (ny + 1)).
    assert (k / (ny + 1) < nx + 1) by (apply Nat.div_lt_upper_bound; lia).
    assert (k mod (ny + 1) < ny + 1) by (apply Nat.mod_upper_bound; lia).
    assert (E : k = vid ny (k / (ny + 1)) (k mod (ny + 1))).
    { unfold vid. rewrite Nat.add_comm, Nat.mul_comm. apply Nat.div_mod. lia. }
    split; [lia|]. split; [lia|]. split; [exact E|]. rewrite E in H at 1. rewrite node_at in H by lia. now injection H.
  Qed.
  Lemma grid_valid : valid m.
  Proof.
    intros g k Hg Hk. cbn [m m_faces m_vertices] in *. rewrite nodes_count. apply grid_in in Hg. destruct Hg as (i & j & Hi & Hj & ->).
    cbn [panel fa fb fc fd In] in Hk. nia.
  Qed.
  Lemma grid_built : build_mesh nodes (grid_faces nx ny) = Ok m.
  Proof.
    unfold build_mesh. replace (forallb _ (grid_faces nx ny)) with true; [reflexivity|]. symmetry. apply forallb_forall. intros g Hg.
    apply forallb_forall. intros k Hk. apply Nat.ltb_lt. apply (grid_valid g k Hg). exact Hk.
  Qed.
  Lemma grid_used : 0 < nx -> 0 < ny -> all_used m.
  Proof.
    intros Hx Hy k Hk. cbn [m m_faces m_vertices] in *. apply nth_error_Some in Hk. destruct (nth_error nodes k) as [v|] eqn:E; [|contradiction].
    destruct (node_index k v E) as (i & j & Hi & Hj & -> & _).
    exists (panel ny (if i =? nx then i - 1 else i) (if j =? ny then j - 1 else j)). split.
    - apply grid_in. exists (if i =? nx then i - 1 else i), (if j =? ny then j - 1 else j).
      destruct (Nat.eqb_spec i nx), (Nat.eqb_spec j ny); repeat split; lia.
    - cbn [panel fa fb fc fd In]. unfold vid. destruct (Nat.eqb_spec i nx), (Nat.eqb_spec j ny); subst.
      + do 2 right. left. replace (nx - 1 + 1) with nx by lia. lia.
      + do 3 right. left. replace (nx - 1 + 1) with nx by lia. lia.
      + right. left. lia.
      + left. lia.
  Qed.
  Lemma grid_face i j : i < nx -> j < ny -> face_is m (i * ny + j) (P i j) (P i (S j)) (P (S i) (S j)) (P (S i) j).
  Proof.
    intros Hi Hj. exists (panel ny i j). cbn [m m_faces m_vertices]. split; [now apply (grid_nth (panel ny) ny nx 0)|].
    rewrite panel_vid. cbn [fa fb fc fd]. rewrite !Nat.add_1_r.
    repeat split; apply node_at; lia.
  Qed.
  Lemma grid_polygons : polygons_of m (cells P nx ny).
  Proof.
    unfold polygons_of. cbn [m m_faces m_vertices].
    assert (G : forall l, (forall i, In i l -> i < nx) -> Forall2 (corners_at nodes) (flat_map (fun i => map (panel ny i) (seq 0 ny)) l)
                 (flat_map (fun i => map (cell P i) (seq 0 ny)) l)).
    { induction l as [|i l IH]; intros Hl; cbn [flat_map]; [constructor|]. apply Forall2_app; [|apply IH; intros; apply Hl; now right].
      assert (Hi : i < nx) by (apply Hl; now left).
      assert (K : forall js, (forall j, In j js -> j < ny) -> Forall2 (corners_at nodes) (map (panel ny i) js) (map (cell P i) js)).
      { induction js as [|j js IHj]; intros Hj; cbn [map]; [constructor|]. constructor; [|apply IHj; intros; apply Hj; now right].
        assert (j < ny) by (apply Hj; now left). unfold corners_at, cell. rewrite panel_vid. cbn [fa fb fc fd]. rewrite !Nat.add_1_r.
        repeat split; apply node_at; lia. }
      apply K. intros j Hj. apply in_seq in Hj. lia. }
    apply G. intros i Hi. apply in_seq in Hi. lia.
  Qed.
End Grid.

(** ** The faces of a grid are conformal and consistently oriented *)
Lemma panel_has ny i j k : has (panel ny i j) k <-> exists a b, k = vid ny a b /\ (a = i \/ a = S i) /\ (b = j \/ b = S j).
Proof.
  unfold has. rewrite panel_vid. cbn [fa fb fc fd In]. rewrite !Nat.add_1_r. split.
  - intros [<-|[<-|[<-|[<-|[]]]]]; eauto 10.
  - intros (a & b & -> & [->| ->] & [->| ->]); auto.
Qed.
Lemma panel_sides ny i j : j < ny -> sides (panel ny i j) =
  [(vid ny i j, vid ny i (S j)); (vid ny i (S j), vid ny (S i) (S j)); (vid ny (S i) (S j), vid ny (S i) j); (vid ny (S i) j, vid ny i j)].
Proof.
  intros Hj. unfold sides. rewrite panel_vid. cbn [fa fb fc fd]. rewrite !Nat.add_1_r.
  destruct (Nat.eqb_spec (vid ny i j) (vid ny (S i) j)) as [E|E]; [|reflexivity].
  apply vid_inj in E; lia.
Qed.
Lemma panel_well_formed ny i j : j < ny -> well_formed (panel ny i j).
Proof.
  intros Hj. right. rewrite panel_vid. cbn [fa fb fc fd]. rewrite !Nat.add_1_r. unfold vid.
  repeat constructor; cbn [In]; intros H; nia.
Qed.
Lemma grid_faces_nth nx ny k f : nth_error (grid_faces nx ny) k = Some f -> exists i j, i < nx /\ j < ny /\ k = i * ny + j /\ f = panel ny i j.
Proof. apply (grid_index (panel ny) ny nx k f). Qed.
Lemma same1 i i' a b : i <> i' -> (a = i \/ a = S i) -> (a = i' \/ a = S i') -> (b = i \/ b = S i) -> (b = i' \/ b = S i') -> b = a.
Proof. lia. Qed.
Lemma two_cells ny i j i' j' a b a' b' : (i, j) <> (i', j') -> (a, b) <> (a', b') ->
  (a = i \/ a = S i) -> (b = j \/ b = S j) -> (a' = i \/ a' = S i) -> (b' = j \/ b' = S j) ->
  (a = i' \/ a = S i') -> (b = j' \/ b = S j') -> (a' = i' \/ a' = S i') -> (b' = j' \/ b' = S j') ->
  j < ny ->
  is_side (panel ny i j) (vid ny a b) (vid ny a' b').
Proof.
  intros D D' A B A' B' A2 B2 A2' B2' Hj. unfold is_side. rewrite panel_sides by assumption. cbn [In].
  assert (a = a' /\ b <> b' \/ a <> a' /\ b = b') as [[<- N]|[N <-]].
  { destruct (Nat.eq_dec a a') as [->|Na]; [left; split; [reflexivity|intros ->; now apply D']|]. right. split; [exact Na|].
    destruct (Nat.eq_dec i i') as [->|Ni]; [|exfalso; apply Na; symmetry; apply (same1 i i'); assumption].
    assert (Nj : j <> j') by (intros ->; now apply D). symmetry. apply (same1 j j'); assumption. }
  - destruct A as [->| ->], B as [->| ->], B' as [->| ->]; try (exfalso; lia); intuition.
  - destruct A as [->| ->], A' as [->| ->], B as [->| ->]; try (exfalso; lia); intuition.
Qed.
Local Ltac bd := match goal with H : ?b = ?j \/ ?b = S ?j, K : ?j < ?ny |- ?b <= ?ny => clear - H K; lia end.
Lemma grid_conformal nx ny : conformal (grid_faces nx ny).
Proof.
  split; [|split].
  - intros f Hf. apply grid_in in Hf. destruct Hf as (i & j & _ & Hj & ->). now apply panel_well_formed.
  - intros k l f g a b Hk Hl Ne Nab Hfa Hfb Hga Hgb.
    apply grid_faces_nth in Hk, Hl. destruct Hk as (i & j & Hi & Hj & -> & ->), Hl as (i' & j' & Hi' & Hj' & -> & ->).
    assert (D : (i, j) <> (i', j')) by (intros E; injection E as -> ->; now apply Ne).
    apply panel_has in Hfa, Hfb, Hga, Hgb.
    destruct Hfa as (a1 & a2 & -> & A1 & A2), Hfb as (b1 & b2 & -> & B1 & B2), Hga as (c1 & c2 & C & C1 & C2), Hgb as (d1 & d2 & E & D1 & D2).
    apply vid_inj in C; [|bd|bd]. apply vid_inj in E; [|bd|bd]. destruct C as [<- <-], E as [<- <-].
    assert (D' : (a1, a2) <> (b1, b2)) by (intros E; injection E as -> ->; now apply Nab).
    split; [eapply two_cells with (i' := i') (j' := j'); eassumption|]. split; [eapply two_cells with (i' := i) (j' := j); eauto|].
    intros c Hf Hg. apply panel_has in Hf, Hg. destruct Hf as (e1 & e2 & -> & E1 & E2), Hg as (g1 & g2 & G & G1 & G2).
    apply vid_inj in G; [|bd|bd]. destruct G as [<- <-].
    destruct (Nat.eq_dec i i') as [->|Ni].
    + assert (Nj : j <> j') by (intros ->; now apply D). clear - D' Nj A1 A2 B1 B2 C2 D2 E1 E2 G2.
      assert (b2 = a2) by (apply (same1 j j'); assumption). assert (e2 = a2) by (apply (same1 j j'); assumption). subst b2 e2.
      assert (a1 <> b1) by (intros ->; now apply D'). assert (e1 = a1 \/ e1 = b1) as [-> | ->] by lia; auto.
    + clear - D' Ni A1 A2 B1 B2 C1 D1 E1 E2 G1.
      assert (b1 = a1) by (apply (same1 i i'); assumption). assert (e1 = a1) by (apply (same1 i i'); assumption). subst b1 e1.
      assert (a2 <> b2) by (intros ->; now apply D'). assert (e2 = a2 \/ e2 = b2) as [-> | ->] by lia; auto.
  - intros k l o f g h a b Hk Hl Ho Nab Hfa Hfb Hga Hgb Hha Hhb.
    apply grid_faces_nth in Hk, Hl, Ho. destruct Hk as (i & j & Hi & Hj & -> & ->), Hl as (i' & j' & Hi' & Hj' & -> & ->), Ho as (i2 & j2 & Hi2 & Hj2 & -> & ->).
    apply panel_has in Hfa, Hfb, Hga, Hgb, Hha, Hhb.
    destruct Hfa as (a1 & a2 & -> & A1 & A2), Hfb as (b1 & b2 & -> & B1 & B2), Hga as (c1 & c2 & C & C1 & C2), Hgb as (d1 & d2 & E & D1 & D2),
      Hha as (p1 & p2 & P & P1 & P2), Hhb as (q1 & q2 & Q & Q1 & Q2).
    apply vid_inj in C; [|bd|bd]. apply vid_inj in E; [|bd|bd]. apply vid_inj in P; [|bd|bd]. apply vid_inj in Q; [|bd|bd].
    destruct C as [<- <-], E as [<- <-], P as [<- <-], Q as [<- <-].
    assert (D' : (a1, a2) <> (b1, b2)) by (intros E; injection E as -> ->; now apply Nab).
    assert (a1 <> b1 \/ a2 <> b2) as N by (destruct (Nat.eq_dec a1 b1) as [->|]; [right; intros ->; now apply D'|now left]).
    assert ((i = i' /\ j = j') \/ (i = i2 /\ j = j2) \/ (i' = i2 /\ j' = j2)) as [[-> ->]|[[-> ->]|[-> ->]]]; [|now left|now right; left|now right; right].
    destruct N as [N|N].
    + assert (i = i') by (destruct (Nat.eq_dec i i') as [E|E]; [exact E|]; exfalso; apply N; symmetry; apply (same1 i i'); assumption).
      assert (i = i2) by (destruct (Nat.eq_dec i i2) as [E|E]; [exact E|]; exfalso; apply N; symmetry; apply (same1 i i2); assumption).
      subst i' i2. clear - A2 C2 P2. lia.
    + assert (j = j') by (destruct (Nat.eq_dec j j') as [E|E]; [exact E|]; exfalso; apply N; symmetry; apply (same1 j j'); assumption).
      assert (j = j2) by (destruct (Nat.eq_dec j j2) as [E|E]; [exact E|]; exfalso; apply N; symmetry; apply (same1 j j2); assumption).
      subst j' j2. clear - A1 C1 P1. lia.
Qed.
Lemma grid_consistent nx ny : consistent (grid_faces nx ny).
Proof.
  intros k l f g a b Hk Hl Ne Hf Hg. apply grid_faces_nth in Hk, Hl. destruct Hk as (i & j & Hi & Hj & -> & ->), Hl as (i' & j' & Hi' & Hj' & -> & ->).
  rewrite panel_sides in Hf, Hg by assumption. cbn [In] in Hf, Hg.
  assert (D : i <> i' \/ j <> j') by (destruct (Nat.eq_dec i i') as [->|]; [right; intros ->; now apply Ne|now left]).
  repeat destruct Hf as [Hf|Hf]; try contradiction; apply (proj1 (pair_equal_spec _ _ _ _)) in Hf; destruct Hf as [<- <-];
    repeat destruct Hg as [Hg|Hg]; try contradiction; apply (proj1 (pair_equal_spec _ _ _ _)) in Hg; destruct Hg as [E1 E2];
    apply vid_inj in E1; try lia; apply vid_inj in E2; lia.
Qed.
