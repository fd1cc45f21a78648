(** The grids of revolution, some rows of which are repeated. *)
From Coq Require Import Reals List Bool Arith Lia Lra Permutation.
From Verif Require Import Model_Base Model_Geometry Model_Mesh Model_Clip Spec_Mesh Spec_Tree Spec_Clip Model_Tree Model_Body Spec_Body
  Proofs_Geometry Proofs_Mesh Proofs_Mesh2 Proofs_Mesh3 Proofs_Clip4 Proofs_Clip5 Model_Integrals Spec_Integrals Proofs_Integrals Proofs_Tree Proofs_Tree2 Proofs_Body Proofs_Body2 Proofs_Body5
  Model_Quality Spec_Quality Proofs_Quality Model_Normals Spec_Normals Proofs_Normals4 Spec_Grid Proofs_Grid2 Proofs_Grid3 Proofs_Grid4 Proofs_Grid5 Proofs_Grid6
  Proofs_Dataset Proofs_Problem Proofs_Box3 Proofs_Box4 Proofs_Box5 Model_Cylinder Spec_Cylinder Proofs_Cylinder Proofs_Cylinder2 Proofs_Cylinder3 Proofs_Cylinder4 Proofs_Cylinder5.
Import ListNotations.
Open Scope R_scope.

Lemma flat_ext_in {A B} (f g : A -> list B) l : (forall x, In x l -> f x = g x) -> flat_map f l = flat_map g l.
Proof. induction l as [|x l IH]; intros H; [reflexivity|]. cbn. rewrite H by (now left). f_equal. apply IH. intros y Hy. apply H. now right. Qed.
(** The nodes of the grid, in order. *)
Lemma nth_flat {A B} (f : A -> list B) w : forall (l : list A) i j a, (forall x, In x l -> length (f x) = w) -> nth_error l i = Some a -> (j < w)%nat ->
  nth_error (flat_map f l) (j + i * w) = nth_error (f a) j.
Proof.
  induction l as [|x l IH]; intros i j a L E Hj; [destruct i; discriminate|]. cbn [flat_map]. destruct i as [|i].
  - injection E as ->. rewrite Nat.mul_0_l, Nat.add_0_r. apply nth_error_app1. rewrite L by (now left). exact Hj.
  - cbn in E. rewrite nth_error_app2; rewrite L by (now left); [|nia]. replace (j + S i * w - w)%nat with (j + i * w)%nat by nia. apply IH; [|exact E|exact Hj]. intros y Hy. apply L. now right.
Qed.
Lemma seq_nth_error n i : (i < n)%nat -> nth_error (seq 0 n) i = Some i.
Proof. intros H. rewrite (nth_error_nth' _ 0%nat) by (now rewrite seq_length). now rewrite seq_nth. Qed.
Lemma f2_flat {A B C} (P : B -> C -> Prop) (f : A -> list B) (g : A -> list C) l : (forall x, In x l -> Forall2 P (f x) (g x)) -> Forall2 P (flat_map f l) (flat_map g l).
Proof. induction l as [|x l IH]; intros H; cbn; [constructor|]. apply Forall2_app; [apply H; now left|]. apply IH. intros y Hy. apply H. now right. Qed.
Lemma f2_map {A B C} (P : B -> C -> Prop) (f : A -> B) (g : A -> C) l : (forall x, In x l -> P (f x) (g x)) -> Forall2 P (map f l) (map g l).
Proof. induction l as [|x l IH]; intros H; cbn; constructor; [apply H; now left|]. apply IH. intros y Hy. apply H. now right. Qed.
Lemma filter_flat {A B} (t : B -> bool) (f : A -> list B) l : filter t (flat_map f l) = flat_map (fun x => filter t (f x)) l.
Proof. induction l as [|x l IH]; [reflexivity|]. cbn. now rewrite filter_app, IH. Qed.
Lemma combine_flat {A B C} (f : A -> list B) (g : A -> list C) l : (forall x, In x l -> length (f x) = length (g x)) -> combine (flat_map f l) (flat_map g l) = flat_map (fun x => combine (f x) (g x)) l.
Proof.
  assert (CA : forall (a : list B) (b : list C) a' b', length a = length b -> combine (a ++ a') (b ++ b') = combine a b ++ combine a' b').
  { induction a as [|x a IH]; intros [|y b] a' b' L; try discriminate; [reflexivity|]. cbn. f_equal. apply IH. now injection L. }
  induction l as [|x l IH]; intros H; [reflexivity|]. cbn. rewrite CA by (apply H; now left). f_equal. apply IH. intros y Hy. apply H. now right.
Qed.
Lemma largest (g : nat -> R) n : (0 < n)%nat -> exists i, (i < n)%nat /\ forall i', (i' < n)%nat -> g i' <= g i.
Proof.
  induction n as [|n IH]; intros H; [lia|]. destruct n as [|n]; [exists 0%nat; split; [lia|]; intros i' Hi'; replace i' with 0%nat by lia; lra|].
  destruct IH as (i & Hi & M); [lia|]. destruct (Rle_dec (g i) (g (S n))) as [L|L].
  - exists (S n). split; [lia|]. intros i' Hi'. destruct (Nat.eq_dec i' (S n)) as [->|D]; [lra|]. specialize (M i' ltac:(lia)). lra.
  - exists i. split; [lia|]. intros i' Hi'. destruct (Nat.eq_dec i' (S n)) as [->|D]; [lra|]. apply M. lia.
Qed.

Section Grid.
  Variable argsort : list R -> list nat.
  Hypothesis Hs : sorts argsort.
  Variable set_order : list nat -> list nat.
  Hypothesis Ho : forall l, Permutation l (set_order l).
  Variables (prof : nat -> R * R) (n T N : nat).
  Hypotheses (Hn : (0 < n)%nat) (HT : (3 <= T)%nat) (HN : (0 < N <= T)%nat).
  Notation rho i := (fst (prof i)). Notation zed i := (snd (prof i)).
  Hypothesis Hpos : forall i, (i <= n)%nat -> 0 <= rho i.
  Hypothesis Hmid : forall i, (0 < i < n)%nat -> 0 < rho i.
  Hypothesis Hinj : forall i i', (i <= n)%nat -> (i' <= n)%nat -> prof i = prof i' -> i = i'.
  Hypothesis Hpoles : n = 1%nat -> ~ (rho 0 = 0 /\ rho n = 0).
  Hypothesis Hup : forall i, (i < n)%nat -> zed i <= zed (S i).
  Hypothesis Hlow : forall i, (i <= n)%nat -> rho 0 <= rho i.
  Hypothesis Hsz : forall i, (i < n)%nat -> / 1000000000000 <= strip_area (prof i) (prof (S i)) T.
  Hypothesis Hcmp : comparable_strips prof n T.
  (** The rows of the grid and the rows of the surface. *)
  Variables (s : nat -> nat) (L : nat).
  Hypothesis S0 : s 0%nat = 0%nat.
  Hypothesis SL : s L = n.
  Hypothesis Sstep : forall i, (i < L)%nat -> s (S i) = s i \/ s (S i) = S (s i).
  Hypothesis Snear : forall i, (i <= L)%nat -> ((i < L)%nat /\ s (S i) = S (s i)) \/ exists i', i = S i' /\ s i = S (s i').
  Notation P := (node v0 prof T 0).
  Hypothesis Hspread : forall i j i' j', (i <= n)%nat -> (j <= N)%nat -> (i' <= n)%nat -> (j' <= N)%nat -> P i j = P i' j' \/ / 1000000 <= dist (P i j) (P i' j').
  Let raw : nat -> nat -> vec := fun i j => P (s i) j.
  Let vs : list vec := flat_map (row_nodes (map (angle T 0) (seq 0 (N + 1)))) (map (fun i => prof (s i)) (seq 0 (L + 1))).
  Let fs : list face := row_panels L N.
  Let step (i : nat) : bool := Nat.eqb (s (S i)) (S (s i)).

  Lemma raw_node i j : (i <= L)%nat -> (j <= N)%nat -> nth_error vs (j + i * (N + 1)) = Some (raw i j).
  Proof.
    intros Hi Hj. unfold vs. rewrite (nth_flat _ (N + 1)) with (a := prof (s i)).
    - unfold row_nodes. rewrite !nth_error_map, seq_nth_error by lia. cbn [option_map]. f_equal. unfold raw, node, tp. cbn [fst snd]. apply vec_ext; cbn [vx vy vz vadd v0 vscale]; ring.
    - intros x _. unfold row_nodes. now rewrite !map_length, seq_length.
    - rewrite nth_error_map, seq_nth_error by lia. reflexivity.
    - lia.
  Qed.
  Lemma raw_corners : Forall2 (corners_at vs) fs (revolved raw L N).
  Proof.
    unfold fs, row_panels, revolved. apply f2_flat. intros i Hi. apply in_seq in Hi. apply f2_map. intros j Hj. apply in_seq in Hj.
    unfold row_panel, revolved_panel, corners_at. cbn [fa fb fc fd].
    rewrite !Nat.add_1_r. repeat split; rewrite <- !(Nat.add_1_r N); apply raw_node; lia.
  Qed.
  Lemma s_range i : (i <= L)%nat -> (s i <= n)%nat.
  Proof.
    intros H. rewrite <- SL. remember (L - i)%nat as d eqn:E. revert i H E. induction d as [|d IH]; intros i H E; [replace i with L by lia; lia|].
    specialize (IH (S i) ltac:(lia) ltac:(lia)). destruct (Sstep i ltac:(lia)); lia.
  Qed.
  Lemma steps_seq l : (l <= L)%nat -> map s (filter step (seq 0 l)) = seq 0 (s l).
  Proof.
    induction l as [|l IH]; intros H; [cbn; now rewrite S0|]. rewrite seq_S, filter_app, map_app, IH by lia. cbn [plus filter]. unfold step at 1.
    destruct (Sstep l ltac:(lia)) as [E|E]; rewrite E.
    - replace (Nat.eqb (s l) (S (s l))) with false by (symmetry; apply Nat.eqb_neq; lia). cbn. now rewrite app_nil_r.
    - rewrite Nat.eqb_refl. cbn [map]. now rewrite seq_S.
  Qed.
  Notation panel := (turned_panel n N (is_full T N) (low_pole prof) (high_pole prof n) (place v0 prof T 0)).
  Lemma largest_strip : exists A, forall i, (i < n)%nat -> A / 100000 <= strip_area (prof i) (prof (S i)) T /\ strip_area (prof i) (prof (S i)) T <= A.
  Proof. destruct (largest (fun i => strip_area (prof i) (prof (S i)) T) n Hn) as (i0 & H0 & M). exists (strip_area (prof i0) (prof (S i0)) T). intros i Hi. split; [now apply Hcmp|now apply M]. Qed.
  Lemma panel_node i j : (i < n)%nat -> (j < N)%nat -> panel (i, j) = revolved_panel P i j.
  Proof. intros Hi Hj. apply (panel_is v0 prof n T N 0 Hn HT HN Hmid Hpoles (i, j)). split; assumption. Qed.
  Lemma panel_fits A i j : (forall i, (i < n)%nat -> A / 100000 <= strip_area (prof i) (prof (S i)) T /\ strip_area (prof i) (prof (S i)) T <= A) -> (i < n)%nat -> (j < N)%nat ->
    well_sized A (revolved_panel P i j).
  Proof.
    intros HA Hi Hj. apply (panel_sized v0 prof n T N 0 Hn HT HN Hpos Hmid Hpoles A (i, j)); [split; assumption| |now apply Hsz|now apply HA].
    rewrite panel_node by assumption. apply same_polygon_refl.
  Qed.
  Lemma panel_kept i j : (i < n)%nat -> (j < N)%nat -> kept (revolved_panel P i j) = true.
  Proof.
    intros Hi Hj. unfold kept. apply negb_true_iff, Reqb_false. intros E.
    assert (Pf : proper_face (revolved_panel P i j)).
    { apply (panel_proper v0 prof n T N 0 Hn HT HN Hpos Hmid Hinj Hpoles (i, j)); [split; assumption| |now apply Hsz]. rewrite panel_node by assumption. apply same_polygon_refl. }
    destruct (face_flux _ Pf) as (X & _). lra.
  Qed.
  Lemma raw_kept i j : (i < L)%nat -> (j < N)%nat -> kept (revolved_panel raw i j) = step i.
  Proof.
    intros Hi Hj. unfold step. destruct (Sstep i Hi) as [E|E].
    - rewrite E. replace (Nat.eqb (s i) (S (s i))) with false by (symmetry; apply Nat.eqb_neq; lia).
      unfold revolved_panel, raw. rewrite E. unfold kept. rewrite flat_area, Reqb_refl. reflexivity.
    - rewrite E, Nat.eqb_refl. unfold revolved_panel, raw. rewrite E. apply panel_kept; [|exact Hj]. pose proof (s_range (S i) ltac:(lia)). lia.
  Qed.
  Lemma kept_panels : filter kept (revolved raw L N) = revolved P n N.
  Proof.
    unfold revolved. rewrite filter_flat. rewrite <- SL, <- (steps_seq L (le_n L)).
    assert (G : forall l, (forall i, In i l -> (i < L)%nat) ->
      flat_map (fun i => filter kept (map (revolved_panel raw i) (seq 0 N))) l = flat_map (fun i => map (revolved_panel P i) (seq 0 N)) (map s (filter step l))).
    { induction l as [|i l IH]; intros H; [reflexivity|]. cbn [flat_map filter]. specialize (IH (fun x Hx => H x (or_intror Hx))). specialize (H i (or_introl eq_refl)).
      destruct (step i) eqn:Es.
      - cbn [map flat_map]. rewrite IH. f_equal. rewrite filter_all.
        + unfold revolved_panel, raw. unfold step in Es. apply Nat.eqb_eq in Es. now rewrite Es.
        + intros q Hq. apply in_map_iff in Hq. destruct Hq as (j & <- & Hj). apply in_seq in Hj. rewrite raw_kept by lia. exact Es.
      - rewrite IH. rewrite <- (app_nil_l (flat_map _ _)) at 2. f_equal.
        assert (Z : forall l0, (forall j, In j l0 -> (j < N)%nat) -> filter kept (map (revolved_panel raw i) l0) = []).
        { induction l0 as [|j l0 IH0]; intros H0; [reflexivity|]. cbn [map filter]. rewrite raw_kept, Es by (try lia; apply H0; now left). apply IH0. intros x Hx. apply H0. now right. }
        apply Z. intros j Hj. apply in_seq in Hj. lia. }
    apply G. intros i Hi. apply in_seq in Hi. lia.
  Qed.
  Lemma revolved_keys : revolved P n N = map panel (rect_keys n N).
  Proof.
    unfold revolved, rect_keys, key. rewrite map_flat. apply flat_ext_in. intros i Hi. apply in_seq in Hi. rewrite map_map. apply map_ext_in. intros j Hj. apply in_seq in Hj.
    symmetry. apply panel_node; lia.
  Qed.
  Lemma vs_length : length vs = ((L + 1) * (N + 1))%nat.
  Proof.
    unfold vs. assert (G : forall (l : list (R * R)), length (flat_map (row_nodes (map (angle T 0) (seq 0 (N + 1)))) l) = (length l * (N + 1))%nat).
    { induction l as [|p l IH]; [reflexivity|]. cbn [flat_map length]. rewrite app_length, IH. unfold row_nodes at 1. rewrite !map_length, seq_length. lia. }
    now rewrite G, map_length, seq_length.
  Qed.
  Lemma raw_used k : (k < length vs)%nat -> exists f q, In (f, q) (combine fs (revolved raw L N)) /\ kept q = true /\ In k [fa f; fb f; fc f; fd f].
  Proof.
    rewrite vs_length. intros Hk. pose proof (Nat.div_mod k (N + 1) ltac:(lia)) as D. pose proof (Nat.mod_upper_bound k (N + 1) ltac:(lia)) as B.
    set (i := (k / (N + 1))%nat) in *. set (j := (k mod (N + 1))%nat) in *. assert (Hi : (i <= L)%nat) by (unfold i; apply Nat.lt_succ_r, Nat.div_lt_upper_bound; nia).
    assert (Ek : k = (j + i * (N + 1))%nat) by nia. clearbody i j. clear D Hk.
    set (j' := Nat.pred (Nat.max 1 j)). assert (Hj' : (j' < N)%nat) by (unfold j'; lia).
    assert (G : forall i', (i' < L)%nat -> s (S i') = S (s i') -> i = i' \/ i = S i' -> exists f q, In (f, q) (combine fs (revolved raw L N)) /\ kept q = true /\ In k [fa f; fb f; fc f; fd f]).
    { intros i' Hi' Es Ei. exists (row_panel N i' j'), (revolved_panel raw i' j'). split; [|split].
      - unfold fs, row_panels, revolved. rewrite combine_flat by (intros; now rewrite !map_length). apply in_flat_map. exists i'. split; [apply in_seq; lia|].
        clear - Hj'. assert (H : In j' (seq 0 N)) by (apply in_seq; lia). revert H. generalize (seq 0 N). induction l as [|x l IH]; intros H; [destruct H|]. destruct H as [->|H]; [now left|]. right. now apply IH.
      - rewrite raw_kept by assumption. unfold step. now rewrite Es, Nat.eqb_refl.
      - unfold row_panel. cbn [fa fb fc fd In]. assert (X : j = j' \/ j = (j' + 1)%nat) by (unfold j'; lia). clearbody j'. clear - Ek Ei X. destruct Ei as [->| ->], X as [->| ->]; subst k; rewrite ?Nat.add_1_r; tauto. }
    destruct (Snear i Hi) as [[H1 H2]|(i' & -> & H2)]; [apply (G i); auto|apply (G i'); auto; lia].
  Qed.
  Lemma corner_node q p : In q (revolved P n N) -> In p (polygon_corners q) -> exists i j, (i <= n)%nat /\ (j <= N)%nat /\ p = P i j.
  Proof.
    intros Hq Hp. unfold revolved in Hq. apply in_flat_map in Hq. destruct Hq as (i & Hi & Hq). apply in_map_iff in Hq. destruct Hq as (j & <- & Hj). apply in_seq in Hi, Hj.
    unfold revolved_panel in Hp. cbn [polygon_corners In] in Hp.
    destruct Hp as [<-|[<-|[<-|[<-|[]]]]]; [exists i, j|exists (S i), j|exists (S i), (S j)|exists i, (S j)]; repeat split; lia.
  Qed.
  Lemma revolved_spaced : spaced (revolved P n N).
  Proof.
    intros p p' q q' Hq Hq' Hp Hp'. destruct (corner_node q p Hq Hp) as (i & j & H1 & H2 & ->), (corner_node q' p' Hq' Hp') as (i' & j' & H3 & H4 & ->). now apply Hspread.
  Qed.
  Lemma grid_healed : exists m, heal_leaf argsort (heal_normals set_order) true (Mesh vs fs) = Ok m /\ carried m (revolved P n N) /\ (forall f, In f (m_faces m) -> closes f).
  Proof.
    destruct largest_strip as (A & HA).
    destruct (heal_rough argsort Hs set_order vs fs (revolved raw L N) A true) as (m & f0s & E & C & F).
    - exact raw_corners.
    - intros q Hq Kq. assert (Hq' : In q (revolved P n N)) by (rewrite <- kept_panels; apply filter_In; auto).
      unfold revolved in Hq'. apply in_flat_map in Hq'. destruct Hq' as (i & Hi & Hq'). apply in_map_iff in Hq'. destruct Hq' as (j & <- & Hj). apply in_seq in Hi, Hj. apply panel_fits; [exact HA|lia|lia].
    - rewrite kept_panels. intros E. assert (X : In (revolved_panel P 0 0) (revolved P n N)) by (unfold revolved; apply in_flat_map; exists 0%nat; split; [apply in_seq; lia|]; apply in_map, in_seq; lia).
      rewrite E in X. destruct X.
    - rewrite kept_panels. exact revolved_spaced.
    - intros k Hk. destruct (raw_used k Hk) as (f & q & H1 & _ & H3). exists f. split; [exact (in_combine_l _ _ _ _ H1)|exact H3].
    - exact raw_used.
    - rewrite kept_panels in C. exists m. rewrite E.
      assert (Cl : forall f, In f (m_faces m) -> closes f).
      { rewrite revolved_keys in C. eapply (panel_closes v0 prof n T N 0); try eassumption. intros k. apply in_rect. }
      split; [|split; [exact C|exact Cl]]. rewrite revolved_keys in C.
      apply (normals_kept set_order Ho v0 prof n T N 0 Hn HT HN Hpos Hmid Hinj Hpoles Hup Hlow Hsz m (rect_keys n N)); [apply nodup_rect|intros k; apply in_rect|exact C|exact Cl].
  Qed.
End Grid.
