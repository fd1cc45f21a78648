(** Surfaces of revolution. *)
From Coq Require Import Reals List Bool Arith Lia Lra Permutation.
From Verif Require Import Model_Base Model_Geometry Model_Mesh Spec_Mesh Spec_Clip Spec_Tree Spec_Integrals Spec_Body Model_Normals Spec_Normals
  Proofs_Geometry Proofs_Problem Proofs_Mesh Proofs_Mesh2 Proofs_Mesh3 Proofs_Clip4 Model_Integrals Proofs_Integrals Proofs_Clip7 Proofs_Grid2 Proofs_Grid4 Proofs_Box3
  Proofs_Cylinder Proofs_Cylinder2 Proofs_Cylinder3 Spec_Cylinder.
Import ListNotations.
Open Scope R_scope.

Lemma same_angle a b : sin a = sin b -> cos a = cos b -> -2 * PI < a - b < 2 * PI -> a = b.
Proof.
  intros Es Ec B. assert (C1 : cos (a - b) = 1) by (rewrite cos_minus, Es, Ec; pose proof (sin2_cos2 b) as S2; unfold Rsqr in S2; lra).
  assert (H : sin ((a - b) / 2) * sin ((a - b) / 2) = 0).
  { replace (a - b) with (2 * ((a - b) / 2)) in C1 by field. rewrite cos_2a_sin in C1. lra. }
  assert (S0 : sin ((a - b) / 2) = 0) by nra.
  destruct (Rtotal_order ((a - b) / 2) 0) as [L|[E|L]]; [|lra|].
  - pose proof (sin_gt_0 (- ((a - b) / 2))) as G. rewrite sin_neg in G. specialize (G ltac:(lra) ltac:(lra)). lra.
  - pose proof (sin_gt_0 ((a - b) / 2) ltac:(lra) ltac:(lra)). lra.
Qed.
Definition rect_keys (n N : nat) : list key := flat_map (fun i => map (pair i) (seq 0 N)) (seq 0 n).
Lemma in_rect n N k : In k (rect_keys n N) <-> ranged n N k.
Proof.
  unfold rect_keys, ranged. rewrite in_flat_map. destruct k as [i j]. cbn [fst snd]. split.
  - intros (i' & Hi & H). apply in_map_iff in H. destruct H as (j' & E & Hj). injection E as <- <-. apply in_seq in Hi, Hj. lia.
  - intros [Hi Hj]. exists i. split; [apply in_seq; lia|]. apply in_map. apply in_seq. lia.
Qed.
Lemma nodup_rect n N : NoDup (rect_keys n N).
Proof.
  apply nodup_flat; [apply seq_NoDup| |].
  - intros i. apply NoDup_map_inj; [intros x y E; now injection E|apply seq_NoDup].
  - intros a b x Ha Hb. apply in_map_iff in Ha, Hb. destruct Ha as (? & <- & _), Hb as (? & E & _). now injection E.
Qed.
Lemma rect_sum (g : nat -> R) n N : Rsum (map (fun k : key => g (fst k)) (rect_keys n N)) = INR N * Rsum (map g (seq 0 n)).
Proof.
  unfold rect_keys, key. generalize (seq 0 n). intros l. induction l as [|i l IH]; cbn [flat_map map]; [cbn; ring|].
  rewrite map_app, Rsum_app, Rsum_cons, IH, map_map. cbn [fst]. rewrite (Rsum_const (fun _ => g i) (g i)) by reflexivity. rewrite seq_length. ring.
Qed.
Lemma telescope (h : nat -> R) n : Rsum (map (fun i => h (S i) - h i) (seq 0 n)) = h n - h 0%nat.
Proof.
  induction n as [|n IH]; [cbn; ring|]. rewrite seq_S, map_app, Rsum_app, IH. cbn. ring.
Qed.
Lemma Rsum_le {A} (f g : A -> R) l : (forall x, In x l -> f x <= g x) -> Rsum (map f l) <= Rsum (map g l).
Proof.
  induction l as [|x l IH]; intros H; [cbn; lra|]. cbn [map]. rewrite !Rsum_cons. pose proof (H x (or_introl eq_refl)). assert (Rsum (map f l) <= Rsum (map g l)) by (apply IH; intros; apply H; now right). lra.
Qed.

Section Revolution.
  Variables (o : vec) (prof : nat -> R * R) (n T N : nat) (th0 : R).
  Hypotheses (Hn : (0 < n)%nat) (HT : (3 <= T)%nat) (HN : (0 < N <= T)%nat).
  Notation rho i := (fst (prof i)). Notation zed i := (snd (prof i)).
  Hypothesis Hpos : forall i, (i <= n)%nat -> 0 <= rho i.
  Hypothesis Hmid : forall i, (0 < i < n)%nat -> 0 < rho i.
  Hypothesis Hinj : forall i i', (i <= n)%nat -> (i' <= n)%nat -> prof i = prof i' -> i = i'.
  Hypothesis Hpoles : n = 1%nat -> ~ (rho 0 = 0 /\ rho n = 0).
  Definition angle (j : nat) : R := th0 + 2 * PI * INR j / INR T.
  Definition node (i j : nat) : vec := tp o (rho i) (sin (angle j)) (cos (angle j)) (zed i).
  Definition place (p : key) : vec := node (fst p) (snd p).
  Definition is_full : bool := Nat.eqb N T.
  Definition low_pole : bool := Reqb (rho 0) 0.
  Definition high_pole : bool := Reqb (rho n) 0.
  Notation lies := (lies n N is_full low_pole high_pole). Notation ranged := (ranged n N).
  Notation panel := (turned_panel n N is_full low_pole high_pole place).
  Lemma T_pos : 3 <= INR T.
  Proof. replace 3 with (INR 3) by (cbn; ring). now apply le_INR. Qed.
  Lemma pole_zero i : (i <= n)%nat -> (pole n low_pole high_pole i = true <-> rho i = 0).
  Proof.
    intros Hi. unfold pole, low_pole, high_pole. destruct (Nat.eqb_spec i 0) as [->|N0].
    - destruct (Nat.eqb_spec 0 n) as [E|_]; [lia|]. cbn [andb orb]. rewrite orb_false_r. split; [apply Reqb_true|intros ->; apply Reqb_refl].
    - cbn [andb orb]. destruct (Nat.eqb_spec i n) as [->|Ni]; cbn [andb]; [split; [apply Reqb_true|intros ->; apply Reqb_refl]|].
      split; [discriminate|]. intros E. specialize (Hmid i ltac:(lia)). lra.
  Qed.
  Lemma two_ends : n = 1%nat -> low_pole && high_pole = false.
  Proof.
    intros E. unfold low_pole, high_pole. destruct (Reqb (rho 0) 0) eqn:E0; [|reflexivity]. destruct (Reqb (rho n) 0) eqn:E1; [|reflexivity].
    apply Reqb_true in E0. apply Reqb_true in E1. now destruct (Hpoles E).
  Qed.
  Lemma full_three : is_full = true -> (3 <= N)%nat.
  Proof. unfold is_full. intros E. apply Nat.eqb_eq in E. lia. Qed.
  Lemma turn_round j : angle (j + T) = angle j + 2 * PI.
  Proof. unfold angle. rewrite plus_INR. pose proof T_pos. field. lra. Qed.
  Lemma node_round i j : node i (j + T) = node i j.
  Proof. unfold node. rewrite turn_round, sin_plus, cos_plus, sin_2PI, cos_2PI. f_equal; ring. Qed.
  Lemma node_pole i j j' : rho i = 0 -> node i j = node i j'.
  Proof. intros E. unfold node, tp. rewrite E. f_equal. f_equal; ring. Qed.
  Lemma place_col i j : (i <= n)%nat -> place (i, col n low_pole high_pole i j) = node i j.
  Proof.
    intros Hi. unfold place, col. cbn [fst snd]. destruct (pole n low_pole high_pole i) eqn:E; [|reflexivity]. apply node_pole. now apply pole_zero.
  Qed.
  Lemma node_next i j : (j < N)%nat -> node i (nx N is_full j) = node i (S j).
  Proof.
    intros Hj. unfold nx, is_full. destruct (Nat.eqb_spec N T) as [E|_]; [|reflexivity]. destruct (Nat.eqb_spec (S j) N) as [E'|_]; [|reflexivity]. cbn [andb].
    replace (S j) with (0 + T)%nat by lia. symmetry. apply node_round.
  Qed.
  Lemma panel_is k : ranged k -> panel k = revolved_panel node (fst k) (snd k).
  Proof.
    destruct k as [i j]. intros [Hi Hj]. cbn [fst snd] in *. unfold turned_panel, kcorners, revolved_panel.
    rewrite !place_col by lia. now rewrite !node_next by assumption.
  Qed.
  Lemma lies_range k p : ranged k -> lies k p -> (fst p <= n)%nat /\ (rho (fst p) = 0 /\ snd p = 0%nat \/ 0 < rho (fst p) /\ (snd p < T)%nat).
  Proof.
    destruct k as [i j], p as [a y]. intros [Hi Hj] [A B]. cbn [fst snd] in *. assert (La : (a <= n)%nat) by lia. split; [exact La|]. unfold col in B.
    pose proof (pole_zero a La) as Pz. destruct (pole n low_pole high_pole a) eqn:E; [left; split; [now apply Pz|lia]|right].
    assert (rho a <> 0) by (intros K; apply Pz in K; discriminate). split; [pose proof (Hpos a La); lra|].
    destruct B as [->| ->]; [lia|]. unfold nx, is_full. destruct (Nat.eqb_spec N T); cbn [andb]; [destruct (Nat.eqb_spec (S j) N); lia|lia].
  Qed.
  Lemma node_inj i j i' j' : (i <= n)%nat -> (i' <= n)%nat -> node i j = node i' j' -> i = i' /\ (0 < rho i -> (j < T)%nat -> (j' < T)%nat -> j = j').
  Proof.
    intros Hi Hi' E. unfold node, tp in E.
    assert (E1 : rho i * sin (angle j) = rho i' * sin (angle j')) by (apply (f_equal vx) in E; cbn in E; lra).
    assert (E2 : rho i * cos (angle j) = rho i' * cos (angle j')) by (apply (f_equal vy) in E; cbn in E; lra).
    assert (E3 : zed i = zed i') by (apply (f_equal vz) in E; cbn in E; lra).
    pose proof (Hpos i Hi). pose proof (Hpos i' Hi'). pose proof (sin2_cos2 (angle j)) as S1. pose proof (sin2_cos2 (angle j')) as S2. unfold Rsqr in S1, S2.
    assert (Sq : rho i * rho i = rho i' * rho i').
    { transitivity ((rho i * sin (angle j)) * (rho i * sin (angle j)) + (rho i * cos (angle j)) * (rho i * cos (angle j))).
      - transitivity (rho i * rho i * (sin (angle j) * sin (angle j) + cos (angle j) * cos (angle j))); [rewrite S1; ring|ring].
      - rewrite E1, E2. transitivity (rho i' * rho i' * (sin (angle j') * sin (angle j') + cos (angle j') * cos (angle j'))); [ring|rewrite S2; ring]. }
    assert (Er : rho i = rho i') by nra.
    assert (i = i') as <-. { apply Hinj; try assumption. destruct (prof i), (prof i'). cbn in *. congruence. }
    split; [reflexivity|]. intros P Hj Hj'.
    assert (A : angle j = angle j').
    { apply same_angle; [apply (Rmult_eq_reg_l (rho i)); lra|apply (Rmult_eq_reg_l (rho i)); lra|]. unfold angle. pose proof PI_RGT_0. pose proof T_pos.
      replace (th0 + 2 * PI * INR j / INR T - (th0 + 2 * PI * INR j' / INR T)) with (2 * PI * ((INR j - INR j') / INR T)) by (field; lra).
      apply lt_INR in Hj. apply lt_INR in Hj'. pose proof (pos_INR j). pose proof (pos_INR j').
      assert (-1 < (INR j - INR j') / INR T < 1).
      { split; [apply (Rmult_lt_reg_r (INR T)); [lra|]; replace ((INR j - INR j') / INR T * INR T) with (INR j - INR j') by (field; lra); lra|].
        apply (Rmult_lt_reg_r (INR T)); [lra|]. replace ((INR j - INR j') / INR T * INR T) with (INR j - INR j') by (field; lra). lra. }
      split; nra. }
    unfold angle in A. pose proof PI_RGT_0. pose proof T_pos. apply INR_eq. apply (Rmult_eq_reg_l (2 * PI / INR T)); [unfold Rdiv in *; lra|].
    apply Rgt_not_eq. apply Rmult_lt_0_compat; [lra|]. apply Rinv_0_lt_compat. lra.
  Qed.
  Lemma place_inj k k' p q : ranged k -> ranged k' -> lies k p -> lies k' q -> place p = place q -> p = q.
  Proof.
    intros Rk Rk' Lp Lq E. destruct (lies_range k p Rk Lp) as (A & B). destruct (lies_range k' q Rk' Lq) as (A' & B').
    destruct p as [i j], q as [i' j']. unfold place in E. cbn [fst snd] in *. destruct (node_inj i j i' j' A A' E) as (<- & J). f_equal.
    destruct B as [[B1 B2]|[B1 B2]], B' as [[B1' B2']|[B1' B2']]; try lra; [congruence|now apply J].
  Qed.
  (** ** Sizes *)
  Definition width : R := sin (2 * PI / INR T).
  Lemma step_angle j : angle (S j) - angle j = 2 * PI / INR T.
  Proof. unfold angle. rewrite S_INR. pose proof T_pos. field. lra. Qed.
  Lemma width_is j : sin (angle (S j)) * cos (angle j) - cos (angle (S j)) * sin (angle j) = width.
  Proof. unfold width. rewrite <- (step_angle j), sin_minus. ring. Qed.
  Lemma half_bounds : 0 < PI / INR T <= PI / 3.
  Proof.
    pose proof PI_RGT_0. pose proof T_pos. split; [apply Rdiv_lt_0_compat; lra|]. unfold Rdiv. apply Rmult_le_compat_l; [lra|]. apply Rinv_le_contravar; lra.
  Qed.
  Lemma half_sin : 0 < sin (PI / INR T). Proof. pose proof half_bounds. pose proof PI_RGT_0. apply sin_gt_0; lra. Qed.
  Lemma half_cos : 0 < cos (PI / INR T). Proof. pose proof half_bounds. pose proof PI_RGT_0. apply cos_gt_0; lra. Qed.
  Lemma width_half : width = 2 * sin (PI / INR T) * cos (PI / INR T).
  Proof. unfold width. replace (2 * PI / INR T) with (2 * (PI / INR T)) by (unfold Rdiv; ring). apply sin_2a. Qed.
  Lemma width_pos : 0 < width.
  Proof. rewrite width_half. pose proof half_sin. pose proof half_cos. apply Rmult_lt_0_compat; [lra|assumption]. Qed.
  Definition wide_at (i j : nat) : vec := wide (rho i) (rho (S i)) (zed i) (zed (S i)) (sin (angle j)) (cos (angle j)) (sin (angle (S j))) (cos (angle (S j))).
  Lemma wide_norm i j : norm (wide_at i j) =
    2 * sin (PI / INR T) * sqrt ((zed (S i) - zed i) * (zed (S i) - zed i) + (rho (S i) - rho i) * (rho (S i) - rho i) * (cos (PI / INR T) * cos (PI / INR T))).
  Proof.
    pose proof half_sin as HS. apply norm_of.
    - apply Rmult_le_pos; [lra|apply sqrt_pos].
    - match goal with |- _ = 2 * ?s * sqrt ?x * (2 * ?s * sqrt ?x) => transitivity (4 * (s * s) * (sqrt x * sqrt x)); [|ring] end.
      assert (Sq0 : forall x, 0 <= x * x) by (intros; nra). rewrite sqrt_sqrt by (apply Rplus_le_le_0_compat; [apply Sq0|apply Rmult_le_pos; apply Sq0]). unfold wide_at, wide, dot. cbn [vx vy vz]. rewrite width_is, width_half.
      assert (Ch : (cos (angle j) - cos (angle (S j))) * (cos (angle j) - cos (angle (S j))) + (sin (angle (S j)) - sin (angle j)) * (sin (angle (S j)) - sin (angle j)) = 4 * (sin (PI / INR T) * sin (PI / INR T))).
      { pose proof (sin2_cos2 (angle j)) as S1. pose proof (sin2_cos2 (angle (S j))) as S2. unfold Rsqr in *.
        assert (C : cos (angle (S j)) * cos (angle j) + sin (angle (S j)) * sin (angle j) = 1 - 2 * sin (PI / INR T) * sin (PI / INR T)).
        { rewrite <- cos_minus, step_angle. replace (2 * PI / INR T) with (2 * (PI / INR T)) by (unfold Rdiv; ring). apply cos_2a_sin. }
        lra. }
      set (dz := zed (S i) - zed i). set (dr := rho (S i) - rho i). set (S0 := sin (PI / INR T)) in *. set (C0 := cos (PI / INR T)) in *.
      transitivity (dz * dz * ((cos (angle j) - cos (angle (S j))) * (cos (angle j) - cos (angle (S j))) + (sin (angle (S j)) - sin (angle j)) * (sin (angle (S j)) - sin (angle j))) + 4 * (S0 * S0) * (dr * dr * (C0 * C0))); [ring|].
      rewrite Ch. ring.
  Qed.
  Lemma strip_is i j : strip_area (prof i) (prof (S i)) T = (rho i + rho (S i)) * norm (wide_at i j) / 2.
  Proof. rewrite wide_norm. unfold strip_area. field. Qed.
  Lemma panel_quad k : ranged k -> panel k = quad4 o (rho (fst k)) (rho (S (fst k))) (zed (fst k)) (zed (S (fst k))) (sin (angle (snd k))) (cos (angle (snd k))) (sin (angle (S (snd k)))) (cos (angle (S (snd k)))).
  Proof. intros Rk. rewrite panel_is by exact Rk. reflexivity. Qed.
  Lemma wide_pos i j : (i < n)%nat -> 0 < norm (wide_at i j).
  Proof.
    intros Hi. rewrite wide_norm. pose proof half_sin. pose proof half_cos as HC. apply Rmult_lt_0_compat; [lra|]. apply sqrt_lt_R0.
    assert (D : zed (S i) - zed i <> 0 \/ rho (S i) - rho i <> 0).
    { destruct (Req_dec (zed (S i)) (zed i)) as [E|E]; [|left; lra]. right. intros E'. assert (S i = i); [|lia]. apply Hinj; try lia. destruct (prof (S i)), (prof i). cbn in *. f_equal; lra. }
    assert (SQ : forall x, x <> 0 -> 0 < x * x) by (intros x Hx; nra). assert (SQ0 : forall x, 0 <= x * x) by (intros; nra).
    destruct D as [D|D]; apply SQ in D.
    - assert (0 <= (rho (S i) - rho i) * (rho (S i) - rho i) * (cos (PI / INR T) * cos (PI / INR T))) by (apply Rmult_le_pos; apply SQ0). lra.
    - assert (0 < (rho (S i) - rho i) * (rho (S i) - rho i) * (cos (PI / INR T) * cos (PI / INR T))) by (apply Rmult_lt_0_compat; [exact D|apply SQ; lra]). pose proof (SQ0 (zed (S i) - zed i)). lra.
  Qed.
  Lemma panel_proper k q' : ranged k -> same_polygon (panel k) q' -> / 1000000000000 <= strip_area (prof (fst k)) (prof (S (fst k))) T -> proper_face q'.
  Proof.
    intros Rk S L. rewrite panel_quad in S by exact Rk. destruct k as [i j]. destruct Rk as [Hi Hj]. cbn [fst snd] in *. rewrite (strip_is i j) in L.
    refine (quad_proper o _ _ _ _ _ _ _ _ _ _ _ q' S _); [apply Hpos; lia|apply Hpos; lia|now apply wide_pos|]. fold (wide_at i j). lra.
  Qed.
  Lemma panel_sized A k q' : ranged k -> same_polygon (panel k) q' -> / 1000000000000 <= strip_area (prof (fst k)) (prof (S (fst k))) T ->
    A / 100000 <= strip_area (prof (fst k)) (prof (S (fst k))) T <= A -> well_sized A q'.
  Proof.
    intros Rk S L B. rewrite panel_quad in S by exact Rk. destruct k as [i j]. destruct Rk as [Hi Hj]. cbn [fst snd] in *. rewrite (strip_is i j) in L, B.
    refine (quad_sized o _ _ _ _ _ _ _ _ _ _ A q' S _ _); [apply Hpos; lia|apply Hpos; lia| |]; fold (wide_at i j); lra.
  Qed.
  (** The part of a strip in the vertical flux. *)
  Definition strip_flux (Z : R) (i : nat) : R :=
    width / 2 * ((zed (S i) - zed i) * (rho i * rho i + rho i * rho (S i) + rho (S i) * rho (S i)) / 3
                 - ((vz o + zed (S i) - Z) * (rho (S i) * rho (S i)) - (vz o + zed i - Z) * (rho i * rho i))).
  Lemma panel_flux Z k q' : ranged k -> same_polygon (panel k) q' -> vz (flux q') - Z * vz (area_of q') = strip_flux Z (fst k).
  Proof.
    intros Rk S. rewrite panel_quad in S by exact Rk. rewrite (quad_flux _ _ _ _ _ _ _ _ _ _ S), (quad_area_z _ _ _ _ _ _ _ _ _ _ S). unfold vflux, strip_flux. rewrite width_is. field.
  Qed.
  Definition solid : R := width / 2 * Rsum (map (fun i => (zed (S i) - zed i) * (rho i * rho i + rho i * rho (S i) + rho (S i) * rho (S i)) / 3) (seq 0 n)).
  Lemma flux_sum Z : Rsum (map (strip_flux Z) (seq 0 n)) = solid - width / 2 * ((vz o + zed n - Z) * (rho n * rho n) - (vz o + zed 0 - Z) * (rho 0 * rho 0)).
  Proof.
    unfold solid. rewrite <- (telescope (fun i => (vz o + zed i - Z) * (rho i * rho i)) n).
    rewrite <- (Rsum_scal (width / 2)), <- (Rsum_scal (width / 2)).
    match goal with |- _ = ?a - ?b => replace (a - b) with (a + (-1) * b) by ring end. rewrite <- Rsum_scal, <- Rsum_plus. apply Rsum_ext. intros i _. unfold strip_flux. ring.
  Qed.
  Lemma flux_positive Z : (forall i, (i < n)%nat -> zed i <= zed (S i)) -> (forall i, (i <= n)%nat -> rho 0 <= rho i) -> vz o + zed n <= Z -> 0 <= Rsum (map (strip_flux Z) (seq 0 n)).
  Proof.
    intros Up Lo HZ. rewrite flux_sum. unfold solid.
    assert (L : Rsum (map (fun i => (rho 0 * rho 0) * (zed (S i) - zed i)) (seq 0 n)) <= Rsum (map (fun i => (zed (S i) - zed i) * (rho i * rho i + rho i * rho (S i) + rho (S i) * rho (S i)) / 3) (seq 0 n))).
    { apply Rsum_le. intros i Hi. apply in_seq in Hi. pose proof (Up i ltac:(lia)). pose proof (Lo i ltac:(lia)). pose proof (Lo (S i) ltac:(lia)). pose proof (Hpos 0%nat ltac:(lia)).
      assert (rho 0 * rho 0 <= (rho i * rho i + rho i * rho (S i) + rho (S i) * rho (S i)) / 3) by nra.
      replace ((zed (S i) - zed i) * (rho i * rho i + rho i * rho (S i) + rho (S i) * rho (S i)) / 3) with ((rho i * rho i + rho i * rho (S i) + rho (S i) * rho (S i)) / 3 * (zed (S i) - zed i)) by field.
      apply Rmult_le_compat_r; lra. }
    rewrite Rsum_scal in L. rewrite (telescope (fun i => zed i)) in L. pose proof width_pos as Wp. set (s := Rsum _) in *. clearbody s.
    pose proof (Lo n (Nat.le_refl n)). pose proof (Hpos 0%nat ltac:(lia)).
    assert (0 <= width / 2 * (s - ((vz o + zed n - Z) * (rho n * rho n) - (vz o + zed 0 - Z) * (rho 0 * rho 0)))); [|lra].
    apply Rmult_le_pos; [lra|]. assert (rho 0 * rho 0 <= rho n * rho n) by nra. nra.
  Qed.
End Revolution.
