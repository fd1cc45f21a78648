(** Proofs about the tabulation: the coordinates of the table and the indices of the nearest ones. *)
From Coq Require Import Reals ZArith.
From Coquelicot Require Import Complex.
From Coq Require Import List Bool Lra Lia.
From Flocq Require Import Core.Raux.
From Verif Require Import Model_Base Proofs_Problem Proofs_Geometry Model_Assembly Model_Wave Model_Tabulation Proofs_Tabulation.
Import ListNotations.
Open Scope R_scope.

Definition r_node (nr : nat) (rmax : R) (m : grid_shape) (i : Z) : R :=
  match m with
  | LegacyGrid => if (i =? 1)%Z then 0 else Rmin (pow10 ((IZR i - 1) / 5 - 6)) (Rabs (IZR (i - 32)) / 3 + 4 / 3)
  | ScaledGrid => if (i <? index_of_1 nr)%Z then pow10 (-10 * (1 - IZR (i - 1) / IZR (index_of_1 nr - 1)))
                  else (rmax - 1) / IZR (Z.of_nat nr - index_of_1 nr) * IZR (i - index_of_1 nr) + 1
  end.
Definition z_node (nz : nat) (zmin : R) (m : grid_shape) (j : Z) : R :=
  match m with
  | LegacyGrid => if (nz =? 46)%nat && (j =? 46)%Z then -16 else - Rmin (pow10 (IZR j / 5 - 6)) (pow10 (IZR j / 8 - 9 / 2))
  | ScaledGrid => let dz := (log10 (Rabs zmin) + 10) / INR nz in - Rmin (pow10 (dz * IZR j - 10)) (Rabs zmin)
  end.
Lemma r_spacing_nodes nr rmax m : r_spacing nr rmax m = map (r_node nr rmax m) (indices nr).
Proof. reflexivity. Qed.
Lemma z_spacing_nodes nz zmin m : z_spacing nz zmin m = map (z_node nz zmin m) (indices nz).
Proof. reflexivity. Qed.

Lemma bracket (n i0 : Z) (t : R) : (3 <= n)%Z -> 1 <= t <= IZR n -> IZR i0 - 1 <= t <= IZR i0 + 1 ->
  IZR (clamp n i0 - 1) <= t <= IZR (clamp n i0 + 1).
Proof.
  intros N T I. unfold clamp. destruct (Z_le_gt_dec i0 1) as [H|H].
  - replace (Z.max 2 (Z.min (n - 1) i0)) with 2%Z by lia. apply IZR_le in H. rewrite minus_IZR, plus_IZR. lra.
  - destruct (Z_le_gt_dec n i0) as [H'|H'].
    + replace (Z.max 2 (Z.min (n - 1) i0)) with (n - 1)%Z by lia. apply IZR_le in H'. rewrite !minus_IZR, plus_IZR, !minus_IZR. lra.
    + replace (Z.max 2 (Z.min (n - 1) i0)) with i0 by lia. rewrite minus_IZR, plus_IZR. lra.
Qed.
Lemma trunc_near t : 0 <= t -> IZR (Ztrunc t) - 1 <= t <= IZR (Ztrunc t) + 1.
Proof. intros H. rewrite Ztrunc_floor by exact H. pose proof (Zfloor_lb t). pose proof (Zfloor_ub t). lra. Qed.
Lemma nint_near1 t : IZR (nint t) - 1 <= t <= IZR (nint t) + 1.
Proof. pose proof (nint_near t). lra. Qed.
Lemma trunc_IZR i : Ztrunc (IZR i) = i.
Proof. apply Ztrunc_IZR. Qed.

Lemma div_nonneg x y : 0 <= x -> 0 < y -> 0 <= x / y.
Proof. intros H P. apply Rmult_le_pos; [exact H|]. left. now apply Rinv_0_lt_compat. Qed.
Lemma pow10_le_1 x : x <= 0 -> pow10 x <= 1.
Proof. intros H. rewrite <- pow10_0. now apply pow10_le. Qed.
Lemma pow10_lt_1 x : x < 0 -> pow10 x < 1.
Proof. intros H. rewrite <- pow10_0. now apply pow10_lt. Qed.

(** ** The legacy grid, horizontal coordinate *)
Section LegacyR.
  Variables (nr : nat) (rmax : R).
  Notation node := (r_node nr rmax LegacyGrid).
  Lemma legacy_1 : node 1 = 0. Proof. reflexivity. Qed.
  Lemma legacy_low i : (2 <= i <= 31)%Z -> node i = pow10 ((IZR i - 1) / 5 - 6).
  Proof.
    intros H. unfold r_node. replace (i =? 1)%Z with false by (symmetry; apply Z.eqb_neq; lia). apply Rmin_left.
    apply Rle_trans with 1.
    - apply pow10_le_1. destruct H as (_ & H). apply IZR_le in H. lra.
    - assert (H' : IZR (i - 32) <= -1) by (apply (IZR_le (i - 32) (-1)); lia). rewrite Rabs_left by lra. lra.
  Qed.
  Lemma legacy_high i : (31 <= i)%Z -> node i = (IZR i - 28) / 3.
  Proof.
    intros H. unfold r_node. replace (i =? 1)%Z with false by (symmetry; apply Z.eqb_neq; lia).
    destruct (Z.eq_dec i 31) as [-> |N].
    - rewrite Rmin_left; [unfold pow10; replace (((31 - 1) / 5 - 6) * ln 10) with 0 by field; rewrite exp_0; lra|].
      unfold pow10. replace (((31 - 1) / 5 - 6) * ln 10) with 0 by field. rewrite exp_0. replace (IZR (31 - 32)) with (-1) by reflexivity. rewrite Rabs_left by lra. lra.
    - assert (H' : 0 <= IZR (i - 32)) by (apply (IZR_le 0 (i - 32)); lia). rewrite Rabs_right by lra. rewrite Rmin_right.
      + rewrite minus_IZR. lra.
      + unfold pow10. rewrite minus_IZR in *. pose proof ln10_big. set (x := ((IZR i - 1) / 5 - 6) * ln 10).
        assert (X : (IZR i - 31) / 3 <= x). { unfold x. replace ((IZR i - 1) / 5 - 6) with ((IZR i - 31) / 5) by lra. replace ((IZR i - 31) / 5 * ln 10) with ((IZR i - 31) * (ln 10 / 5)) by lra. replace ((IZR i - 31) / 3) with ((IZR i - 31) * (1 / 3)) by lra. apply Rmult_le_compat_l; lra. }
        assert (E : 1 + x < exp x) by (apply exp_ineq1; lra). lra.
  Qed.
  Lemma legacy_increasing i i' : (1 <= i < i')%Z -> node i < node i'.
  Proof.
    intros H. destruct (Z_le_gt_dec i' 31) as [L|L].
    - rewrite (legacy_low i') by lia. destruct (Z.eq_dec i 1) as [-> |N]; [rewrite legacy_1; apply pow10_pos|]. rewrite legacy_low by lia. apply pow10_lt.
      assert (IZR i < IZR i') by (apply IZR_lt; lia). lra.
    - rewrite (legacy_high i') by lia. assert (32 <= IZR i') by (apply IZR_le; lia). assert (IZR i < IZR i') by (apply IZR_lt; lia). destruct (Z_le_gt_dec 31 i) as [K|K].
      + rewrite legacy_high by lia. lra.
      + apply Rlt_trans with 1; [|lra]. destruct (Z.eq_dec i 1) as [-> |N]; [rewrite legacy_1; lra|]. rewrite legacy_low by lia. apply pow10_lt_1.
        assert (IZR i < 31) by (apply IZR_lt; lia). lra.
  Qed.
  Lemma micro : / 1000000 = pow10 (-6).
  Proof. replace (-6) with (- INR 6) by (cbn; ring). rewrite pow10_opp, pow10_nat. f_equal. cbn. ring. Qed.
  Lemma legacy_nearest i rs : (1 <= i)%Z -> nearest_r_index (node i) rs LegacyGrid = Some i.
  Proof.
    intros H. unfold nearest_r_index. destruct (Z.eq_dec i 1) as [-> |N].
    { rewrite legacy_1, (proj2 (Rltb_true _ _)) by lra. reflexivity. }
    assert (Hm : / 1000000 <= node i).
    { left. rewrite micro. destruct (Z_le_gt_dec i 31).
      - rewrite legacy_low by lia. apply pow10_lt. assert (2 <= IZR i) by (apply IZR_le; lia). lra.
      - rewrite legacy_high by lia. apply Rlt_trans with 1; [apply pow10_lt_1; lra|]. assert (32 <= IZR i) by (apply IZR_le; lia). lra. }
    rewrite (proj2 (Rltb_false _ _)) by exact Hm. destruct (Z_le_gt_dec 31 i) as [K|K].
    - rewrite legacy_high by lia. assert (31 <= IZR i) by (apply IZR_le; lia). rewrite (proj2 (Rltb_false _ _)) by lra. f_equal. replace (3 * ((IZR i - 28) / 3) + 28) with (IZR i) by field. apply trunc_IZR.
    - rewrite legacy_low by lia. assert (IZR i < 31) by (apply IZR_lt; lia). rewrite (proj2 (Rltb_true _ _)) by (apply pow10_lt_1; lra).
      rewrite log_pow. f_equal. replace (5 * ((IZR i - 1) / 5 - 6 + 6) + 1) with (IZR i) by field. apply trunc_IZR.
  Qed.
  Lemma legacy_bracket r rs : (3 <= nr)%nat -> 0 <= r -> r < node (Z.of_nat nr) ->
    exists i0, nearest_r_index r rs LegacyGrid = Some i0 /\ node (clamp (Z.of_nat nr) i0 - 1) <= r <= node (clamp (Z.of_nat nr) i0 + 1).
  Proof.
    intros N P L. set (n := Z.of_nat nr) in *. assert (Nn : (3 <= n)%Z) by lia. unfold nearest_r_index. destruct (Rltb r (/ 1000000)) eqn:E1.
    { apply Rltb_true in E1. exists 1%Z. split; [reflexivity|]. replace (clamp n 1) with 2%Z by (unfold clamp; lia). change (2 - 1)%Z with 1%Z. change (2 + 1)%Z with 3%Z.
      rewrite legacy_1, legacy_low by lia. split; [exact P|]. left. apply Rlt_trans with (1 := E1). rewrite micro. apply pow10_lt. lra. }
    apply Rltb_false in E1. assert (Pr : 0 < r) by lra.
    assert (Lm : -6 <= log10 r). { rewrite <- (log_pow (-6)), <- micro. apply log10_le; lra. }
    destruct (Rltb r 1) eqn:E2.
    - apply Rltb_true in E2. assert (L1 : log10 r < 0). { rewrite <- (log_pow 0), pow10_0. now apply log10_lt. }
      set (t := 5 * (log10 r + 6) + 1) in *. eexists. split; [reflexivity|].
      assert (Er : r = pow10 ((t - 1) / 5 - 6)). { rewrite <- (pow_log r Pr) at 1. f_equal. unfold t. field. }
      assert (T2 : t <= IZR n).
      { destruct (Z_le_gt_dec n 31) as [K|K]; [|assert (31 < IZR n) by (apply IZR_lt; lia); unfold t; lra].
        destruct (Rle_or_lt t (IZR n)) as [|X]; [assumption|]. rewrite legacy_low in L by lia. rewrite Er in L. assert (pow10 ((IZR n - 1) / 5 - 6) < pow10 ((t - 1) / 5 - 6)) by (apply pow10_lt; lra). lra. }
      assert (B : 1 <= t <= IZR n) by (split; [unfold t; lra|exact T2]).
      pose proof (bracket n (Ztrunc t) t Nn B (trunc_near t ltac:(lra))) as (B1 & B2). pose proof (clamp_in n (Ztrunc t) Nn) as Cl. set (c := clamp n (Ztrunc t)) in *. clearbody c.
      assert (T3 : t < 31) by (unfold t; lra). split.
      + destruct (Z.eq_dec (c - 1) 1) as [-> |M]; [rewrite legacy_1; lra|]. assert (c - 1 < 31)%Z by (apply lt_IZR; lra). rewrite legacy_low by lia. rewrite Er. apply pow10_le. lra.
      + destruct (Z_le_gt_dec (c + 1) 31) as [K|K].
        * rewrite legacy_low by lia. rewrite Er. apply pow10_le. lra.
        * rewrite legacy_high by lia. assert (32 <= IZR (c + 1)) by (apply IZR_le; lia). lra.
    - apply Rltb_false in E2. set (t := 3 * r + 28). eexists. split; [reflexivity|].
      assert (K : (31 < n)%Z). { destruct (Z_le_gt_dec n 31) as [K|K]; [|lia]. exfalso. rewrite legacy_low in L by lia. assert (pow10 ((IZR n - 1) / 5 - 6) <= 1); [|lra]. apply pow10_le_1. apply IZR_le in K. lra. }
      rewrite legacy_high in L by lia. assert (B : 1 <= t <= IZR n) by (unfold t; lra).
      pose proof (bracket n (Ztrunc t) t Nn B (trunc_near t ltac:(lra))) as (B1 & B2). pose proof (clamp_in n (Ztrunc t) Nn) as Cl. set (c := clamp n (Ztrunc t)) in *. clearbody c.
      assert (Et : r = (t - 28) / 3) by (unfold t; field). assert (T3 : 31 <= t) by (unfold t; lra). split.
      + destruct (Z_le_gt_dec 31 (c - 1)) as [M|M]; [rewrite legacy_high by lia; lra|].
        destruct (Z.eq_dec (c - 1) 1) as [-> |M']; [rewrite legacy_1; lra|]. rewrite legacy_low by lia. apply Rle_trans with 1; [|lra]. apply pow10_le_1. assert (IZR (c - 1) < 31) by (apply IZR_lt; lia). lra.
      + assert (31 <= c + 1)%Z by (apply le_IZR; lra). rewrite legacy_high by lia. lra.
  Qed.
End LegacyR.

(** ** The scaled grid, horizontal coordinate *)
Section ScaledR.
  Variables (nr : nat) (rmax : R).
  Hypothesis Hmax : 1 < rmax.
  Hypothesis N : (3 <= nr)%nat.
  Notation node := (r_node nr rmax ScaledGrid).
  Let n := Z.of_nat nr.
  Let i1 := index_of_1 nr.
  Lemma i1_range : (0 <= i1 < n)%Z.
  Proof.
    unfold i1, n, index_of_1. pose proof (nint_near (INR nr * 1 / 676 * 81)) as H. rewrite INR_IZR_INZ in H. assert (3 <= IZR (Z.of_nat nr)) by (apply IZR_le; lia). rewrite INR_IZR_INZ. split; [apply le_IZR|apply lt_IZR].
    - destruct (Rle_or_lt 0 (IZR (nint (IZR (Z.of_nat nr) * 1 / 676 * 81)))) as [X|X]; [exact X|]. apply (lt_IZR _ 0) in X. assert (IZR (nint (IZR (Z.of_nat nr) * 1 / 676 * 81)) <= -1) by (apply (IZR_le _ (-1)); lia). lra.
    - lra.
  Qed.
  Lemma scaled_low i : (i < i1)%Z -> node i = pow10 (-10 * (1 - IZR (i - 1) / IZR (i1 - 1))).
  Proof. intros H. unfold r_node. fold i1. now rewrite (proj2 (Z.ltb_lt _ _) H). Qed.
  Lemma scaled_high i : (i1 <= i)%Z -> node i = (rmax - 1) / IZR (n - i1) * IZR (i - i1) + 1.
  Proof. intros H. unfold r_node. fold i1. now rewrite (proj2 (Z.ltb_ge _ _) H). Qed.
  Lemma slope_pos : 0 < (rmax - 1) / IZR (n - i1).
  Proof. apply Rdiv_lt_0_compat; [lra|]. apply (IZR_lt 0). pose proof i1_range. lia. Qed.
  Lemma low_lt_1 i : (1 <= i < i1)%Z -> node i < 1.
  Proof.
    intros H. rewrite scaled_low by lia. apply pow10_lt_1. assert (P : 0 < IZR (i1 - 1)) by (apply (IZR_lt 0); lia). assert (Q : IZR (i - 1) < IZR (i1 - 1)) by (apply IZR_lt; lia).
    assert (IZR (i - 1) / IZR (i1 - 1) < 1); [|lra]. apply Rmult_lt_reg_r with (IZR (i1 - 1)); [exact P|]. field_simplify; lra.
  Qed.
  Lemma high_ge_1 i : (i1 <= i)%Z -> 1 <= node i.
  Proof. intros H. rewrite scaled_high by exact H. pose proof slope_pos. assert (0 <= IZR (i - i1)) by (apply (IZR_le 0); lia). nra. Qed.
  Lemma scaled_increasing i i' : (1 <= i < i')%Z -> node i < node i'.
  Proof.
    intros H. destruct (Z_lt_ge_dec i' i1) as [K|K].
    - rewrite !scaled_low by lia. apply pow10_lt. assert (P : 0 < / IZR (i1 - 1)) by (apply Rinv_0_lt_compat, (IZR_lt 0); lia). assert (Q : IZR (i - 1) < IZR (i' - 1)) by (apply IZR_lt; lia). unfold Rdiv. nra.
    - destruct (Z_lt_ge_dec i i1) as [M|M].
      + pose proof (low_lt_1 i ltac:(lia)). pose proof (high_ge_1 i' ltac:(lia)). lra.
      + rewrite !scaled_high by lia. pose proof slope_pos. assert (Q : IZR (i - i1) < IZR (i' - i1)) by (apply IZR_lt; lia). nra.
  Qed.
  Lemma scaled_last : node n = rmax.
  Proof. pose proof i1_range. rewrite scaled_high by lia. field. apply not_0_IZR. lia. Qed.
  Lemma last_read : elem (r_spacing nr rmax ScaledGrid) (size (r_spacing nr rmax ScaledGrid)) = Some rmax.
  Proof. rewrite r_spacing_nodes, size_indices, elem_indices by lia. f_equal. exact scaled_last. Qed.
  Lemma i1_read : nint (INR (length (r_spacing nr rmax ScaledGrid)) * 81 / 676) = i1.
  Proof. rewrite r_spacing_nodes, map_length, length_indices. unfold i1, index_of_1. f_equal. field. Qed.
  Lemma tenth : / 10000000000 = pow10 (-10).
  Proof. replace (-10) with (- INR 10) by (cbn; ring). rewrite pow10_opp, pow10_nat. f_equal. cbn. ring. Qed.
  Lemma scaled_nearest i : (1 <= i <= n)%Z -> nearest_r_index (node i) (r_spacing nr rmax ScaledGrid) ScaledGrid = Some i.
  Proof.
    intros H. unfold nearest_r_index. rewrite last_read, i1_read. cbn [obind]. rewrite r_spacing_nodes, size_indices. fold n. pose proof i1_range as Hi.
    destruct (Z_lt_ge_dec i i1) as [K|K].
    - assert (P : 0 < IZR (i1 - 1)) by (apply (IZR_lt 0); lia). assert (Q : 0 <= IZR (i - 1)) by (apply (IZR_le 0); lia).
      assert (D : 0 <= IZR (i - 1) / IZR (i1 - 1)) by (apply div_nonneg; assumption).
      rewrite (proj2 (Rltb_false _ _)), (proj2 (Rltb_true _ _)).
      + rewrite scaled_low by lia. rewrite log_pow. f_equal. transitivity (nint (IZR i)); [|apply nint_IZR]. f_equal. rewrite (minus_IZR i 1). field. lra.
      + apply low_lt_1. lia.
      + rewrite scaled_low by lia. rewrite tenth. apply pow10_le. lra.
    - pose proof (high_ge_1 i ltac:(lia)) as G. rewrite (proj2 (Rltb_false _ _)) by lra. rewrite (proj2 (Rltb_false _ _)) by lra.
      unfold divided. rewrite Reqb_false by lra. cbn [obind]. f_equal. transitivity (nint (IZR i)); [|apply nint_IZR]. f_equal. rewrite scaled_high by lia. rewrite (minus_IZR i i1).
      assert (IZR (n - i1) <> 0) by (apply not_0_IZR; lia). field. split; lra.
  Qed.
  Lemma scaled_defined r : exists i0, nearest_r_index r (r_spacing nr rmax ScaledGrid) ScaledGrid = Some i0.
  Proof.
    unfold nearest_r_index. rewrite last_read, i1_read. cbn [obind]. destruct (Rltb r _); [eauto|]. destruct (Rltb r 1); [eauto|]. unfold divided. rewrite Reqb_false by lra. cbn [obind]. eauto.
  Qed.
  Lemma scaled_bracket r : node 1 <= r < rmax ->
    exists i0, nearest_r_index r (r_spacing nr rmax ScaledGrid) ScaledGrid = Some i0 /\ node (clamp n i0 - 1) <= r <= node (clamp n i0 + 1).
  Proof.
    intros (H1 & H2). pose proof i1_range as Hi. assert (Nn : (3 <= n)%Z) by (unfold n; lia). unfold nearest_r_index. rewrite last_read, i1_read. cbn [obind]. rewrite r_spacing_nodes, size_indices. fold n.
    destruct (Z_lt_ge_dec 1 i1) as [K|K].
    - assert (E1 : node 1 = / 10000000000) by (rewrite scaled_low by lia; rewrite tenth; f_equal; change (1 - 1)%Z with 0%Z; unfold Rdiv; lra). rewrite E1 in H1.
      rewrite (proj2 (Rltb_false _ _)) by lra. assert (P : 0 < IZR (i1 - 1)) by (apply (IZR_lt 0); lia).
      destruct (Rltb r 1) eqn:E2.
      + apply Rltb_true in E2. assert (Pr : 0 < r) by lra. assert (L0 : -10 <= log10 r) by (rewrite <- (log_pow (-10)), <- tenth; apply log10_le; lra).
        assert (L1 : log10 r < 0) by (rewrite <- (log_pow 0), pow10_0; now apply log10_lt).
        set (t := (log10 r / 10 + 1) * IZR (i1 - 1) + 1). eexists. split; [reflexivity|].
        assert (T1 : 1 <= t) by (unfold t; assert (0 <= (log10 r / 10 + 1) * IZR (i1 - 1)) by (apply Rmult_le_pos; lra); lra).
        assert (T2 : t < IZR i1) by (unfold t; rewrite minus_IZR in *; nra).
        assert (In1 : IZR i1 <= IZR n) by (apply IZR_le; lia).
        assert (Er : r = pow10 (-10 * (1 - (t - 1) / IZR (i1 - 1)))). { rewrite <- (pow_log r Pr) at 1. f_equal. unfold t. field. lra. }
        pose proof (bracket n (nint t) t Nn ltac:(lra) (nint_near1 t)) as (B1 & B2). pose proof (clamp_in n (nint t) Nn) as Cl. set (c := clamp n (nint t)) in *. clearbody c.
        assert (Mono : forall a b, a <= b -> pow10 (-10 * (1 - (a - 1) / IZR (i1 - 1))) <= pow10 (-10 * (1 - (b - 1) / IZR (i1 - 1)))).
        { intros a b Hab. apply pow10_le. assert (0 < / IZR (i1 - 1)) by now apply Rinv_0_lt_compat. unfold Rdiv. nra. }
        split.
        * assert (c - 1 < i1)%Z by (apply lt_IZR; lra). rewrite scaled_low by lia. rewrite (minus_IZR (c - 1) 1), Er. apply Mono. exact B1.
        * destruct (Z_lt_ge_dec (c + 1) i1) as [M|M]; [rewrite scaled_low by lia; rewrite (minus_IZR (c + 1) 1), Er; apply Mono; exact B2|]. pose proof (high_ge_1 (c + 1) ltac:(lia)). lra.
      + apply Rltb_false in E2. unfold divided. rewrite Reqb_false by lra. cbn [obind]. set (t := (r - 1) * IZR (n - i1) / (rmax - 1) + IZR i1). eexists. split; [reflexivity|].
        assert (Q : 0 < IZR (n - i1)) by (apply (IZR_lt 0); lia). assert (Er : r = (rmax - 1) / IZR (n - i1) * (t - IZR i1) + 1) by (unfold t; field; split; lra). pose proof slope_pos as Sp.
        assert (T1 : IZR i1 <= t) by (unfold t; assert (0 <= (r - 1) * IZR (n - i1) / (rmax - 1)) by (apply div_nonneg; [apply Rmult_le_pos|]; lra); lra).
        assert (T2 : t <= IZR n). { destruct (Rle_or_lt t (IZR n)) as [|X]; [assumption|]. exfalso. assert (IZR (n - i1) < t - IZR i1) by (rewrite minus_IZR; lra). assert (rmax - 1 < (rmax - 1) / IZR (n - i1) * (t - IZR i1)); [|lra]. replace (rmax - 1) with ((rmax - 1) / IZR (n - i1) * IZR (n - i1)) at 1 by (field; lra). apply Rmult_lt_compat_l; lra. }
        assert (I1' : 1 < IZR i1) by (apply (IZR_lt 1); lia).
        pose proof (bracket n (nint t) t Nn ltac:(lra) (nint_near1 t)) as (B1 & B2). pose proof (clamp_in n (nint t) Nn) as Cl. set (c := clamp n (nint t)) in *. clearbody c. split.
        * destruct (Z_lt_ge_dec (c - 1) i1) as [M|M]; [pose proof (low_lt_1 (c - 1) ltac:(lia)); lra|]. rewrite scaled_high by lia. rewrite (minus_IZR (c - 1) i1), Er. apply Rplus_le_compat_r, Rmult_le_compat_l; lra.
        * assert (i1 <= c + 1)%Z by (apply le_IZR; lra). rewrite scaled_high by lia. rewrite (minus_IZR (c + 1) i1), Er. apply Rplus_le_compat_r, Rmult_le_compat_l; lra.
    - pose proof (high_ge_1 1 ltac:(lia)) as G. rewrite (proj2 (Rltb_false _ _)) by lra. rewrite (proj2 (Rltb_false _ _)) by lra. unfold divided. rewrite Reqb_false by lra. cbn [obind].
      set (t := (r - 1) * IZR (n - i1) / (rmax - 1) + IZR i1). eexists. split; [reflexivity|].
      assert (Q : 0 < IZR (n - i1)) by (apply (IZR_lt 0); lia). assert (Er : r = (rmax - 1) / IZR (n - i1) * (t - IZR i1) + 1) by (unfold t; field; split; lra). pose proof slope_pos as Sp.
      assert (T1 : 1 <= t).
      { destruct (Rle_or_lt 1 t) as [|X]; [assumption|]. exfalso. rewrite scaled_high, (minus_IZR 1 i1) in H1 by lia. assert ((rmax - 1) / IZR (n - i1) * (t - IZR i1) < (rmax - 1) / IZR (n - i1) * (1 - IZR i1)) by (apply Rmult_lt_compat_l; lra). lra. }
      assert (T2 : t <= IZR n). { destruct (Rle_or_lt t (IZR n)) as [|X]; [assumption|]. exfalso. assert (IZR (n - i1) < t - IZR i1) by (rewrite minus_IZR; lra). assert (rmax - 1 < (rmax - 1) / IZR (n - i1) * (t - IZR i1)); [|lra]. replace (rmax - 1) with ((rmax - 1) / IZR (n - i1) * IZR (n - i1)) at 1 by (field; lra). apply Rmult_lt_compat_l; lra. }
      pose proof (bracket n (nint t) t Nn ltac:(lra) (nint_near1 t)) as (B1 & B2). pose proof (clamp_in n (nint t) Nn) as Cl. set (c := clamp n (nint t)) in *. clearbody c.
      split; (rewrite scaled_high by lia); [rewrite (minus_IZR (c - 1) i1)|rewrite (minus_IZR (c + 1) i1)]; rewrite Er; apply Rplus_le_compat_r, Rmult_le_compat_l; lra.
  Qed.
End ScaledR.
