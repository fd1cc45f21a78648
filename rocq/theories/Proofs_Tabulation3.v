(** Proofs about the tabulation: the vertical coordinate, and the values that are read. *)
From Coq Require Import Reals ZArith.
From Coquelicot Require Import Complex.
From Coq Require Import List Bool Lra Lia.
From Flocq Require Import Core.Raux.
From Verif Require Import Model_Base Proofs_Problem Proofs_Geometry Model_Assembly Model_Wave Model_Tabulation Proofs_Tabulation Proofs_Tabulation2.
Import ListNotations.
Open Scope R_scope.

(** ** The legacy grid *)
Section LegacyZ.
  Variables (nz : nat) (zmin : R).
  Notation node := (z_node nz zmin LegacyGrid).
  Let n := Z.of_nat nz.
  Lemma zlow j : (1 <= j <= 20)%Z -> node j = - pow10 (IZR j / 5 - 6).
  Proof.
    intros H. unfold z_node. replace (j =? 46)%Z with false by (symmetry; apply Z.eqb_neq; lia). rewrite andb_false_r. rewrite Rmin_left; [reflexivity|].
    apply pow10_le. destruct H as (_ & H). apply IZR_le in H. lra.
  Qed.
  Lemma zhigh j : (20 <= j)%Z -> j <> 46%Z \/ nz <> 46%nat -> node j = - pow10 (IZR j / 8 - 9 / 2).
  Proof.
    intros H K. unfold z_node. replace ((nz =? 46)%nat && (j =? 46)%Z) with false.
    - rewrite Rmin_right; [reflexivity|]. apply pow10_le. apply IZR_le in H. lra.
    - symmetry. destruct K as [K|K]; [rewrite (proj2 (Z.eqb_neq _ _) K); apply andb_false_r|]. rewrite (proj2 (Nat.eqb_neq _ _) K). reflexivity.
  Qed.
  Lemma zlast : nz = 46%nat -> node 46 = -16.
  Proof. intros ->. reflexivity. Qed.
  Lemma sixteen : log10 16 < 5 / 4 /\ 9 / 8 < log10 16.
  Proof.
    assert (E16 : 8 * log10 16 = log10 (16 ^ 8)). { unfold log10. rewrite ln_pow by lra. cbn. field. pose proof ln10_pos. lra. }
    assert (L9 : log10 (10 ^ 9) = 9). { rewrite <- pow10_nat, log_pow. cbn. ring. } assert (L10 : log10 (10 ^ 10) = 10). { rewrite <- pow10_nat, log_pow. cbn. ring. }
    assert (A : log10 (10 ^ 9) < log10 (16 ^ 8)) by (apply log10_lt; lra). assert (B : log10 (16 ^ 8) < log10 (10 ^ 10)) by (apply log10_lt; lra). lra.
  Qed.
  Lemma z_decreasing i i' : (1 <= i < i')%Z -> (i' <= n)%Z -> node i' < node i.
  Proof.
    intros H Hn. assert (I : IZR i < IZR i') by (apply IZR_lt; lia).
    assert (Main : (i' <> 46 \/ nz <> 46%nat)%Z -> (i <> 46 \/ nz <> 46%nat)%Z -> node i' < node i).
    { intros K K'. destruct (Z_le_gt_dec i' 20) as [L|L].
      - rewrite !zlow by lia. apply Ropp_lt_contravar, pow10_lt. lra.
      - rewrite (zhigh i') by (try lia; exact K). destruct (Z_le_gt_dec 20 i) as [M|M].
        + rewrite zhigh by (try lia; exact K'). apply Ropp_lt_contravar, pow10_lt. lra.
        + rewrite zlow by lia. apply Ropp_lt_contravar, pow10_lt. assert (21 <= IZR i') by (apply IZR_le; lia). assert (IZR i < 20) by (apply IZR_lt; lia). lra. }
    destruct (Nat.eq_dec nz 46) as [E|E]; [|apply Main; right; exact E].
    assert (i <> 46)%Z by (unfold n in Hn; lia). destruct (Z.eq_dec i' 46) as [-> |E']; [|apply Main; left; assumption].
    rewrite (zlast E). destruct sixteen as (_ & S1). assert (X : pow10 (9 / 8) < 16) by (rewrite <- (pow_log 16) by lra; now apply pow10_lt).
    destruct (Z_le_gt_dec 20 i) as [M|M].
    - rewrite zhigh by (try lia; now left). apply Ropp_lt_contravar. apply Rle_lt_trans with (2 := X). apply pow10_le. assert (IZR i <= 45) by (apply IZR_le; lia). lra.
    - rewrite zlow by lia. apply Ropp_lt_contravar. apply Rle_lt_trans with (2 := X). apply pow10_le. assert (IZR i <= 20) by (apply IZR_le; lia). lra.
  Qed.
  Lemma z_negative j : (1 <= j)%Z -> node j < 0.
  Proof.
    intros H. unfold z_node. destruct (_ && _); [lra|]. assert (0 < Rmin (pow10 (IZR j / 5 - 6)) (pow10 (IZR j / 8 - 9 / 2))) by (apply Rmin_pos; apply pow10_pos). lra.
  Qed.
  Lemma centi : 1 / 100 = pow10 (-2).
  Proof. replace (-2) with (- INR 2) by (cbn; ring). rewrite pow10_opp, pow10_nat. cbn. field. Qed.
  Lemma z_defined z zs : z <> 0 -> exists j, nearest_z_index z zs LegacyGrid = Some j.
  Proof. intros H. unfold nearest_z_index, finite_log10. rewrite Reqb_false by (now apply Rabs_no_R0). cbn [obind]. eauto. Qed.
  Lemma z_nearest j zs : (1 <= j)%Z -> j <> 46%Z \/ nz <> 46%nat -> nearest_z_index (node j) zs LegacyGrid = Some j.
  Proof.
    intros H K. pose proof (z_negative j H) as Ng. unfold nearest_z_index, finite_log10. rewrite Reqb_false by (apply Rabs_no_R0; lra). cbn [obind]. f_equal. rewrite Rabs_left by exact Ng.
    destruct (Z_le_gt_dec j 20) as [L|L].
    - rewrite zlow by lia. rewrite Ropp_involutive, log_pow. rewrite (proj2 (Rltb_false _ _)).
      + replace (5 * (IZR j / 5 - 6 + 6)) with (IZR j) by field. apply trunc_IZR.
      + rewrite centi. apply pow10_le. apply IZR_le in L. lra.
    - rewrite zhigh by (try lia; exact K). rewrite Ropp_involutive, log_pow. rewrite (proj2 (Rltb_true _ _)).
      + replace (8 * (IZR j / 8 - 9 / 2 + 9 / 2)) with (IZR j) by field. apply trunc_IZR.
      + rewrite centi. apply pow10_lt. assert (21 <= IZR j) by (apply IZR_le; lia). lra.
  Qed.
  Lemma z_bracket z zs : (3 <= nz)%nat -> node n < z <= node 1 ->
    exists j0, nearest_z_index z zs LegacyGrid = Some j0 /\ node (clamp n j0 + 1) <= z <= node (clamp n j0 - 1).
  Proof.
    intros N3 (H1 & H2). assert (Nn : (3 <= n)%Z) by (unfold n; lia). pose proof (z_negative 1 ltac:(lia)) as Ng. assert (Zn : z < 0) by lra. assert (Pz : 0 < - z) by lra.
    unfold nearest_z_index, finite_log10. rewrite Reqb_false by (apply Rabs_no_R0; lra). cbn [obind]. rewrite Rabs_left by exact Zn.
    set (u := log10 (- z)). assert (Ez : z = - pow10 u) by (unfold u; rewrite pow_log by lra; ring).
    assert (U1 : - 29 / 5 <= u). { rewrite zlow in H2 by lia. unfold u. replace (- 29 / 5) with (log10 (pow10 (1 / 5 - 6))) by (rewrite log_pow; lra). apply log10_le; [apply pow10_pos|lra]. }
    set (t := if Rltb (1 / 100) (- z) then 8 * (u + 9 / 2) else 5 * (u + 6)).
    assert (C : (-2 < u /\ t = 8 * (u + 9 / 2)) \/ (u <= -2 /\ t = 5 * (u + 6))).
    { unfold t. destruct (Rltb (1 / 100) (- z)) eqn:E.
      - apply Rltb_true in E. left. split; [|reflexivity]. unfold u. rewrite <- (log_pow (-2)), <- centi. apply log10_lt; lra.
      - apply Rltb_false in E. right. split; [|reflexivity]. unfold u. rewrite <- (log_pow (-2)), <- centi. apply log10_le; lra. }
    assert (T1 : 1 <= t) by (destruct C as [(C1 & ->)|(C1 & ->)]; lra).
    assert (Below : forall a, (1 <= a)%Z -> IZR a <= t -> (a <> 46%Z \/ nz <> 46%nat) -> z <= node a).
    { intros a Ha Hat K. rewrite Ez. destruct (Z_le_gt_dec a 20) as [L|L].
      - rewrite zlow by lia. apply Ropp_le_contravar, pow10_le. destruct C as [(C1 & C2)|(C1 & C2)]; [apply IZR_le in L; lra|lra].
      - rewrite zhigh by (try lia; exact K). apply Ropp_le_contravar, pow10_le. assert (21 <= IZR a) by (apply IZR_le; lia). destruct C as [(C1 & C2)|(C1 & C2)]; lra. }
    assert (Above : forall b, (1 <= b)%Z -> t <= IZR b -> (b <> 46%Z \/ nz <> 46%nat) -> node b <= z).
    { intros b Hb Hbt K. rewrite Ez. destruct (Z_le_gt_dec b 20) as [L|L].
      - rewrite zlow by lia. apply Ropp_le_contravar, pow10_le. destruct C as [(C1 & C2)|(C1 & C2)]; [apply IZR_le in L; lra|lra].
      - rewrite zhigh by (try lia; exact K). apply Ropp_le_contravar, pow10_le. assert (21 <= IZR b) by (apply IZR_le; lia). destruct C as [(C1 & C2)|(C1 & C2)]; lra. }
    assert (T2 : t <= IZR n /\ (nz = 46%nat -> t < 46)).
    { destruct (Nat.eq_dec nz 46) as [E|E].
      - assert (Hn : n = 46%Z) by (unfold n; lia). rewrite Hn, (zlast E) in H1. rewrite Hn. destruct sixteen as (S1 & _).
        assert (U : u < log10 16) by (unfold u; apply log10_lt; lra). assert (t < 46) by (destruct C as [(C1 & ->)|(C1 & ->)]; lra). split; [lra|intros _; assumption].
      - split; [|congruence]. destruct (Rle_or_lt t (IZR n)) as [|X]; [assumption|]. pose proof (Below n ltac:(lia) ltac:(lra) (or_intror E)). lra. }
    destruct T2 as (T2 & T3).
    exists (Ztrunc t). split; [unfold t; now destruct (Rltb _ _)|].
    pose proof (bracket n (Ztrunc t) t Nn (conj T1 T2) (trunc_near t ltac:(lra))) as (B1 & B2). pose proof (clamp_in n (Ztrunc t) Nn) as Cl. set (c := clamp n (Ztrunc t)) in *. clearbody c.
    destruct (Nat.eq_dec nz 46) as [E|E].
    - assert (Hn : n = 46%Z) by (unfold n; lia). split.
      + destruct (Z.eq_dec (c + 1) 46) as [Ec|Ec]; [rewrite Ec, (zlast E); rewrite Hn, (zlast E) in H1; lra|]. apply Above; [lia|exact B2|now left].
      + apply Below; [lia|exact B1|left; lia].
    - split; [apply Above|apply Below]; try assumption; try lia; now right.
  Qed.
End LegacyZ.

(** ** The scaled grid *)
Section ScaledZ.
  Variables (nz : nat) (zmin : R).
  Hypothesis Hmin : / 10000000000 < Rabs zmin.
  Hypothesis N3 : (3 <= nz)%nat.
  Notation node := (z_node nz zmin ScaledGrid).
  Let n := Z.of_nat nz.
  Let dz := (log10 (Rabs zmin) + 10) / INR nz.
  Lemma abs_pos : 0 < Rabs zmin.
  Proof. apply Rlt_trans with (2 := Hmin). lra. Qed.
  Lemma inr_pos : 3 <= IZR n. Proof. apply (IZR_le 3). unfold n. lia. Qed.
  Lemma dz_pos : 0 < dz.
  Proof.
    unfold dz. rewrite INR_IZR_INZ. fold n. pose proof inr_pos. apply Rdiv_lt_0_compat; [|lra].
    assert (log10 (pow10 (-10)) < log10 (Rabs zmin)) by (apply log10_lt; [apply pow10_pos|]; rewrite <- tenth; exact Hmin). rewrite log_pow in *. lra.
  Qed.
  Lemma dz_n : dz * IZR n - 10 = log10 (Rabs zmin).
  Proof. unfold dz. rewrite INR_IZR_INZ. fold n. pose proof inr_pos. field. lra. Qed.
  Lemma znode j : (j <= n)%Z -> node j = - pow10 (dz * IZR j - 10).
  Proof.
    intros H. unfold z_node. fold dz. cbv zeta. rewrite Rmin_left; [reflexivity|]. rewrite <- (pow_log (Rabs zmin) abs_pos), <- dz_n. apply pow10_le. apply IZR_le in H. pose proof dz_pos. nra.
  Qed.
  Lemma zs_decreasing i i' : (1 <= i < i')%Z -> (i' <= n)%Z -> node i' < node i.
  Proof. intros H H'. rewrite !znode by lia. apply Ropp_lt_contravar, pow10_lt. assert (IZR i < IZR i') by (apply IZR_lt; lia). pose proof dz_pos. nra. Qed.
  Lemma zs_negative j : (j <= n)%Z -> node j < 0.
  Proof. intros H. rewrite znode by exact H. pose proof (pow10_pos (dz * IZR j - 10)). lra. Qed.
  Lemma zs_last : node n = - Rabs zmin.
  Proof. rewrite znode by lia. now rewrite dz_n, pow_log by exact abs_pos. Qed.
  Lemma zs_read : elem (z_spacing nz zmin ScaledGrid) (size (z_spacing nz zmin ScaledGrid)) = Some (- Rabs zmin).
  Proof. rewrite z_spacing_nodes, size_indices, elem_indices by lia. f_equal. exact zs_last. Qed.
  Lemma zs_index z : z <> 0 -> nearest_z_index z (z_spacing nz zmin ScaledGrid) ScaledGrid = Some (nint ((log10 (Rabs z) + 10) / dz)).
  Proof.
    intros H. pose proof abs_pos as Ap. pose proof dz_pos as Dp. unfold nearest_z_index. rewrite zs_read. cbn [obind]. rewrite Rabs_Ropp, Rabs_Rabsolu. unfold finite_log10. rewrite Reqb_false by lra. cbn [obind].
    rewrite Reqb_false by (now apply Rabs_no_R0). cbn [obind]. rewrite z_spacing_nodes, size_indices, <- INR_IZR_INZ. fold dz. unfold divided. rewrite Reqb_false by lra. reflexivity.
  Qed.
  Lemma zs_nearest j : (1 <= j <= n)%Z -> nearest_z_index (node j) (z_spacing nz zmin ScaledGrid) ScaledGrid = Some j.
  Proof.
    intros H. pose proof (zs_negative j ltac:(lia)) as Ng. rewrite zs_index by lra. f_equal. rewrite Rabs_left by exact Ng. rewrite znode by lia. rewrite Ropp_involutive, log_pow.
    transitivity (nint (IZR j)); [|apply nint_IZR]. f_equal. pose proof dz_pos. field. lra.
  Qed.
  Lemma zs_bracket z : node n < z <= node 1 ->
    exists j0, nearest_z_index z (z_spacing nz zmin ScaledGrid) ScaledGrid = Some j0 /\ node (clamp n j0 + 1) <= z <= node (clamp n j0 - 1).
  Proof.
    intros (H1 & H2). assert (Nn : (3 <= n)%Z) by (unfold n; lia). pose proof (zs_negative 1 ltac:(lia)) as Ng. assert (Zn : z < 0) by lra. rewrite zs_index by lra. eexists. split; [reflexivity|].
    rewrite Rabs_left by exact Zn. pose proof dz_pos as Dp. set (t := (log10 (- z) + 10) / dz). assert (Ez : z = - pow10 (dz * t - 10)). { unfold t. replace (dz * ((log10 (- z) + 10) / dz) - 10) with (log10 (- z)) by (field; lra). rewrite pow_log by lra. ring. }
    assert (Mono : forall a b, a <= b -> pow10 (dz * a - 10) <= pow10 (dz * b - 10)) by (intros a b Hab; apply pow10_le; nra).
    assert (T1 : 1 <= t). { destruct (Rle_or_lt 1 t) as [|X]; [assumption|]. rewrite znode, Ez in H2 by lia. assert (pow10 (dz * t - 10) < pow10 (dz * 1 - 10)) by (apply pow10_lt; nra). lra. }
    assert (T2 : t <= IZR n). { destruct (Rle_or_lt t (IZR n)) as [|X]; [assumption|]. rewrite znode, Ez in H1 by lia. assert (pow10 (dz * IZR n - 10) < pow10 (dz * t - 10)) by (apply pow10_lt; nra). lra. }
    pose proof (bracket n (nint t) t Nn (conj T1 T2) (nint_near1 t)) as (B1 & B2). pose proof (clamp_in n (nint t) Nn) as Cl. set (c := clamp n (nint t)) in *. clearbody c.
    rewrite !znode by lia. rewrite Ez. split; apply Ropp_le_contravar, Mono; assumption.
  Qed.
End ScaledZ.
