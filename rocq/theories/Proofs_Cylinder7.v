(** The vertical cylinders. *)
From Coq Require Import Reals List Bool Arith Lia Lra Permutation.
From Verif Require Import Model_Base Model_Geometry Model_Mesh Model_Clip Spec_Mesh Spec_Tree Spec_Clip Model_Tree Model_Body Spec_Body
  Proofs_Geometry Proofs_Mesh Proofs_Mesh2 Proofs_Mesh3 Proofs_Clip4 Proofs_Clip5 Proofs_Clip7 Model_Integrals Spec_Integrals Proofs_Integrals Proofs_Tree Proofs_Tree2 Proofs_Body Proofs_Body2 Proofs_Body5
  Model_Quality Spec_Quality Proofs_Quality Model_Normals Spec_Normals Proofs_Normals4 Spec_Grid Model_Grid Proofs_Grid Proofs_Grid2 Proofs_Grid3 Proofs_Grid4 Proofs_Grid5 Proofs_Grid6
  Proofs_Dataset Proofs_Problem Model_Box Proofs_Box3 Proofs_Box4 Proofs_Box5 Model_Cylinder Spec_Cylinder Proofs_Cylinder Proofs_Cylinder2 Proofs_Cylinder3 Proofs_Cylinder4 Proofs_Cylinder5 Proofs_Cylinder6.
Import ListNotations.
Open Scope R_scope.

Section Profile.
  Variables (len rad : R) (nr nz : nat).
  Hypotheses (Hl : 0 < len) (Hr : 0 < rad) (Hnz : (0 < nz)%nat).
  Let n := (nr + nz + nr)%nat.
  Let prof := cylinder_profile len rad nr nz.
  (** The steps along the radius and the height. *)
  Definition rstep : R := rad / INR (Nat.max 1 nr).
  Definition zstep : R := len / INR nz.
  Definition rcount (i : nat) : nat := if Nat.eqb nr 0 then 1%nat else Nat.min (Nat.min i nr) (n - i).
  Definition zcount (i : nat) : nat := Nat.min (i - nr) nz.
  Lemma rstep_pos : 0 < rstep.
  Proof. apply Rdiv_lt_0_compat; [exact Hr|apply lt_0_INR; lia]. Qed.
  Lemma zstep_pos : 0 < zstep.
  Proof. apply Rdiv_lt_0_compat; [exact Hl|apply lt_0_INR; exact Hnz]. Qed.
  Lemma zstep_all : INR nz * zstep = len.
  Proof. unfold zstep. field. apply not_0_INR. lia. Qed.
  Lemma rstep_all : (0 < nr)%nat -> INR nr * rstep = rad.
  Proof. intros H. unfold rstep. rewrite Nat.max_r by lia. field. apply not_0_INR. lia. Qed.
  Lemma prof_is i : (i <= n)%nat -> prof i = (INR (rcount i) * rstep, - len / 2 + INR (zcount i) * zstep).
  Proof.
    unfold n. intros Hi. unfold prof, cylinder_profile, rcount, zcount. destruct (Nat.ltb_spec i nr) as [A|A].
    - replace (Nat.eqb nr 0) with false by (symmetry; apply Nat.eqb_neq; lia). replace (Nat.min (Nat.min i nr) (n - i)) with i by (unfold n; lia).
      replace (Nat.min (i - nr) nz) with 0%nat by lia. unfold rstep. rewrite Nat.max_r by lia. cbn [INR]. f_equal; [unfold Rdiv; ring|ring].
    - destruct (Nat.leb_spec i (nr + nz)) as [B|B].
      + replace (Nat.min (i - nr) nz) with (i - nr)%nat by lia. f_equal; [|unfold zstep, Rdiv; ring].
        destruct (Nat.eqb_spec nr 0) as [D|D]; [unfold rstep; replace (Nat.max 1 nr) with 1%nat by lia; change (INR 1) with 1; field|]. replace (Nat.min (Nat.min i nr) (n - i)) with nr by (unfold n; lia). symmetry. apply rstep_all. lia.
      + replace (Nat.eqb nr 0) with false by (symmetry; apply Nat.eqb_neq; lia). replace (Nat.min (Nat.min i nr) (n - i)) with (nr + nz + nr - i)%nat by (unfold n; lia).
        replace (Nat.min (i - nr) nz) with nz by lia. rewrite zstep_all. unfold rstep. rewrite Nat.max_r by lia. f_equal; [unfold Rdiv; ring|field].
  Qed.
  Lemma count_inj a b d : 0 < d -> INR a * d = INR b * d -> a = b.
  Proof. intros Hd E. apply INR_eq. apply Rmult_eq_reg_r with d; lra. Qed.
  Lemma prof_pos i : (i <= n)%nat -> 0 <= fst (prof i).
  Proof. intros H. rewrite prof_is by exact H. cbn [fst]. apply Rmult_le_pos; [apply pos_INR|pose proof rstep_pos; lra]. Qed.
  Lemma prof_mid i : (0 < i < n)%nat -> 0 < fst (prof i).
  Proof.
    intros H. rewrite prof_is by lia. cbn [fst]. apply Rmult_lt_0_compat; [|exact rstep_pos]. apply lt_0_INR. unfold rcount. destruct (Nat.eqb_spec nr 0); [lia|]. unfold n in *. lia.
  Qed.
  Lemma prof_inj i i' : (i <= n)%nat -> (i' <= n)%nat -> prof i = prof i' -> i = i'.
  Proof.
    intros H H' E. rewrite !prof_is in E by assumption. injection E as E1 E2. apply (count_inj _ _ _ rstep_pos) in E1.
    assert (E3 : zcount i = zcount i') by (apply (count_inj _ _ _ zstep_pos); lra).
    unfold rcount, zcount, n in *. destruct (Nat.eqb_spec nr 0); lia.
  Qed.
  Lemma prof_poles : n = 1%nat -> ~ (fst (prof 0) = 0 /\ fst (prof n) = 0).
  Proof.
    unfold n. intros E [E0 _]. rewrite prof_is in E0 by lia. cbn [fst] in E0. unfold rcount in E0. replace (Nat.eqb nr 0) with true in E0 by (symmetry; apply Nat.eqb_eq; lia). pose proof rstep_pos. cbn in E0. lra.
  Qed.
  Lemma prof_up i : (i < n)%nat -> snd (prof i) <= snd (prof (S i)).
  Proof.
    intros H. rewrite !prof_is by lia. cbn [snd]. apply Rplus_le_compat_l, Rmult_le_compat_r; [pose proof zstep_pos; lra|]. apply le_INR. unfold zcount. lia.
  Qed.
  Lemma prof_low i : (i <= n)%nat -> fst (prof 0) <= fst (prof i).
  Proof.
    intros H. rewrite !prof_is by lia. cbn [fst]. apply Rmult_le_compat_r; [pose proof rstep_pos; lra|]. apply le_INR. unfold rcount. destruct (Nat.eqb_spec nr 0); lia.
  Qed.
  (** The distances between the nodes. *)
  Lemma sin_small T k : (3 <= T)%nat -> (0 < k < T)%nat -> sin (PI / INR T) <= sin (PI * INR k / INR T).
  Proof.
    intros HT Hk. assert (T3 : 3 <= INR T) by (apply le_INR in HT; cbn in HT; lra). pose proof PI_RGT_0 as Pp.
    assert (G : forall k, (0 < k)%nat -> (2 * k <= T)%nat -> sin (PI / INR T) <= sin (PI * INR k / INR T)).
    { clear k Hk. intros k K1 K2. assert (1 <= INR k) by (apply (le_INR 1 k); lia). assert (2 * INR k <= INR T) by (apply le_INR in K2; rewrite mult_INR in K2; cbn in K2; lra).
      assert (Q0 : 0 < PI / INR T) by (apply Rdiv_lt_0_compat; lra).
      assert (Q1 : PI / INR T * INR T = PI) by (field; lra).
      assert (Q2 : PI * INR k / INR T = INR k * (PI / INR T)) by (unfold Rdiv; ring). rewrite Q2.
      apply sin_incr_1; try nra. }
    destruct (le_lt_dec (2 * k) T) as [L|L]; [apply G; lia|].
    replace (sin (PI * INR k / INR T)) with (sin (PI * INR (T - k) / INR T)); [apply G; lia|].
    rewrite minus_INR by lia. replace (PI * (INR T - INR k) / INR T) with (PI - PI * INR k / INR T) by (field; lra). apply sin_PI_x.
  Qed.
  Lemma dist_at_least u v t : 0 <= t -> t * t <= dot (vsub u v) (vsub u v) -> t <= dist u v.
  Proof. intros Ht H. unfold dist, norm. rewrite <- (sqrt_square t) by exact Ht. apply sqrt_le_1_alt. exact H. Qed.
  Lemma nodes_spread o T : (3 <= T)%nat -> / 1000000 <= zstep -> / 1000000 <= rstep -> / 1000000 <= 2 * rstep * sin (PI / INR T) -> spread_nodes (revolved_node o prof T) n T.
  Proof.
    intros HT Bz Br Bc i j i' j' Hi Hj Hi' Hj'. unfold revolved_node.
    assert (SQ : forall x, 0 <= x * x) by (intros; nra).
    assert (EQ : forall r r' z z' a b, dot (vsub (vadd o (V (r * sin a) (r * cos a) z)) (vadd o (V (r' * sin b) (r' * cos b) z'))) (vsub (vadd o (V (r * sin a) (r * cos a) z)) (vadd o (V (r' * sin b) (r' * cos b) z')))
       = (z - z') * (z - z') + (r - r') * (r - r') + 4 * r * r' * (sin ((a - b) / 2) * sin ((a - b) / 2))).
    { intros. destruct o as [ox oy oz]. unfold dot. cbn [vsub vadd vx vy vz].
      assert (H : 2 * (sin ((a - b) / 2) * sin ((a - b) / 2)) = 1 - (cos a * cos b + sin a * sin b)).
      { rewrite <- cos_minus. replace (a - b) with (2 * ((a - b) / 2)) at 3 by field. rewrite cos_2a_sin. ring. }
      pose proof (sin2_cos2 a) as Ea. pose proof (sin2_cos2 b) as Eb. unfold Rsqr in Ea, Eb.
      transitivity ((z - z') * (z - z') + r * r * (sin a * sin a + cos a * cos a) + r' * r' * (sin b * sin b + cos b * cos b) - 2 * (r * r') * (cos a * cos b + sin a * sin b)); [ring|].
      rewrite Ea, Eb. replace (cos a * cos b + sin a * sin b) with (1 - 2 * (sin ((a - b) / 2) * sin ((a - b) / 2))) by lra. ring. }
    pose proof (prof_pos i Hi) as Pi. pose proof (prof_pos i' Hi') as Pi'.
    set (a := 2 * PI * INR j / INR T). set (b := 2 * PI * INR j' / INR T).
    assert (Q4 : forall r r', 0 <= r -> 0 <= r' -> 0 <= 4 * r * r' * (sin ((a - b) / 2) * sin ((a - b) / 2))) by (intros; apply Rmult_le_pos; [nra|apply SQ]).
    assert (FAR : forall x y u, / 1000000 <= u -> x <> y -> u * u <= (INR x * u - INR y * u) * (INR x * u - INR y * u)).
    { intros x y u Hu D. assert (1 <= (INR x - INR y) * (INR x - INR y)).
      { destruct (Nat.lt_total x y) as [L|[L|L]]; [|congruence|]; apply Nat.le_succ_l in L; apply le_INR in L; rewrite S_INR in L; nra. }
      replace ((INR x * u - INR y * u) * (INR x * u - INR y * u)) with ((INR x - INR y) * (INR x - INR y) * (u * u)) by ring. pose proof (SQ u). nra. }
    destruct (Nat.eq_dec (zcount i) (zcount i')) as [Ez|Ez].
    - destruct (Nat.eq_dec (rcount i) (rcount i')) as [Er|Er].
      + assert (i = i') by (apply prof_inj; try assumption; rewrite !prof_is by assumption; now rewrite Ez, Er). subst i'.
        destruct (Nat.eq_dec j j') as [->|D]; [now left|]. destruct (Nat.eq_dec (rcount i) 0) as [R0|R0].
        * left. rewrite (prof_is i) by exact Hi. rewrite R0. cbn [fst snd INR]. f_equal. f_equal; ring.
        * right. apply dist_at_least; [lra|]. rewrite EQ.
          assert (Rg : rstep <= fst (prof i)) by (rewrite prof_is by exact Hi; cbn [fst]; pose proof (le_INR 1 (rcount i) ltac:(lia)) as L1; cbn in L1; pose proof rstep_pos; nra).
          assert (Sg : sin (PI / INR T) * sin (PI / INR T) <= sin ((a - b) / 2) * sin ((a - b) / 2)).
          { assert (S0 : 0 < sin (PI / INR T)) by exact (half_sin T HT).
            assert (T3 : INR T <> 0) by (apply not_0_INR; lia).
            destruct (Nat.lt_total j j') as [L|[L|L]]; [|congruence|].
            - pose proof (sin_small T (j' - j) HT ltac:(lia)) as S1. rewrite minus_INR in S1 by lia.
              replace ((a - b) / 2) with (- (PI * (INR j' - INR j) / INR T)) by (unfold a, b; field; exact T3). rewrite sin_neg. nra.
            - pose proof (sin_small T (j - j') HT ltac:(lia)) as S1. rewrite minus_INR in S1 by lia.
              replace ((a - b) / 2) with (PI * (INR j - INR j') / INR T) by (unfold a, b; field; exact T3). nra. }
          assert (R2 : rstep * rstep <= fst (prof i) * fst (prof i)) by (pose proof rstep_pos; nra).
          assert (B2 : / 1000000 * / 1000000 <= (2 * rstep * sin (PI / INR T)) * (2 * rstep * sin (PI / INR T))) by (assert (0 < / 1000000) by lra; nra).
          assert (M2 : (rstep * rstep) * (sin (PI / INR T) * sin (PI / INR T)) <= (fst (prof i) * fst (prof i)) * (sin ((a - b) / 2) * sin ((a - b) / 2))) by (apply Rmult_le_compat; try apply SQ; assumption).
          lra.
      + right. apply dist_at_least; [lra|]. rewrite EQ. pose proof (Q4 _ _ Pi Pi') as Q5. rewrite !prof_is in * by assumption. cbn [fst snd] in *.
        pose proof (FAR _ _ _ Br Er) as F1. pose proof (SQ (- len / 2 + INR (zcount i) * zstep - (- len / 2 + INR (zcount i') * zstep))).
        assert (/ 1000000 * / 1000000 <= rstep * rstep) by (assert (0 < / 1000000) by lra; nra). lra.
    - right. apply dist_at_least; [lra|]. rewrite EQ. pose proof (Q4 _ _ Pi Pi') as Q5. rewrite !prof_is in * by assumption. cbn [fst snd] in *.
      pose proof (FAR _ _ _ Bz Ez) as F1. pose proof (SQ (INR (rcount i) * rstep - INR (rcount i') * rstep)).
      assert (/ 1000000 * / 1000000 <= zstep * zstep) by (assert (0 < / 1000000) by lra; nra).
      replace (- len / 2 + INR (zcount i) * zstep - (- len / 2 + INR (zcount i') * zstep)) with (INR (zcount i) * zstep - INR (zcount i') * zstep) by ring. lra.
  Qed.
End Profile.
