(** The spheres. *)
From Coq Require Import Reals List Bool Arith Lia Lra Permutation ZArith.
From Verif Require Import Model_Base Model_Geometry Model_Mesh Model_Clip Spec_Mesh Spec_Tree Spec_Clip Model_Tree Model_Body Spec_Body
  Proofs_Geometry Proofs_Mesh Proofs_Clip7 Model_Integrals Spec_Integrals Proofs_Integrals
  Model_Quality Spec_Quality Proofs_Quality Spec_Grid Model_Grid Proofs_Grid Proofs_Grid2 Proofs_Grid5 Proofs_Grid7
  Proofs_Dataset Proofs_Problem Model_Box Proofs_Box5 Model_Cylinder Spec_Cylinder Proofs_Cylinder3 Proofs_Cylinder4 Proofs_Cylinder6 Proofs_Cylinder7 Proofs_Cylinder8 Proofs_Cylinder9 Proofs_Sphere.
Import ListNotations.
Open Scope R_scope.

Lemma sin_least N k : (2 <= N)%nat -> (0 < k < N)%nat -> 0 < sin (PI / INR N) <= sin (PI * INR k / INR N).
Proof.
  intros HN Hk. assert (T3 : 2 <= INR N) by (apply le_INR in HN; cbn in HN; lra). pose proof PI_RGT_0 as Pp.
  assert (Q0 : 0 < PI / INR N) by (apply Rdiv_lt_0_compat; lra). assert (Q1 : PI / INR N * INR N = PI) by (field; lra).
  split; [apply sin_gt_0; nra|].
  assert (G : forall k, (0 < k)%nat -> (2 * k <= N)%nat -> sin (PI / INR N) <= sin (PI * INR k / INR N)).
  { clear k Hk. intros k K1 K2. assert (1 <= INR k) by (apply (le_INR 1 k); lia). assert (2 * INR k <= INR N) by (apply le_INR in K2; rewrite mult_INR in K2; cbn in K2; lra).
    assert (Q2 : PI * INR k / INR N = INR k * (PI / INR N)) by (unfold Rdiv; ring). rewrite Q2.
    apply sin_incr_1; try nra. }
  destruct (Nat.le_gt_cases (2 * k) N) as [L|L]; [apply G; lia|].
  assert (E : PI * INR k / INR N = PI - PI * INR (N - k) / INR N) by (rewrite minus_INR by lia; field; lra). rewrite E, sin_PI_x. apply G; lia.
Qed.
(** Distances between the nodes. *)
Lemma profile_spread o prof n T th0 : (3 <= T)%nat -> (forall i, (i <= n)%nat -> 0 <= fst (prof i)) ->
  (forall i i', (i <= n)%nat -> (i' <= n)%nat -> i <> i' ->
    / 1000000 <= sqrt ((fst (prof i) - fst (prof i')) * (fst (prof i) - fst (prof i')) + (snd (prof i) - snd (prof i')) * (snd (prof i) - snd (prof i')))) ->
  (forall i, (i <= n)%nat -> 0 < fst (prof i) -> / 1000000 <= 2 * fst (prof i) * sin (PI / INR T)) -> spread_nodes (node o prof T th0) n T.
Proof.
  intros HT Hpos Hd Hr i j i' j' Hi Hj Hi' Hj'. unfold node, tp.
  assert (SQ : forall x, 0 <= x * x) by (intros; nra). assert (T3 : INR T <> 0) by (apply not_0_INR; lia).
  set (a := angle T th0 j). set (b := angle T th0 j').
  assert (EQ : forall r r' z z', dot (vsub (vadd o (V (r * sin a) (r * cos a) z)) (vadd o (V (r' * sin b) (r' * cos b) z'))) (vsub (vadd o (V (r * sin a) (r * cos a) z)) (vadd o (V (r' * sin b) (r' * cos b) z')))
       = (r - r') * (r - r') + (z - z') * (z - z') + 4 * r * r' * (sin ((a - b) / 2) * sin ((a - b) / 2))).
  { intros. destruct o as [ox oy oz]. unfold dot. cbn [vsub vadd vx vy vz].
    assert (H : 2 * (sin ((a - b) / 2) * sin ((a - b) / 2)) = 1 - (cos a * cos b + sin a * sin b)).
    { rewrite <- cos_minus. replace (a - b) with (2 * ((a - b) / 2)) at 3 by field. rewrite cos_2a_sin. ring. }
    pose proof (sin2_cos2 a) as Ea. pose proof (sin2_cos2 b) as Eb. unfold Rsqr in Ea, Eb.
    transitivity ((z - z') * (z - z') + r * r * (sin a * sin a + cos a * cos a) + r' * r' * (sin b * sin b + cos b * cos b) - 2 * (r * r') * (cos a * cos b + sin a * sin b)); [ring|].
    rewrite Ea, Eb. replace (cos a * cos b + sin a * sin b) with (1 - 2 * (sin ((a - b) / 2) * sin ((a - b) / 2))) by lra. ring. }
  destruct (Nat.eq_dec i i') as [<-|D].
  - destruct (Nat.eq_dec j j') as [E|D]; [left; unfold a, b; now rewrite E|]. destruct (Rle_lt_or_eq_dec _ _ (Hpos i Hi)) as [R0|R0].
    + right. apply dist_at_least; [lra|]. rewrite EQ. specialize (Hr i Hi R0).
      assert (Sg : sin (PI / INR T) * sin (PI / INR T) <= sin ((a - b) / 2) * sin ((a - b) / 2)).
      { destruct (Nat.lt_total j j') as [L|[L|L]]; [|congruence|].
        - pose proof (sin_least T (j' - j) ltac:(lia) ltac:(lia)) as S1. rewrite minus_INR in S1 by lia.
          replace ((a - b) / 2) with (- (PI * (INR j' - INR j) / INR T)) by (unfold a, b, angle; field; exact T3). rewrite sin_neg. nra.
        - pose proof (sin_least T (j - j') ltac:(lia) ltac:(lia)) as S1. rewrite minus_INR in S1 by lia.
          replace ((a - b) / 2) with (PI * (INR j - INR j') / INR T) by (unfold a, b, angle; field; exact T3). nra. }
      set (r := fst (prof i)) in *. set (s := sin (PI / INR T)) in *. set (u := sin ((a - b) / 2)) in *.
      assert (B2 : / 1000000 * / 1000000 <= (2 * r * s) * (2 * r * s)) by (assert (0 < / 1000000) by lra; nra).
      assert (M2 : (r * r) * (s * s) <= (r * r) * (u * u)) by (apply Rmult_le_compat_l; [apply SQ|exact Sg]). lra.
    + left. rewrite <- R0. apply vec_ext; cbn [vadd vx vy vz]; ring.
  - right. apply dist_at_least; [lra|]. rewrite EQ. specialize (Hd i i' Hi Hi' D). pose proof (Hpos i Hi). pose proof (Hpos i' Hi').
    set (q := (fst (prof i) - fst (prof i')) * (fst (prof i) - fst (prof i')) + (snd (prof i) - snd (prof i')) * (snd (prof i) - snd (prof i'))) in *.
    assert (Q0 : 0 <= q) by (unfold q; pose proof (SQ (fst (prof i) - fst (prof i'))); pose proof (SQ (snd (prof i) - snd (prof i'))); lra).
    assert (Q1 : sqrt q * sqrt q = q) by (apply sqrt_sqrt; exact Q0). assert (/ 1000000 * / 1000000 <= q) by (rewrite <- Q1; assert (0 < / 1000000) by lra; nra).
    assert (0 <= 4 * fst (prof i) * fst (prof i') * (sin ((a - b) / 2) * sin ((a - b) / 2))) by (apply Rmult_le_pos; [nra|apply SQ]). lra.
Qed.
(** Turning the other way round. *)
Lemma around_is c prof T i j : (0 < T)%nat -> (j <= T)%nat -> around_node c prof T i j = node c prof T (PI / 2) i (T - j).
Proof.
  intros HT Hj. assert (IT : INR T <> 0) by (apply not_0_INR; lia). unfold around_node, node, tp, angle. rewrite minus_INR by exact Hj.
  replace (PI / 2 + 2 * PI * (INR T - INR j) / INR T) with ((PI / 2 - 2 * PI * INR j / INR T) + 2 * PI) by (field; exact IT).
  rewrite sin_plus, cos_plus, sin_2PI, cos_2PI. replace (sin (PI / 2 - 2 * PI * INR j / INR T)) with (cos (2 * PI * INR j / INR T)) by (rewrite cos_sin, sin_minus, sin_plus, sin_PI2, cos_PI2; rewrite cos_shift || idtac; ring).
  replace (cos (PI / 2 - 2 * PI * INR j / INR T)) with (sin (2 * PI * INR j / INR T)) by (symmetry; apply cos_shift). apply vec_ext; cbn [vadd vx vy vz]; ring.
Qed.
Lemma made_same t qs ps l : Forall2 same_polygon ps l -> Permutation l qs -> made_of t qs -> made_of t ps.
Proof.
  intros S Pm (q1 & q2 & Tq & P1 & S1). assert (S' : Forall2 (fun x y => same_polygon y x) l ps) by (clear - S; induction S; constructor; assumption).
  destruct (Permutation_Forall2 (perm_trans Pm P1) S') as (k & Pk & Sk). exists k, q2. split; [exact Tq|]. split; [exact Pk|].
  clear - Sk S1. revert k Sk. induction S1 as [|x y l l' H S IH]; intros k Sk; inversion Sk; subst; [constructor|]. constructor; [eapply same_polygon_trans; eassumption|now apply IH].
Qed.
Lemma around_made c prof n T t : (0 < T)%nat -> made_of t (revolved (node c prof T (PI / 2)) n T) -> made_of t (around (around_node c prof T) n T).
Proof.
  intros HT. apply made_same with (l := strips (node c prof T (PI / 2)) n (map (fun j => (T - 1 - j)%nat) (seq 0 T))).
  - unfold around, strips. apply f2_flat. intros i _. rewrite map_map. apply f2_map. intros j Hj. apply in_seq in Hj. unfold revolved_panel. rewrite !around_is by lia.
    replace (T - S j)%nat with (T - 1 - j)%nat by lia. replace (S (T - 1 - j)) with (T - j)%nat by lia. cbn. auto.
  - rewrite strips_all. apply strips_perm. apply NoDup_Permutation; [|apply seq_NoDup|].
    + apply Proofs_Box5.NoDup_map_in; [|apply seq_NoDup]. intros x y Hx Hy E. apply in_seq in Hx, Hy. lia.
    + intros x. rewrite in_map_iff, in_seq. split; [intros (k & <- & Hk); apply in_seq in Hk; lia|]. intros Hx. exists (T - 1 - x)%nat. rewrite in_seq. lia.
Qed.
Section Profiles.
  Variable argsort : list R -> list nat.
  Hypothesis Hs : sorts argsort.
  Variables (prof : nat -> R * R) (n T : nat).
  Hypothesis H : reasonable_profile prof n T.
  Notation rho i := (fst (prof i)). Notation zed i := (snd (prof i)).
  Lemma profile_inj i i' : (i <= n)%nat -> (i' <= n)%nat -> prof i = prof i' -> i = i'.
  Proof.
    intros Hi Hi' E. destruct (Nat.eq_dec i i') as [|D]; [assumption|]. exfalso. destruct H as (_ & _ & _ & _ & _ & Hd & _). specialize (Hd i i' Hi Hi' D). rewrite E, !Rminus_diag_eq, Rmult_0_l, Rplus_0_r, sqrt_0 in Hd by reflexivity. lra.
  Qed.
  Lemma profile_nodes : spread_nodes (node v0 prof T (PI / 2)) n T.
  Proof. destruct H as (Hn & HT & Hpos & _ & _ & Hd & Hr & _). now apply profile_spread. Qed.
  Lemma profile_made : exists t, from_profile argsort (map (fun i => V (rho i) 0 (zed i)) (seq 0 (n + 1))) Oz_axis T = Ok t /\ filled t /\ sound_parts t
    /\ made_of t (around (around_node v0 prof T) n T) /\ length (leaves t) = T.
  Proof.
    destruct H as (Hn & HT & Hpos & Hmid & Hpo & Hd & Hr & Hsz). rewrite Nat.add_1_r.
    destruct (slices_ok argsort Hs prof n T Hn HT Hpos Hmid profile_inj Hpo profile_nodes) as (l & E & F & C & _ & L). eexists. split; [exact E|].
    destruct (pieces_made prof n T (PI / 2) v0 _ (slice_columns T) F C (slice_columns_all prof n T Hn HT Hpo)) as (_ & B & M). split; [exact F|]. split; [exact B|]. split; [apply around_made; [lia|exact M]|exact L].
  Qed.
  Lemma profile_shut c t : rho 0 = 0 -> rho n = 0 -> made_of_strips prof n T (PI / 2) c t -> exists qs, proper_surface t qs /\ watertight qs /\ volume t = Ok (INR T * solid prof n T).
  Proof.
    destruct H as (Hn & HT & Hpos & Hmid & Hpo & Hd & Hr & Hsz). exact (surface_closed prof n T (PI / 2) Hn HT Hpos Hmid profile_inj Hpo Hsz c t).
  Qed.
  Lemma profile_closed : rho 0 = 0 -> rho n = 0 -> exists t qs, from_profile argsort (map (fun i => V (rho i) 0 (zed i)) (seq 0 (n + 1))) Oz_axis T = Ok t
    /\ proper_surface t qs /\ watertight qs
    /\ volume t = Ok (INR T / 2 * sin (2 * PI / INR T) * Rsum (map (fun i => (zed (S i) - zed i) * (rho i * rho i + rho i * rho (S i) + rho (S i) * rho (S i)) / 3) (seq 0 n))).
  Proof.
    intros R0 Rn. pose proof H as (Hn & HT & Hpos & Hmid & Hpo & Hd & Hr & Hsz). rewrite Nat.add_1_r.
    destruct (slices_ok argsort Hs prof n T Hn HT Hpos Hmid profile_inj Hpo profile_nodes) as (l & E & F & C & _ & L). eexists. 
    destruct (profile_shut v0 _ R0 Rn (pieces_made prof n T (PI / 2) v0 _ (slice_columns T) F C (slice_columns_all prof n T Hn HT Hpo))) as (qs & A & B & D).
    exists qs. split; [exact E|]. split; [exact A|]. split; [exact B|]. rewrite D. f_equal. unfold solid, width. field.
  Qed.
End Profiles.

Section Spheres.
  Variable argsort : list R -> list nat.
  Hypothesis Hs : sorts argsort.
  Variable set_order : list nat -> list nat.
  Hypothesis Ho : forall l, Permutation l (set_order l).
  Variables (rad : R) (n T : nat).
  Hypothesis H : reasonable_sphere rad n T.
  Notation prof := (sphere_profile rad n).
  Notation rho i := (fst (prof i)). Notation zed i := (snd (prof i)).
  Let al (i : nat) := PI * INR i / INR n.
  Lemma al_range i : (i <= n)%nat -> 0 <= al i <= PI.
  Proof.
    intros Hi. destruct H as (_ & Hn & _). assert (N2 : 2 <= INR n) by (apply le_INR in Hn; cbn in Hn; lra). assert (0 <= INR i <= INR n) by (split; [apply pos_INR|apply le_INR; exact Hi]). pose proof PI_RGT_0.
    assert (0 <= INR i / INR n <= 1) by (split; [unfold Rdiv; apply Rmult_le_pos; [lra|left; apply Rinv_0_lt_compat; lra]|apply Rmult_le_reg_r with (INR n); [lra|]; unfold Rdiv; rewrite Rmult_assoc, Rinv_l by lra; lra]).
    unfold al, Rdiv in *. split; nra.
  Qed.
  Lemma al_less i : (0 < i < n)%nat -> 0 < al i < PI.
  Proof.
    intros Hi. destruct H as (_ & Hn & _). assert (N2 : 2 <= INR n) by (apply le_INR in Hn; cbn in Hn; lra). assert (0 < INR i < INR n) by (split; [apply lt_0_INR|apply lt_INR]; lia). pose proof PI_RGT_0.
    unfold al. split; [apply Rdiv_lt_0_compat; nra|]. apply Rmult_lt_reg_r with (INR n); [lra|]. unfold Rdiv. rewrite Rmult_assoc, Rinv_l by lra. nra.
  Qed.
  Lemma sphere_pos i : (i <= n)%nat -> 0 <= rho i.
  Proof. intros Hi. destruct H as (R0 & _). cbn [sphere_profile fst]. apply Rmult_le_pos; [lra|]. destruct (al_range i Hi). now apply sin_ge_0. Qed.
  Lemma sphere_mid i : (0 < i < n)%nat -> 0 < rho i.
  Proof. intros Hi. destruct H as (R0 & _). cbn [sphere_profile fst]. apply Rmult_lt_0_compat; [lra|]. destruct (al_less i Hi). now apply sin_gt_0. Qed.
  Lemma sphere_first : rho 0 = 0.
  Proof. cbn [sphere_profile fst]. change (INR 0) with 0. unfold Rdiv. now rewrite Rmult_0_r, Rmult_0_l, sin_0, Rmult_0_r. Qed.
  Lemma sphere_last : rho n = 0.
  Proof. destruct H as (_ & Hn & _). cbn [sphere_profile fst]. replace (PI * INR n / INR n) with PI by (field; apply not_0_INR; lia). now rewrite sin_PI, Rmult_0_r. Qed.
  Lemma sphere_distance i i' : (i <= n)%nat -> (i' < i)%nat ->
    / 1000000 <= sqrt ((rho i - rho i') * (rho i - rho i') + (zed i - zed i') * (zed i - zed i')).
  Proof.
    intros Hi Hi'. destruct H as (R0 & Hn & _ & D1 & _). assert (N0 : INR n <> 0) by (apply not_0_INR; lia). cbn [sphere_profile fst snd]. fold (al i) (al i').
    assert (E : (rad * sin (al i) - rad * sin (al i')) * (rad * sin (al i) - rad * sin (al i')) + (- rad * cos (al i) - - rad * cos (al i')) * (- rad * cos (al i) - - rad * cos (al i'))
       = (2 * rad * sin ((al i - al i') / 2)) * (2 * rad * sin ((al i - al i') / 2))).
    { assert (X : 2 * (sin ((al i - al i') / 2) * sin ((al i - al i') / 2)) = 1 - (cos (al i) * cos (al i') + sin (al i) * sin (al i'))).
      { rewrite <- cos_minus. replace (al i - al i') with (2 * ((al i - al i') / 2)) at 3 by field. rewrite cos_2a_sin. ring. }
      pose proof (sin2_cos2 (al i)) as Ea. pose proof (sin2_cos2 (al i')) as Eb. unfold Rsqr in Ea, Eb.
      transitivity (rad * rad * (2 * (2 * (sin ((al i - al i') / 2) * sin ((al i - al i') / 2))))); [|ring]. rewrite X.
      transitivity (rad * rad * ((sin (al i) * sin (al i) + cos (al i) * cos (al i)) + (sin (al i') * sin (al i') + cos (al i') * cos (al i')) - 2 * (cos (al i) * cos (al i') + sin (al i) * sin (al i')))); [ring|]. rewrite Ea, Eb. ring. }
    rewrite E. pose proof (sin_least (2 * n) (i - i') ltac:(lia) ltac:(lia)) as S1. rewrite mult_INR, minus_INR in S1 by lia. change (INR 2) with 2 in S1.
    replace (PI * (INR i - INR i') / (2 * INR n)) with ((al i - al i') / 2) in S1 by (unfold al; field; exact N0).
    rewrite sqrt_square; [|apply Rmult_le_pos; lra]. eapply Rle_trans; [exact D1|]. apply Rmult_le_compat_l; lra.
  Qed.
  Lemma sphere_reasonable : reasonable_profile prof n T.
  Proof.
    pose proof H as (R0 & Hn & HT & D1 & D2 & Hsz & Hcmp). split; [lia|]. split; [exact HT|]. split; [exact sphere_pos|]. split; [exact sphere_mid|]. split; [lia|]. split; [|split; [|exact Hsz]].
    - intros i i' Hi Hi' D. destruct (Nat.lt_total i i') as [L|[L|L]]; [|congruence|now apply sphere_distance].
      pose proof (sphere_distance i' i Hi' L) as X. eapply Rle_trans; [exact X|]. right. f_equal. ring.
    - intros i Hi Hp. assert (Hm : (0 < i < n)%nat).
      { split.
        - destruct i; [|lia]. rewrite sphere_first in Hp. lra.
        - destruct (Nat.eq_dec i n) as [E|]; [|lia]. rewrite E, sphere_last in Hp. lra. }
      eapply Rle_trans; [exact D2|]. pose proof (sin_least n i Hn Hm) as S1. pose proof (sin_least T 1 ltac:(lia) ltac:(lia)) as S2. cbn [sphere_profile fst].
      apply Rmult_le_compat_r; [lra|]. rewrite Rmult_assoc. apply Rmult_le_compat_l; [lra|]. apply Rmult_le_compat_l; lra.
  Qed.
  Lemma sphere_up i : (i < n)%nat -> zed i <= zed (S i).
  Proof.
    intros Hi. destruct H as (R0 & Hn & _). pose proof (al_range i ltac:(lia)). pose proof (al_range (S i) ltac:(lia)). cbn [sphere_profile snd].
    assert (L : cos (al (S i)) <= cos (al i)).
    { apply cos_decr_1; try tauto. unfold al. apply Rmult_le_compat_r; [left; apply Rinv_0_lt_compat, lt_0_INR; lia|]. apply Rmult_le_compat_l; [left; apply PI_RGT_0|apply le_INR; lia]. }
    fold (al i) (al (S i)). nra.
  Qed.
  Lemma sphere_points : meridian rad n = map (fun i => V (rho i) 0 (zed i)) (seq 0 (S n)).
  Proof.
    unfold meridian, linspace. rewrite map_map. replace (n + 1)%nat with (S n) by lia. apply map_ext. intros i. destruct H as (_ & Hn & _). cbn [sphere_profile fst snd]. replace (S n - 1)%nat with n by lia.
    replace (0 + INR i * ((PI - 0) / INR n)) with (PI * INR i / INR n) by (field; apply not_0_INR; lia). apply vec_ext; cbn [vscale vx vy vz]; ring.
  Qed.
  Lemma sphere_made c axial : exists t, mesh_sphere argsort set_order rad c (Z.of_nat n) (Z.of_nat T) None axial = Ok t
    /\ made_of_strips prof n T (PI / 2) c t /\ length (leaves t) = (if axial then T else 1)%nat.
  Proof.
    pose proof H as (R0 & Hn & HT & D1 & D2 & Hsz & Hcmp). unfold mesh_sphere. cbn [refined_sphere bind].
    assert (E1 : (Z.of_nat n + 1 <? 0)%Z = false) by (apply Z.ltb_ge; lia). assert (E2 : (Z.of_nat T <? 0)%Z = false) by (apply Z.ltb_ge; lia). rewrite E1, E2, Nat2Z.id.
    replace (Z.to_nat (Z.of_nat n + 1) - 1)%nat with n by lia. rewrite sphere_points.
    pose proof sphere_reasonable as G. pose proof (profile_nodes prof n T G) as Sp. pose proof (profile_inj prof n T G) as Ij.
    assert (Po : n = 1%nat -> ~ (rho 0 = 0 /\ rho n = 0)) by lia.
    destruct axial.
    - destruct (turned_axial argsort Hs set_order prof n T ltac:(lia) HT sphere_pos sphere_mid Ij Po Hsz Hcmp Sp c) as (t0 & t & A & B & M & L).
      change (from_profile argsort (map (fun i => V (rho i) 0 (zed i)) (seq 0 (S n))) Oz_axis T = Ok t0) in A. rewrite A. cbn [bind]. eauto.
    - assert (Lw : forall i, (i <= n)%nat -> rho 0 <= rho i) by (intros i Hi; rewrite sphere_first; now apply sphere_pos).
      destruct (turned_merged argsort Hs set_order Ho prof n T ltac:(lia) HT sphere_pos sphere_mid Ij Po Hsz Hcmp Sp sphere_up Lw c) as (t0 & m & t & A & B & C & M & L).
      change (from_profile argsort (map (fun i => V (rho i) 0 (zed i)) (seq 0 (S n))) Oz_axis T = Ok t0) in A. rewrite A. cbn [bind]. rewrite B. cbn [bind]. eauto.
  Qed.
  Lemma sphere_ok c axial : exists t, mesh_sphere argsort set_order rad c (Z.of_nat n) (Z.of_nat T) None axial = Ok t
    /\ is_sphere c rad n T t /\ length (leaves t) = (if axial then T else 1)%nat.
  Proof.
    destruct (sphere_made c axial) as (t & E & (F & S & M) & L). pose proof H as (_ & _ & HT & _). exists t. split; [exact E|]. split; [|exact L].
    split; [exact F|]. split; [exact S|]. apply around_made; [lia|exact M].
  Qed.
  (** The volume. *)
  Lemma sphere_sum k : (k <= n)%nat -> Rsum (map (fun i => (zed (S i) - zed i) * (rho i * rho i + rho i * rho (S i) + rho (S i) * rho (S i)) / 3) (seq 0 k))
    = rad * (rad * rad) / 3 * ((2 + cos (PI / INR n)) * (1 - cos (al k)) - (1 - cos (al k) * (cos (al k) * cos (al k)))).
  Proof.
    pose proof H as (_ & Hn & _). assert (N0 : INR n <> 0) by (apply not_0_INR; lia). induction k as [|k IH]; intros Hk.
    - assert (A0 : al 0 = 0) by (unfold al; change (INR 0) with 0; unfold Rdiv; ring). rewrite A0, cos_0. change (Rsum (map _ (seq 0 0))) with 0. field.
    - rewrite seq_S, map_app, Rsum_app, IH by lia. unfold Rsum; cbn [map fold_right sphere_profile fst snd plus]. fold (al k) (al (S k)).
      assert (Ed : cos (PI / INR n) = cos (al (S k)) * cos (al k) + sin (al (S k)) * sin (al k)).
      { rewrite <- cos_minus. f_equal. unfold al. rewrite S_INR. field. exact N0. }
      rewrite Ed. pose proof (sin2_cos2 (al k)) as Ea. pose proof (sin2_cos2 (al (S k))) as Eb. unfold Rsqr in Ea, Eb.
      set (x := cos (al k)) in *. set (y := cos (al (S k))) in *. set (s := sin (al k)) in *. set (u := sin (al (S k))) in *.
      assert (Es : s * s = 1 - x * x) by lra. assert (Eu : u * u = 1 - y * y) by lra.
      replace ((- rad * y - - rad * x) * (rad * s * (rad * s) + rad * s * (rad * u) + rad * u * (rad * u)) / 3) with (rad * (rad * rad) / 3 * ((x - y) * (s * s + s * u + u * u))) by (unfold Rdiv; ring).
      rewrite Es, Eu. unfold Rdiv. ring.
  Qed.
  Lemma sphere_shut c axial : exists t qs, mesh_sphere argsort set_order rad c (Z.of_nat n) (Z.of_nat T) None axial = Ok t
    /\ proper_surface t qs /\ watertight qs
    /\ volume t = Ok (INR T / 2 * sin (2 * PI / INR T) * (2 / 3 * (1 + cos (PI / INR n))) * (rad * rad * rad)).
  Proof.
    destruct (sphere_made c axial) as (t & E & M & L). destruct (profile_shut prof n T sphere_reasonable c t sphere_first sphere_last M) as (qs & A & B & D).
    exists t, qs. split; [exact E|]. split; [exact A|]. split; [exact B|]. rewrite D. f_equal. unfold solid. rewrite sphere_sum by lia. unfold width.
    pose proof H as (_ & Hn & _). replace (al n) with PI by (unfold al; field; apply not_0_INR; lia). rewrite cos_PI. field.
  Qed.
End Spheres.
Section Limits.
  Variable argsort : list R -> list nat.
  Variable set_order : list nat -> list nat.
  Lemma sphere_errors rad c nth nph axial :
    ((nth < -1)%Z -> mesh_sphere argsort set_order rad c nth nph None axial = Err ValueError)
    /\ ((-1 <= nth)%Z -> (nph < 0)%Z -> mesh_sphere argsort set_order rad c nth nph None axial = Err AssertionError)
    /\ ((0 <= nth)%Z -> nph = 0%Z -> mesh_sphere argsort set_order rad c nth nph None axial = Err ZeroDivisionError)
    /\ ((nth = 0 \/ nph = 0)%Z -> forall r, mesh_sphere argsort set_order rad c nth nph (Some r) axial = Err ZeroDivisionError).
  Proof.
    unfold mesh_sphere. cbn [refined_sphere bind]. split; [|split; [|split]].
    - intros L. now rewrite (proj2 (Z.ltb_lt (nth + 1) 0)) by lia.
    - intros L N. rewrite (proj2 (Z.ltb_ge (nth + 1) 0)) by lia. now rewrite (proj2 (Z.ltb_lt nph 0)) by lia.
    - intros L ->. rewrite (proj2 (Z.ltb_ge (nth + 1) 0)) by lia. cbn [Z.ltb Z.compare]. unfold meridian, linspace.
      replace (Z.to_nat (nth + 1) - 1 + 1)%nat with (S (Z.to_nat nth)) by lia. reflexivity.
    - intros L r. replace ((nth =? 0)%Z || (nph =? 0)%Z) with true; [reflexivity|]. symmetry. rewrite orb_true_iff, !Z.eqb_eq. exact L.
  Qed.
  Lemma sphere_radius rad c nth0 nph0 r axial : 0 < rad -> 0 < r -> (0 < nth0)%Z -> (0 < nph0)%Z ->
    exists nth nph, (0 < nth)%Z /\ (0 < nph)%Z
      /\ mesh_sphere argsort set_order rad c nth0 nph0 (Some r) axial = mesh_sphere argsort set_order rad c nth nph None axial
      /\ sqrt ((2 * PI * rad / IZR nth) * (2 * PI * rad / IZR nth) + (2 * PI * rad / IZR nph) * (2 * PI * rad / IZR nph)) / 2 <= r
      /\ (sqrt ((2 * PI * rad / IZR nth0) * (2 * PI * rad / IZR nth0) + (2 * PI * rad / IZR nph0) * (2 * PI * rad / IZR nph0)) / 2 <= r -> (nth, nph) = (nth0, nph0)).
  Proof.
    intros Hr Hq A B. set (e1 := sqrt ((2 * PI * rad / IZR nth0) * (2 * PI * rad / IZR nth0) + (2 * PI * rad / IZR nph0) * (2 * PI * rad / IZR nph0)) / 2).
    unfold mesh_sphere. cbn [refined_sphere]. replace ((nth0 =? 0)%Z || (nph0 =? 0)%Z) with false by (symmetry; rewrite !orb_false_iff, !Z.eqb_neq; lia).
    unfold hypot. fold e1. destruct (Rltb r e1) eqn:E.
    - apply Rltb_true in E. rewrite Reqb_false by lra. cbn [bind].
      assert (S2 : 0 < sqrt 2) by (apply sqrt_lt_R0; lra). assert (SS : sqrt 2 * sqrt 2 = 2) by (apply sqrt_sqrt; lra). assert (D : 0 < sqrt 2 * r) by now apply Rmult_lt_0_compat.
      assert (PP := PI_RGT_0). set (x := 2 * PI * rad). assert (Hx : 0 < x) by (unfold x; apply Rmult_lt_0_compat; [lra|exact Hr]).
      assert (Px : 0 < x / (sqrt 2 * r)) by now apply Rdiv_lt_0_compat. assert (K := proj1 (ceil_spec (x / (sqrt 2 * r)))). set (a := ceil (x / (sqrt 2 * r))) in *.
      assert (Ia : 0 < IZR a) by lra. assert (Za : (0 < a)%Z) by now apply lt_IZR.
      assert (L : 0 < x / IZR a <= sqrt 2 * r).
      { split; [now apply Rdiv_lt_0_compat|]. apply Rmult_le_reg_r with (IZR a); [assumption|]. unfold Rdiv at 1. rewrite Rmult_assoc, Rinv_l, Rmult_1_r by lra.
        replace x with (sqrt 2 * r * (x / (sqrt 2 * r))) at 1 by (field; split; lra). apply Rmult_le_compat_l; lra. }
      exists a, a. split; [exact Za|]. split; [exact Za|]. split; [reflexivity|]. split; [|intros; lra].
      assert (sqrt (x / IZR a * (x / IZR a) + x / IZR a * (x / IZR a)) <= 2 * r); [|lra]. rewrite <- (sqrt_square (2 * r)) by lra. apply sqrt_le_1_alt.
      assert (x / IZR a * (x / IZR a) <= (sqrt 2 * r) * (sqrt 2 * r)) by (apply Rmult_le_compat; lra).
      assert ((sqrt 2 * r) * (sqrt 2 * r) = 2 * (r * r)) by (transitivity ((sqrt 2 * sqrt 2) * (r * r)); [ring|rewrite SS; reflexivity]). lra.
    - assert (E' : e1 <= r) by (destruct (Rle_or_lt e1 r); [assumption|]; rewrite (proj2 (Rltb_true _ _)) in E by assumption; discriminate). cbn [bind]. exists nth0, nph0. split; [exact A|]. split; [exact B|]. split; [reflexivity|]. split; [exact E'|reflexivity].
  Qed.
End Limits.
(** An octahedron. *)
Lemma octahedron : reasonable_sphere 1 2 4.
Proof.
  assert (E4 : PI / INR 4 = PI / 4) by (cbn; f_equal; ring). assert (E2 : PI / INR 2 = PI / 2) by reflexivity. assert (E24 : PI / (2 * INR 2) = PI / 4) by (cbn; f_equal; ring).
  assert (S2 : 0 < sqrt 2) by (apply sqrt_lt_R0; lra). assert (SS : sqrt 2 * sqrt 2 = 2) by (apply sqrt_sqrt; lra).
  assert (L1 : 1 <= sqrt 2) by nra. assert (L2 : sqrt 2 <= 2) by nra.
  assert (ES : sin (PI / 4) = sqrt 2 / 2) by (rewrite sin_PI4; apply Rmult_eq_reg_r with (sqrt 2); [|lra]; field_simplify; [|lra]; rewrite <- Rsqr_pow2; unfold Rsqr; lra).
  assert (EC : cos (PI / 4) * cos (PI / 4) = / 2) by (rewrite cos_PI4; unfold Rdiv; rewrite !Rmult_1_l, <- Rinv_mult, SS; reflexivity).
  assert (P0 : sphere_profile 1 2 0 = (0, -1)) by (unfold sphere_profile; replace (PI * INR 0 / INR 2) with 0 by (cbn; field); rewrite sin_0, cos_0; f_equal; ring).
  assert (P1 : sphere_profile 1 2 1 = (1, 0)) by (unfold sphere_profile; replace (PI * INR 1 / INR 2) with (PI / 2) by (cbn; field); rewrite sin_PI2, cos_PI2; f_equal; ring).
  assert (P2 : sphere_profile 1 2 2 = (0, 1)) by (unfold sphere_profile; replace (PI * INR 2 / INR 2) with PI by (cbn; field); rewrite sin_PI, cos_PI; f_equal; ring).
  assert (Q1 : 1 <= sqrt (3 / 2)) by (rewrite <- sqrt_1 at 1; apply sqrt_le_1_alt; lra). assert (SQ : sqrt (3 / 2) * sqrt (3 / 2) = 3 / 2) by (apply sqrt_sqrt; lra). assert (Q2 : sqrt (3 / 2) <= 2) by nra.
  assert (Q3 : 1 * 1 <= sqrt 2 * sqrt (3 / 2) <= 2 * 2) by (split; apply Rmult_le_compat; lra).
  assert (AR : forall i, (i < 2)%nat -> / 2 <= strip_area (sphere_profile 1 2 i) (sphere_profile 1 2 (S i)) 4 <= 2).
  { intros i Hi. unfold strip_area. rewrite E4, ES, EC. destruct i as [|[|i]]; [| |lia]; rewrite ?P0, ?P1, ?P2; cbn [fst snd].
    - match goal with |- context [sqrt (?x + ?y)] => replace (x + y) with (3 / 2) by field end. split; lra.
    - match goal with |- context [sqrt (?x + ?y)] => replace (x + y) with (3 / 2) by field end. split; lra. }
  unfold reasonable_sphere. rewrite E4, E24, E2, ES, sin_PI2. split; [lra|]. split; [lia|]. split; [lia|]. split; [lra|]. split; [lra|]. split.
  - intros i Hi. pose proof (AR i Hi). lra.
  - intros i i' Hi Hi'. pose proof (AR i Hi). pose proof (AR i' Hi'). lra.
Qed.
