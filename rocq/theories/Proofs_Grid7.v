From Coq Require Import Reals List Bool Arith ZArith Lia Lra Permutation.
From Verif Require Import Model_Base Model_Geometry Model_Mesh Model_Clip Spec_Mesh Spec_Tree Spec_Clip Model_Tree Model_Body Spec_Body
  Proofs_Geometry Proofs_Mesh Proofs_Problem Model_Quality Spec_Quality Model_Grid Spec_Grid Proofs_Grid Proofs_Grid2 Proofs_Grid3 Proofs_Grid4 Proofs_Grid5 Proofs_Grid6.
Import ListNotations.
Open Scope R_scope.

(** ** The number of panels *)
Lemma ceil_spec x : x <= IZR (ceil x) < x + 1.
Proof.
  unfold ceil. rewrite minus_IZR. destruct (archimed (- x)) as [A B]. change (IZR 1) with 1. lra.
Qed.
Lemma half_diagonal a b r : 0 <= r -> 0 <= a -> 0 <= b -> a <= sqrt 2 * r -> b <= sqrt 2 * r -> sqrt (a * a + b * b) / 2 <= r.
Proof.
  intros Hr A B Ha Hb. assert (S2 : sqrt 2 * sqrt 2 = 2) by (apply sqrt_sqrt; lra).
  assert (a * a <= 2 * (r * r)) by (replace (2 * (r * r)) with ((sqrt 2 * r) * (sqrt 2 * r)) by (rewrite <- S2 at 3; ring); apply Rmult_le_compat; assumption).
  assert (b * b <= 2 * (r * r)) by (replace (2 * (r * r)) with ((sqrt 2 * r) * (sqrt 2 * r)) by (rewrite <- S2 at 3; ring); apply Rmult_le_compat; assumption).
  assert (sqrt (a * a + b * b) <= 2 * r); [|lra]. rewrite <- (sqrt_square (2 * r)) by lra. apply sqrt_le_1_alt. lra.
Qed.
Lemma ceil_cut w s : 0 < w -> 0 < s -> (0 < ceil (w / s))%Z /\ w / IZR (ceil (w / s)) <= s /\ (w / 2 <= w / IZR (ceil (w / s)) \/ s / 2 <= w / IZR (ceil (w / s))).
Proof.
  intros Hw Hs. destruct (ceil_spec (w / s)) as [A B]. assert (P : 0 < w / s) by (apply Rdiv_lt_0_compat; assumption).
  assert (Pc : 0 < IZR (ceil (w / s))) by lra. split; [now apply lt_IZR|]. split.
  - apply (Rmult_le_reg_r (IZR (ceil (w / s)))); [exact Pc|]. unfold Rdiv at 1. rewrite Rmult_assoc, Rinv_l, Rmult_1_r by lra.
    apply (Rmult_le_compat_l s) in A; [|lra]. replace (s * (w / s)) with w in A by (field; lra). exact A.
  - destruct (Rle_dec (w / s) 1) as [L|L].
    + left. assert (IZR (ceil (w / s)) < 2) by lra. apply Rmult_le_compat_l; [lra|]. apply Rinv_le_contravar; lra.
    + right. apply (Rmult_le_reg_r (IZR (ceil (w / s)))); [exact Pc|]. unfold Rdiv at 3. rewrite Rmult_assoc, Rinv_l, Rmult_1_r by lra.
      apply Rle_trans with (s / 2 * (2 * (w / s))); [apply Rmult_le_compat_l; lra|]. right. field. lra.
Qed.
Lemma refined_radius w h nw0 nh0 r : 0 < w -> 0 < h -> (0 < nw0)%Z -> (0 < nh0)%Z -> 0 < r ->
  exists nw nh, refined w h nw0 nh0 (Some r) = Ok (nw, nh) /\ (0 < nw)%Z /\ (0 < nh)%Z
    /\ sqrt (w / IZR nw * (w / IZR nw) + h / IZR nh * (h / IZR nh)) / 2 <= r
    /\ (w / 2 <= w / IZR nw \/ sqrt 2 * r / 2 <= w / IZR nw \/ nw = nw0) /\ (h / 2 <= h / IZR nh \/ sqrt 2 * r / 2 <= h / IZR nh \/ nh = nh0).
Proof.
  intros Hw Hh Nw Nh Hr. unfold refined. destruct (Rltb r _) eqn:E.
  - assert (Reqb r 0 = false) as -> by (apply Reqb_false; lra).
    assert (S2 : 0 < sqrt 2 * r) by (apply Rmult_lt_0_compat; [apply sqrt_lt_R0; lra|exact Hr]).
    destruct (ceil_cut w _ Hw S2) as (A & B & Cw). destruct (ceil_cut h _ Hh S2) as (A' & B' & Ch).
    eexists _, _. split; [reflexivity|]. split; [exact A|]. split; [exact A'|]. split; [|split; [tauto|tauto]].
    apply half_diagonal; try assumption; try lra; apply Rlt_le, Rdiv_lt_0_compat; try assumption; now apply IZR_lt.
  - exists nw0, nh0. split; [reflexivity|]. split; [exact Nw|]. split; [exact Nh|]. split; [now apply Rltb_false|auto].
Qed.

(** ** The rectangle *)
Section Rectangle.
  Variable argsort : list R -> list nat.
  Hypothesis Hs : sorts argsort.
  Variable set_order : list nat -> list nat.
  Hypothesis Ho : forall l, Permutation l (set_order l).

  Lemma mesh_rectangle_ok w h c nw0 nh0 r n tr rf nw nh : 0 < w -> 0 < h -> (0 < nw0)%Z -> (0 < nh0)%Z ->
    refined w h nw0 nh0 r = Ok (Z.of_nat nw, Z.of_nat nh) -> (0 < nw)%nat -> (0 < nh)%nat -> / 1000000 <= w / INR nw -> / 1000000 <= h / INR nh ->
    unit_vector n -> alignable (if tr || rf then e_z else V (-1) 0 0) n -> tr && rf = false -> (rf = true -> Nat.even nw = true) -> (tr = true -> (2 <= nw)%nat) ->
    exists l t, mesh_rectangle argsort set_order w h c nw0 nh0 r n tr rf = Ok t /\ turns l (if tr || rf then e_z else V (-1) 0 0) n
      /\ is_rectangle w h nw nh c (l e_y) (l (if tr || rf then e_x else e_z)) n t.
  Proof.
    intros Pw Ph N0 M0 Er Nw Nh Hw Hh Un Al Nb Ev Tw. unfold mesh_rectangle, rectangle_checks. rewrite !(proj2 (Rltb_true _ _)) by assumption.
    rewrite !(proj2 (Z.ltb_lt 0 _)) by lia. cbn [andb negb]. rewrite Er. cbn [bind]. rewrite Nb.
    destruct rf.
    - rewrite orb_true_r in Al. specialize (Ev eq_refl). apply Nat.even_spec in Ev. destruct Ev as [k ->].
      assert (Z.of_nat (2 * k) mod 2 =? 1 = false)%Z as ->.
      { rewrite Nat2Z.inj_mul, Z.mul_comm, Z.mod_mul by discriminate. reflexivity. }
      replace (Z.of_nat (2 * k) / 2)%Z with (Z.of_nat k) by (rewrite Nat2Z.inj_mul, Z.mul_comm, Z.div_mul by discriminate; reflexivity).
      replace (2 * k)%nat with (k + k)%nat in * by lia.
      destruct (reflection_ok argsort Hs set_order Ho w h k nh c n) as (half & t0 & t & l & E1 & E2 & E3 & Fl & Fr & Lt & qss & C & Pm); try assumption; [lia|].
      change (V 0 0 1) with e_z. rewrite E1. cbn [bind]. rewrite E2. cbn [bind]. exists l, t. split; [exact E3|]. rewrite orb_true_r. split; [exact Lt|]. now apply (rectangle_props t qss).
    - destruct tr.
      + cbn [orb] in Al. specialize (Tw eq_refl). rewrite (proj2 (Z.eqb_neq _ _)) by lia.
        replace (Z.to_nat (Z.of_nat nw - 1)) with (nw - 1)%nat by lia. rewrite <- INR_IZR_INZ. change (V 0 0 1) with e_z.
        destruct (translation_ok argsort Hs set_order Ho w h nw nh c n) as (strip & t0 & t & l & E1 & E2 & E3 & Fl & Fr & Lt & qss & C & Pm); try assumption.
        rewrite E1. cbn [bind]. rewrite E2. cbn [bind]. exists l, t. split; [exact E3|]. cbn [orb]. split; [exact Lt|]. now apply (rectangle_props t qss).
      + cbn [orb] in Al. destruct (grid_rectangle_ok w h nw nh Nw Nh Hw Hh) as (m & Em & _). rewrite Em. cbn [bind].
        destruct (finish_leaf argsort Hs set_order Ho w h nw nh Nw Nh Hw Hh c n m Em Un Al) as (l & m' & E & Fr & Lt & C).
        exists l, (Leaf m'). split; [exact E|]. split; [exact Lt|]. apply (rectangle_props (Leaf m') [cells (rectangle_node c (l e_y) (l e_z) w h nw nh) nw nh]); try assumption.
        * constructor.
        * constructor; [exact C|constructor].
        * cbn. rewrite app_nil_r. apply Permutation_refl.
  Qed.

  (** The error branches. *)
  Lemma mesh_rectangle_errors w h c nw0 nh0 r n tr rf :
    (~ (0 < w /\ 0 < h /\ (0 < nw0)%Z /\ (0 < nh0)%Z) -> mesh_rectangle argsort set_order w h c nw0 nh0 r n tr rf = Err AssertionError)
    /\ (0 < w -> 0 < h -> (0 < nw0)%Z -> (0 < nh0)%Z -> forall nw nh, refined w h nw0 nh0 r = Ok (nw, nh) ->
        (tr = true -> rf = true -> mesh_rectangle argsort set_order w h c nw0 nh0 r n tr rf = Err NotImplementedError)
        /\ (tr = false -> rf = true -> Z.odd nw = true -> mesh_rectangle argsort set_order w h c nw0 nh0 r n tr rf = Err ValueError)).
  Proof.
    unfold mesh_rectangle, rectangle_checks. split.
    - intros H. destruct (Rltb 0 w) eqn:A; [|reflexivity]. destruct (Rltb 0 h) eqn:B; [|reflexivity].
      destruct (0 <? nw0)%Z eqn:C; [|reflexivity]. destruct (0 <? nh0)%Z eqn:D; [|reflexivity]. exfalso. apply H.
      apply Rltb_true in A, B. apply Z.ltb_lt in C, D. auto.
    - intros Pw Ph N0 M0 nw nh Er. rewrite !(proj2 (Rltb_true _ _)) by assumption. rewrite !(proj2 (Z.ltb_lt 0 _)) by lia. cbn [andb negb]. rewrite Er. cbn [bind].
      split; intros -> ->; cbn [andb]; [reflexivity|]. intros O. rewrite Zmod_odd, O. reflexivity.
  Qed.
  Lemma mesh_rectangle_one w h c nw0 nh0 r n nh : 0 < w -> 0 < h -> (0 < nw0)%Z -> (0 < nh0)%Z ->
    refined w h nw0 nh0 r = Ok (1%Z, Z.of_nat nh) -> (0 < nh)%nat -> / 1000000 <= w -> / 1000000 <= h / INR nh ->
    mesh_rectangle argsort set_order w h c nw0 nh0 r n true false = Err AssertionError.
  Proof.
    intros Pw Ph N0 M0 Er Nh Hw Hh. unfold mesh_rectangle, rectangle_checks. rewrite !(proj2 (Rltb_true _ _)) by assumption.
    rewrite !(proj2 (Z.ltb_lt 0 _)) by lia. cbn [andb negb]. rewrite Er. cbn [bind andb]. change ((1 =? 0)%Z) with false. cbn [andb].
    replace (w / 1) with w by field.
    destruct (simple_flat argsort Hs set_order Ho w h 1 nh) with (c := V 0 (- w / 2 + w / (2 * 1)) 0) as (m & Em & _); [lia|exact Nh|cbn [INR]; lra|exact Hh|exact Pw|exact Ph|].
    change (Z.of_nat 1) with 1%Z in Em. change (V 0 0 1) with e_z. rewrite Em. reflexivity.
  Qed.

  (** The radius is at most the requested one. *)
  Lemma mesh_rectangle_radius w h c nw0 nh0 r n tr rf t : / 500000 <= w -> / 500000 <= h -> (0 < nw0)%Z -> (0 < nh0)%Z ->
    / 1000000 <= w / IZR nw0 -> / 1000000 <= h / IZR nh0 -> / 500000 <= r -> unit_vector n -> alignable (if tr || rf then e_z else V (-1) 0 0) n ->
    mesh_rectangle argsort set_order w h c nw0 nh0 (Some r) n tr rf = Ok t ->
    exists nw nh u v, (0 < nw)%nat /\ (0 < nh)%nat /\ is_rectangle w h nw nh c u v n t /\ sqrt (w / INR nw * (w / INR nw) + h / INR nh * (h / INR nh)) / 2 <= r.
  Proof.
    intros Pw Ph N0 M0 Hw Hh Hr Un Al E.
    destruct (refined_radius w h nw0 nh0 r) as (nw & nh & Er & Nw & Nh & Hd & Cw & Ch); try assumption; try lra.
    assert (S2 : 1 <= sqrt 2) by (rewrite <- sqrt_1 at 1; apply sqrt_le_1_alt; lra).
    assert (Sr : / 1000000 <= sqrt 2 * r / 2) by nra.
    assert (Hw' : / 1000000 <= w / IZR nw) by (destruct Cw as [C|[C| ->]]; lra).
    assert (Hh' : / 1000000 <= h / IZR nh) by (destruct Ch as [C|[C| ->]]; lra).
    assert (X : tr && rf = false).
    { destruct tr, rf; try reflexivity. destruct (mesh_rectangle_errors w h c nw0 nh0 (Some r) n true true) as (_ & X).
      destruct (X ltac:(lra) ltac:(lra) N0 M0 _ _ Er) as [Y _]. rewrite Y in E by reflexivity. discriminate. }
    assert (Ev : rf = true -> Nat.even (Z.to_nat nw) = true).
    { intros ->. destruct tr; [discriminate|]. destruct (mesh_rectangle_errors w h c nw0 nh0 (Some r) n false true) as (_ & Y).
      destruct (Y ltac:(lra) ltac:(lra) N0 M0 _ _ Er) as [_ Z]. destruct (Z.odd nw) eqn:O; [rewrite Z in E by reflexivity; discriminate|].
      apply Nat.even_spec. rewrite <- Z.negb_even in O. apply negb_false_iff in O. apply Z.even_spec in O. destruct O as [k Hk]. exists (Z.to_nat k). lia. }
    assert (Tw : tr = true -> (2 <= Z.to_nat nw)%nat).
    { intros ->. destruct rf; [discriminate|]. destruct (Z.eq_dec nw 1) as [-> |]; [|lia].
      rewrite (mesh_rectangle_one w h c nw0 nh0 (Some r) n (Z.to_nat nh)) in E; try assumption; try lra; try lia; [discriminate|rewrite Z2Nat.id by lia; exact Er|].
      rewrite INR_IZR_INZ, Z2Nat.id by lia. exact Hh'. }
    destruct (mesh_rectangle_ok w h c nw0 nh0 (Some r) n tr rf (Z.to_nat nw) (Z.to_nat nh)) as (l & t' & E' & _ & R'); try assumption; try lra; try lia;
      [rewrite !Z2Nat.id by lia; exact Er|rewrite INR_IZR_INZ, Z2Nat.id by lia; assumption..|].
    eexists (Z.to_nat nw), (Z.to_nat nh), _, _. split; [lia|]. split; [lia|]. split; [|rewrite !INR_IZR_INZ, !Z2Nat.id by lia; exact Hd].
    rewrite E' in E. apply Ok_inj' in E. subst t'. exact R'.
  Qed.
  Lemma mesh_rectangle_returns w h c nw0 nh0 r n : / 500000 <= w -> / 500000 <= h -> (0 < nw0)%Z -> (0 < nh0)%Z ->
    / 1000000 <= w / IZR nw0 -> / 1000000 <= h / IZR nh0 -> / 500000 <= r -> unit_vector n -> alignable (V (-1) 0 0) n ->
    exists t, mesh_rectangle argsort set_order w h c nw0 nh0 (Some r) n false false = Ok t.
  Proof.
    intros Pw Ph N0 M0 Hw Hh Hr Un Al.
    destruct (refined_radius w h nw0 nh0 r) as (nw & nh & Er & Nw & Nh & Hd & Cw & Ch); try assumption; try lra.
    assert (S2 : 1 <= sqrt 2) by (rewrite <- sqrt_1 at 1; apply sqrt_le_1_alt; lra).
    assert (Sr : / 1000000 <= sqrt 2 * r / 2) by nra.
    assert (Hw' : / 1000000 <= w / IZR nw) by (destruct Cw as [C|[C| ->]]; lra).
    assert (Hh' : / 1000000 <= h / IZR nh) by (destruct Ch as [C|[C| ->]]; lra).
    destruct (mesh_rectangle_ok w h c nw0 nh0 (Some r) n false false (Z.to_nat nw) (Z.to_nat nh)) as (l & t' & E' & _); try assumption; try lra; try lia; try reflexivity; try discriminate;
      [rewrite !Z2Nat.id by lia; exact Er|rewrite INR_IZR_INZ, Z2Nat.id by lia; assumption..|]. eauto.
  Qed.
End Rectangle.
