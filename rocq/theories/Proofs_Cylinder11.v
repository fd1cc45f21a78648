(** The theorems about vertical cylinders. *)
From Coq Require Import Reals List Bool Arith Lia Lra Permutation ZArith.
From Verif Require Import Model_Base Model_Geometry Model_Mesh Model_Clip Spec_Mesh Spec_Tree Spec_Clip Model_Tree Model_Body Spec_Body
  Proofs_Geometry Proofs_Mesh Model_Integrals Spec_Integrals Proofs_Integrals
  Model_Quality Spec_Quality Proofs_Quality Spec_Grid Model_Grid Proofs_Grid Proofs_Grid7
  Proofs_Dataset Proofs_Problem Model_Box Model_Cylinder Spec_Cylinder Proofs_Cylinder4 Proofs_Cylinder7 Proofs_Cylinder8 Proofs_Cylinder9 Proofs_Cylinder10.
Import ListNotations.
Open Scope R_scope.

Lemma same_made prof n T c t : made_of_strips prof n T 0 c t <-> filled t /\ sound_parts t /\ made_of t (revolved (revolved_node c prof T) n T).
Proof.
  unfold made_of_strips. rewrite !strips_all. rewrite (strips_ext (node c prof T 0) (revolved_node c prof T)) by (intros; apply spec_node). reflexivity.
Qed.
Section Cylinders.
  Variable argsort : list R -> list nat.
  Hypothesis Hs : sorts argsort.
  Variable set_order : list nat -> list nat.
  Hypothesis Ho : forall l, Permutation l (set_order l).
  Lemma cylinder_ok len rad c nr nt nz axial refl : reasonable_cylinder len rad nr nt nz -> axial && refl = false -> (refl = true -> Nat.even nt = true) ->
    exists t, mesh_vertical_cylinder argsort set_order len rad c (Z.of_nat nr) (Z.of_nat nt) (Z.of_nat nz) None axial refl = Ok t
      /\ is_cylinder c len rad nr nt nz t /\ length (leaves t) = (if refl then 2 else if axial then nt else 1)%nat.
  Proof.
    intros (Hl & Hr & HT & Hside & Bz & Br & Bc & Hsz & Hcmp) Sy Ev.
    assert (Hz : (0 < Nat.max 1 nz)%nat) by lia.
    pose proof (nodes_spread len rad nr (Nat.max 1 nz) Hl Hr Hz v0 nt HT Bz Br Bc) as Hsp0.
    assert (Hsp : spread_nodes (node v0 (cylinder_profile len rad nr (Nat.max 1 nz)) nt 0) (nr + Nat.max 1 nz + nr) nt).
    { intros i j i' j' A B C D. rewrite !spec_node. now apply Hsp0. }
    unfold is_cylinder.
    destruct refl.
    - destruct axial; [discriminate|]. destruct (reflection_ok argsort Hs set_order Ho len rad nr nz nt Hl Hr HT Hside Hsz Hcmp Hsp c (Ev eq_refl)) as (t & E & M & L). exists t. rewrite <- same_made. auto.
    - destruct axial.
      + destruct (axial_ok argsort Hs set_order Ho len rad nr nz nt Hl Hr HT Hside Hsz Hcmp Hsp c) as (t & E & M & L). exists t. rewrite <- same_made. auto.
      + destruct (plain_ok argsort Hs set_order Ho len rad nr nz nt Hl Hr HT Hside Hsz Hcmp Hsp c) as (t & E & M & L). exists t. rewrite <- same_made. auto.
  Qed.
  Lemma cylinder_shut len rad c nr nt nz axial refl : reasonable_cylinder len rad nr nt nz -> (0 < nr)%nat -> axial && refl = false -> (refl = true -> Nat.even nt = true) ->
    exists t qs, mesh_vertical_cylinder argsort set_order len rad c (Z.of_nat nr) (Z.of_nat nt) (Z.of_nat nz) None axial refl = Ok t
      /\ proper_surface t qs /\ watertight qs /\ volume t = Ok (INR nt / 2 * sin (2 * PI / INR nt) * (rad * rad) * len).
  Proof.
    intros H Hn Sy Ev. destruct (cylinder_ok len rad c nr nt nz axial refl H Sy Ev) as (t & E & C & _). destruct H as (Hl & Hr & HT & Hside & Bz & Br & Bc & Hsz & Hcmp).
    destruct (cylinder_closed len rad nr nz nt Hl Hr HT Hside Hsz c t Hn (proj2 (same_made _ _ _ _ _) C)) as (qs & A & B & D). eauto 6.
  Qed.
  Lemma cylinder_errors len rad c nr nt nz r axial refl :
    (~ (0 < len /\ 0 < rad /\ (0 <= nr)%Z /\ (0 <= nt)%Z /\ (0 <= nz)%Z) -> mesh_vertical_cylinder argsort set_order len rad c nr nt nz r axial refl = Err AssertionError)
    /\ (0 < len -> 0 < rad -> (0 <= nr)%Z -> (0 <= nt)%Z -> (0 <= nz)%Z ->
        (axial && refl = true -> mesh_vertical_cylinder argsort set_order len rad c nr nt nz None axial refl = Err NotImplementedError)
        /\ (axial = false -> refl = true -> Z.odd nt = true -> mesh_vertical_cylinder argsort set_order len rad c nr nt nz None axial refl = Err ValueError)
        /\ ((nr = 0 \/ nt = 0 \/ nz = 0)%Z -> forall q, r = Some q -> mesh_vertical_cylinder argsort set_order len rad c nr nt nz r axial refl = Err ZeroDivisionError)).
  Proof.
    split.
    - intros H. unfold mesh_vertical_cylinder. replace (cylinder_checks len rad nr nt nz) with false; [reflexivity|]. symmetry. apply not_true_iff_false. intros E. apply H. unfold cylinder_checks in E.
      rewrite !andb_true_iff in E. destruct E as [[[[A B] C] D] F]. apply Rltb_true in A, B. apply Z.leb_le in C, D, F. auto 6.
    - intros Hl Hr A B C. assert (Ck : cylinder_checks len rad nr nt nz = true).
      { unfold cylinder_checks. rewrite !(proj2 (Rltb_true 0 _)) by assumption. rewrite !(proj2 (Z.leb_le 0 _)) by lia. reflexivity. }
      unfold mesh_vertical_cylinder. rewrite Ck. cbn [negb refined_cylinder bind]. split; [|split].
      + intros E. rewrite andb_comm in E. now rewrite E.
      + intros -> -> Od. cbn [andb]. rewrite Zmod_odd, Od. reflexivity.
      + intros Z0 q ->. cbn [refined_cylinder]. replace ((nr =? 0)%Z || (nt =? 0)%Z || (nz =? 0)%Z) with true; [reflexivity|]. symmetry. rewrite !orb_true_iff, !Z.eqb_eq. tauto.
  Qed.
  Lemma cylinder_radius len rad c nr0 nt0 nz0 r axial refl : 0 < len -> 0 < rad -> 0 < r -> (0 < nr0)%Z -> (0 < nt0)%Z -> (0 < nz0)%Z ->
    exists nr nt nz, (0 < nr)%Z /\ (0 < nt)%Z /\ (0 < nz)%Z
      /\ mesh_vertical_cylinder argsort set_order len rad c nr0 nt0 nz0 (Some r) axial refl = mesh_vertical_cylinder argsort set_order len rad c nr nt nz None axial refl
      /\ sqrt ((rad / IZR nr) * (rad / IZR nr) + (2 * PI * rad / IZR nt) * (2 * PI * rad / IZR nt)) / 2 <= r
      /\ sqrt ((2 * PI * rad / IZR nt) * (2 * PI * rad / IZR nt) + (len / IZR nz) * (len / IZR nz)) / 2 <= r
      /\ (sqrt ((rad / IZR nr0) * (rad / IZR nr0) + (2 * PI * rad / IZR nt0) * (2 * PI * rad / IZR nt0)) / 2 <= r ->
          sqrt ((2 * PI * rad / IZR nt0) * (2 * PI * rad / IZR nt0) + (len / IZR nz0) * (len / IZR nz0)) / 2 <= r -> (nr, nt, nz) = (nr0, nt0, nz0)).
  Proof.
    intros Hl Hr Hq A B C.
    assert (CK : forall a b d, (0 < a)%Z -> (0 < b)%Z -> (0 < d)%Z -> cylinder_checks len rad a b d = true).
    { intros. unfold cylinder_checks. rewrite !(proj2 (Rltb_true 0 _)) by assumption. rewrite !(proj2 (Z.leb_le 0 _)) by lia. reflexivity. }
    set (e1 := sqrt ((rad / IZR nr0) * (rad / IZR nr0) + (2 * PI * rad / IZR nt0) * (2 * PI * rad / IZR nt0)) / 2).
    set (e2 := sqrt ((2 * PI * rad / IZR nt0) * (2 * PI * rad / IZR nt0) + (len / IZR nz0) * (len / IZR nz0)) / 2).
    unfold mesh_vertical_cylinder. rewrite CK by assumption. cbn [refined_cylinder]. 
    replace ((nr0 =? 0)%Z || (nt0 =? 0)%Z || (nz0 =? 0)%Z) with false by (symmetry; rewrite !orb_false_iff, !Z.eqb_neq; lia).
    unfold hypot. fold e1 e2. destruct (Rltb r (Rmax e1 e2)) eqn:E.
    - apply Rltb_true in E. rewrite Reqb_false by lra. cbn [negb bind].
      assert (S2 : 0 < sqrt 2) by (apply sqrt_lt_R0; lra). assert (SS : sqrt 2 * sqrt 2 = 2) by (apply sqrt_sqrt; lra). assert (D : 0 < sqrt 2 * r) by now apply Rmult_lt_0_compat.
      assert (PP := PI_RGT_0).
      assert (CE : forall x, 0 < x -> (0 < ceil (x / (sqrt 2 * r)))%Z /\ 0 < x / IZR (ceil (x / (sqrt 2 * r))) <= sqrt 2 * r).
      { intros x Hx. assert (Px : 0 < x / (sqrt 2 * r)) by now apply Rdiv_lt_0_compat. assert (K := proj1 (ceil_spec (x / (sqrt 2 * r)))).
        assert (0 < IZR (ceil (x / (sqrt 2 * r)))) by lra. split; [now apply lt_IZR|]. split; [now apply Rdiv_lt_0_compat|].
        apply Rmult_le_reg_r with (IZR (ceil (x / (sqrt 2 * r)))); [assumption|]. unfold Rdiv at 1. rewrite Rmult_assoc, Rinv_l, Rmult_1_r by lra.
        replace x with (sqrt 2 * r * (x / (sqrt 2 * r))) at 1 by (field; split; lra). apply Rmult_le_compat_l; lra. }
      destruct (CE rad Hr) as (Zr & Lr). destruct (CE len Hl) as (Zz & Lz). destruct (CE (PI * rad)) as (Zt & Lt); [now apply Rmult_lt_0_compat|].
      set (a := ceil (rad / (sqrt 2 * r))) in *. set (b := ceil (PI * rad / (sqrt 2 * r))) in *. set (d := ceil (len / (sqrt 2 * r))) in *.
      assert (Ib : 0 < IZR b) by now apply IZR_lt.
      assert (Et : 2 * PI * rad / IZR (2 * b) = PI * rad / IZR b) by (rewrite mult_IZR; field; lra).
      assert (HY : forall x y, 0 < x <= sqrt 2 * r -> 0 < y <= sqrt 2 * r -> sqrt (x * x + y * y) / 2 <= r).
      { intros x y Hx Hy. assert (sqrt (x * x + y * y) <= 2 * r); [|lra]. rewrite <- (sqrt_square (2 * r)) by lra. apply sqrt_le_1_alt.
        assert (x * x <= (sqrt 2 * r) * (sqrt 2 * r)) by (apply Rmult_le_compat; lra). assert (y * y <= (sqrt 2 * r) * (sqrt 2 * r)) by (apply Rmult_le_compat; lra).
        assert ((sqrt 2 * r) * (sqrt 2 * r) = 2 * (r * r)) by (replace ((sqrt 2 * r) * (sqrt 2 * r)) with (sqrt 2 * sqrt 2 * (r * r)) by ring; rewrite SS; ring). lra. }
      exists a, (2 * b)%Z, d. rewrite CK by lia. rewrite Et. cbn [negb]. repeat (split; [first [lia|reflexivity|apply HY; assumption]|]).
      intros E1 E2. exfalso. apply Rmax_case_strong with (P := fun m => r < m -> False) in E; auto; lra.
    - assert (E' : Rmax e1 e2 <= r) by (destruct (Rle_or_lt (Rmax e1 e2) r); [assumption|]; rewrite (proj2 (Rltb_true _ _)) in E by assumption; discriminate).
      pose proof (Rmax_l e1 e2). pose proof (Rmax_r e1 e2). exists nr0, nt0, nz0. rewrite CK by assumption. repeat (split; [first [assumption|reflexivity|fold e1; lra|fold e2; lra]|]). reflexivity.
  Qed.
End Cylinders.
(** A square section. *)
Lemma square_section : reasonable_cylinder 1 1 1 4 1.
Proof.
  assert (E4 : PI / INR 4 = PI / 4) by (cbn; f_equal; ring).
  assert (S2 : 0 < sqrt 2) by (apply sqrt_lt_R0; lra). assert (SS : sqrt 2 * sqrt 2 = 2) by (apply sqrt_sqrt; lra).
  assert (L1 : 1 <= sqrt 2) by nra. assert (L2 : sqrt 2 <= 2) by nra.
  assert (ES : sin (PI / 4) = sqrt 2 / 2) by (rewrite sin_PI4; apply Rmult_eq_reg_r with (sqrt 2); [|lra]; field_simplify; [|lra]; rewrite <- Rsqr_pow2; unfold Rsqr; lra).
  assert (EC : cos (PI / 4) * cos (PI / 4) = / 2) by (rewrite cos_PI4; unfold Rdiv; rewrite !Rmult_1_l, <- Rinv_mult, SS; reflexivity).
  assert (AR : forall i, (i < 3)%nat -> / 2 <= strip_area (cylinder_profile 1 1 1 1 i) (cylinder_profile 1 1 1 1 (S i)) 4 <= 2).
  { assert (Q : sqrt (/ 2) = sqrt 2 / 2) by (apply sqrt_lem_1; nra).
    intros i Hi. unfold strip_area. rewrite E4, ES, EC. destruct i as [|[|[|i]]]; [| | |lia]; unfold cylinder_profile; cbn [Nat.ltb Nat.leb fst snd INR Nat.sub Nat.add].
    - match goal with |- context [sqrt (?x + ?y)] => replace (x + y) with (/ 2) by field end. rewrite Q. split; nra.
    - match goal with |- context [sqrt (?x + ?y)] => replace (x + y) with 1 by field end. rewrite sqrt_1. split; nra.
    - match goal with |- context [sqrt (?x + ?y)] => replace (x + y) with (/ 2) by field end. rewrite Q. split; nra. }
  unfold reasonable_cylinder. rewrite E4, ES. change (INR (Nat.max 1 1)) with 1. split; [lra|]. split; [lra|]. split; [lia|]. split; [lia|]. split; [lra|]. split; [lra|]. split; [lra|]. split.
  - intros i Hi. pose proof (AR i Hi). change (Nat.max 1 1) with 1%nat. lra.
  - intros i i' Hi Hi'. pose proof (AR i Hi). pose proof (AR i' Hi'). change (Nat.max 1 1) with 1%nat. lra.
Qed.
