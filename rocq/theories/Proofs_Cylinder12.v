(** The radiuses of the panels of vertical cylinders. *)
From Coq Require Import Reals List Bool Arith Lia Lra Permutation ZArith.
From Verif Require Import Model_Base Model_Geometry Model_Mesh Model_Clip Spec_Mesh Spec_Tree Spec_Clip Model_Tree Model_Body Spec_Body
  Proofs_Geometry Proofs_Mesh Proofs_Clip4 Proofs_Clip7 Model_Integrals Spec_Integrals Proofs_Integrals
  Model_Quality Spec_Quality Proofs_Quality Spec_Grid Model_Grid Proofs_Grid Proofs_Grid7
  Proofs_Dataset Proofs_Problem Model_Box Model_Cylinder Spec_Cylinder Proofs_Cylinder4 Proofs_Cylinder7 Proofs_Cylinder8 Proofs_Cylinder9 Proofs_Cylinder10 Proofs_Cylinder11 Proofs_Sphere2 Proofs_Sphere3.
Import ListNotations.
Open Scope R_scope.

Section Cylinders.
  Variable argsort : list R -> list nat.
  Hypothesis Hs : sorts argsort.
  Variable set_order : list nat -> list nat.
  Hypothesis Ho : forall l, Permutation l (set_order l).
  Lemma cylinder_props len rad c nr nt nz axial refl r : reasonable_cylinder len rad nr nt nz -> (0 < nr)%nat -> (0 < nz)%nat -> axial && refl = false -> (refl = true -> Nat.even nt = true) ->
    0 < r -> (rad / INR nr) * (rad / INR nr) + (2 * PI * rad / INR nt) * (2 * PI * rad / INR nt) <= 4 * (r * r) -> (2 * PI * rad / INR nt) * (2 * PI * rad / INR nt) + (len / INR nz) * (len / INR nz) <= 4 * (r * r) ->
    exists t ps, mesh_vertical_cylinder argsort set_order len rad c (Z.of_nat nr) (Z.of_nat nt) (Z.of_nat nz) None axial refl = Ok t
      /\ t_props t = Ok ps /\ length ps = ((nr + nz + nr) * nt)%nat /\ Forall (fun p => p_radius p <= 4 / 3 * r) ps.
  Proof.
    intros H Hnr Hnz Sy Ev R0 Q1 Q2. destruct (cylinder_ok argsort Hs set_order Ho len rad c nr nt nz axial refl H Sy Ev) as (t & E & C & _). exists t.
    unfold is_cylinder in C. pose proof H as (Hl & Hr & HT & _ & _ & _ & _ & Hsz & _). replace (Nat.max 1 nz) with nz in * by lia.
    apply same_made in C. destruct C as (F & S & M).
    assert (N0 : 0 < INR nr) by (apply lt_0_INR; lia). assert (Z0 : 0 < INR nz) by (apply lt_0_INR; lia). assert (T0 : 0 < INR nt) by (apply lt_0_INR; lia). pose proof PI_RGT_0 as Pp.
    destruct (revolved_props (fun p => p_radius p <= 4 / 3 * r) t _ (nr + nz + nr) nt F M) as (ps & A & B & D); [|exists ps; auto].
    intros i j q Hi Hj Sq. cbn beta.
    assert (Sn : 0 < sin (PI / INR nt) <= PI / INR nt) by (split; [pose proof (sin_least nt 1 ltac:(lia) ltac:(lia)); lra|apply sin_below; left; apply Rdiv_lt_0_compat; lra]).
    assert (RS : rstep rad nr = rad / INR nr) by (unfold rstep; replace (Nat.max 1 nr) with nr by lia; reflexivity).
    assert (W : forall k, (k <= nr + nz + nr)%nat -> 0 <= fst (cylinder_profile len rad nr nz k) <= rad).
    { intros k Hk. rewrite (prof_is len rad nr nz Hnz k Hk), RS. cbn [fst]. assert (rcount nr nz k <= nr)%nat as L by (unfold rcount; destruct (Nat.eqb_spec nr 0); lia). apply le_INR in L. pose proof (pos_INR (rcount nr nz k)).
      assert (0 < rad / INR nr) by (apply Rdiv_lt_0_compat; lra). split; [apply Rmult_le_pos; lra|]. replace rad with (INR nr * (rad / INR nr)) at 2 by (field; lra). apply Rmult_le_compat_r; lra. }
    set (w := PI * rad / INR nt). assert (Ew : 2 * PI * rad / INR nt = 2 * w) by (unfold w, Rdiv; ring). rewrite Ew in Q1, Q2.
    assert (W' : forall k, (k <= nr + nz + nr)%nat -> fst (cylinder_profile len rad nr nz k) * sin (PI / INR nt) <= w).
    { intros k Hk. specialize (W k Hk). replace w with (rad * (PI / INR nt)) by (unfold w, Rdiv; ring). apply Rmult_le_compat; lra. }
    assert (G : exists h, (4 / 9 * ((snd (cylinder_profile len rad nr nz (Datatypes.S i)) - snd (cylinder_profile len rad nr nz i)) * (snd (cylinder_profile len rad nr nz (Datatypes.S i)) - snd (cylinder_profile len rad nr nz i)) + (fst (cylinder_profile len rad nr nz (Datatypes.S i)) - fst (cylinder_profile len rad nr nz i)) * (fst (cylinder_profile len rad nr nz (Datatypes.S i)) - fst (cylinder_profile len rad nr nz i))) <= h * h) /\ w * w + h * h <= (4 / 3 * r) * (4 / 3 * r)).
    { rewrite !(prof_is len rad nr nz Hnz) by lia. rewrite RS. unfold zstep. cbn [fst snd].
      assert (Cs : (zcount nr nz (Datatypes.S i) = zcount nr nz i /\ (rcount nr nz (Datatypes.S i) = Datatypes.S (rcount nr nz i) \/ Datatypes.S (rcount nr nz (Datatypes.S i)) = rcount nr nz i))
                   \/ (zcount nr nz (Datatypes.S i) = Datatypes.S (zcount nr nz i) /\ rcount nr nz (Datatypes.S i) = rcount nr nz i)).
      { unfold zcount, rcount. destruct (Nat.eqb_spec nr 0); [lia|]. destruct (Nat.lt_ge_cases i nr); [left; lia|]. destruct (Nat.lt_ge_cases i (nr + nz)); [right; lia|left; lia]. }
      destruct Cs as [[Ez Er]|[Ez Er]].
      - exists (2 / 3 * (rad / INR nr)). rewrite Ez. split.
        + assert (X : (INR (rcount nr nz (Datatypes.S i)) - INR (rcount nr nz i)) * (INR (rcount nr nz (Datatypes.S i)) - INR (rcount nr nz i)) = 1) by (destruct Er as [Er|Er]; [rewrite Er|rewrite <- Er]; rewrite S_INR; ring).
          right. transitivity (4 / 9 * ((INR (rcount nr nz (Datatypes.S i)) - INR (rcount nr nz i)) * (INR (rcount nr nz (Datatypes.S i)) - INR (rcount nr nz i))) * (rad / INR nr * (rad / INR nr))); [field; lra|rewrite X; field; lra].
        + pose proof (Rle_0_sqr w) as X. unfold Rsqr in X. lra.
      - exists (2 / 3 * (len / INR nz)). rewrite Ez, Er, S_INR. split; [right; field; lra|]. pose proof (Rle_0_sqr w) as X. unfold Rsqr in X. lra. }
    destruct G as (h & G1 & G2). eapply Rle_trans; [apply (panel_radius_most c (cylinder_profile len rad nr nz) nt 0 i j HT (proj1 (W i ltac:(lia))) (proj1 (W (Datatypes.S i) ltac:(lia))) (Hsz i Hi) w h q (W' i ltac:(lia)) (W' (Datatypes.S i) ltac:(lia)) G1 Sq)|].
    rewrite <- (sqrt_square (4 / 3 * r)) by lra. apply sqrt_le_1_alt. exact G2.
  Qed.
  (** A long triangle. *)
  Lemma made_panel t qs q : filled t -> made_of t qs -> In q qs -> exists ps q', t_props t = Ok ps /\ same_polygon q q' /\ In (face_of q') ps.
  Proof.
    intros F (q1 & q2 & Tq & Pm & S) Hq. exists (map face_of q2). apply (Permutation_in _ Pm) in Hq. destruct (In_nth_error _ _ Hq) as [k Hk]. apply Forall2_nth in S. destruct S as [Ls S].
    destruct (nth_error q2 k) as [p|] eqn:Ep; [|apply nth_error_None in Ep; assert (k < length q1)%nat by (apply nth_error_Some; congruence); lia].
    exists p. split; [now apply tree_props|]. split; [exact (S _ _ _ Hk Ep)|]. apply in_map. eapply nth_error_In. exact Ep.
  Qed.
End Cylinders.
Lemma twelve : sin (PI / 12) * sin (PI / 12) = (1 - sqrt 3 / 2) / 2 /\ cos (PI / 12) * cos (PI / 12) = (1 + sqrt 3 / 2) / 2 /\ / 5 <= sin (PI / 12) <= / 3 /\ 17 / 10 <= sqrt 3 <= 18 / 10.
Proof.
  assert (C6 : cos (2 * (PI / 12)) = sqrt 3 / 2) by (replace (2 * (PI / 12)) with (PI / 6) by field; apply cos_PI6).
  assert (S3 : sqrt 3 * sqrt 3 = 3) by (apply sqrt_sqrt; lra). pose proof (sqrt_pos 3) as P3.
  assert (B3 : 17 / 10 <= sqrt 3 <= 18 / 10) by (split; nra).
  pose proof (cos_2a_sin (PI / 12)) as E1. pose proof (cos_2a_cos (PI / 12)) as E2. rewrite C6 in E1, E2.
  assert (A1 : sin (PI / 12) * sin (PI / 12) = (1 - sqrt 3 / 2) / 2) by lra. assert (A2 : cos (PI / 12) * cos (PI / 12) = (1 + sqrt 3 / 2) / 2) by lra.
  split; [exact A1|]. split; [exact A2|]. split; [|exact B3].
  assert (0 < sin (PI / 12)) by (pose proof PI_RGT_0; apply sin_gt_0; lra). split; nra.
Qed.
Lemma twelve_sides : reasonable_cylinder 1 1 1 12 1.
Proof.
  assert (E12 : PI / INR 12 = PI / 12) by (cbn; f_equal; ring). destruct twelve as (S2 & C2 & B1 & B3).
  assert (C1 : 9 / 10 <= sqrt ((1 + sqrt 3 / 2) / 2) <= 1).
  { assert (X : sqrt ((1 + sqrt 3 / 2) / 2) * sqrt ((1 + sqrt 3 / 2) / 2) = (1 + sqrt 3 / 2) / 2) by (apply sqrt_sqrt; lra). pose proof (sqrt_pos ((1 + sqrt 3 / 2) / 2)). split; nra. }
  assert (AR : forall i, (i < 3)%nat -> / 10 <= strip_area (cylinder_profile 1 1 1 1 i) (cylinder_profile 1 1 1 1 (S i)) 12 <= 1).
  { intros i Hi. unfold strip_area. rewrite E12, C2. destruct i as [|[|[|i]]]; [| | |lia]; unfold cylinder_profile; cbn [Nat.ltb Nat.leb fst snd INR Nat.sub Nat.add].
    - match goal with |- context [sqrt (?x + ?y)] => replace (x + y) with ((1 + sqrt 3 / 2) / 2) by field end. split; nra.
    - match goal with |- context [sqrt (?x + ?y)] => replace (x + y) with 1 by field end. rewrite sqrt_1. split; nra.
    - match goal with |- context [sqrt (?x + ?y)] => replace (x + y) with ((1 + sqrt 3 / 2) / 2) by field end. split; nra. }
  unfold reasonable_cylinder. rewrite E12. change (INR (Nat.max 1 1)) with 1. split; [lra|]. split; [lra|]. split; [lia|]. split; [lia|]. split; [lra|]. split; [lra|]. split; [lra|]. split.
  - intros i Hi. pose proof (AR i Hi). change (Nat.max 1 1) with 1%nat. lra.
  - intros i i' Hi Hi'. pose proof (AR i Hi). pose proof (AR i' Hi'). change (Nat.max 1 1) with 1%nat. lra.
Qed.
Lemma half_hypot x r : 0 <= x -> 0 < r -> (sqrt x / 2 <= r <-> x <= 4 * (r * r)).
Proof.
  intros X H. pose proof (sqrt_sqrt x X). pose proof (sqrt_pos x). split; intros L.
  - assert (sqrt x <= 2 * r) by lra. nra.
  - assert (sqrt x <= sqrt (2 * r * (2 * r))) by (apply sqrt_le_1_alt; lra). rewrite sqrt_square in H2 by lra. lra.
Qed.
Section Radius.
  Variable argsort : list R -> list nat.
  Hypothesis Hs : sorts argsort.
  Variable set_order : list nat -> list nat.
  Hypothesis Ho : forall l, Permutation l (set_order l).
  Lemma cylinder_radius_most len rad c nr0 nt0 nz0 r axial refl : 0 < len -> 0 < rad -> 0 < r -> (0 < nr0)%Z -> (0 < nt0)%Z -> (0 < nz0)%Z -> axial && refl = false ->
    exists nr nt nz, (0 < nr)%Z /\ (0 < nt)%Z /\ (0 < nz)%Z
      /\ mesh_vertical_cylinder argsort set_order len rad c nr0 nt0 nz0 (Some r) axial refl = mesh_vertical_cylinder argsort set_order len rad c nr nt nz None axial refl
      /\ (sqrt ((rad / IZR nr0) * (rad / IZR nr0) + (2 * PI * rad / IZR nt0) * (2 * PI * rad / IZR nt0)) / 2 <= r ->
          sqrt ((2 * PI * rad / IZR nt0) * (2 * PI * rad / IZR nt0) + (len / IZR nz0) * (len / IZR nz0)) / 2 <= r -> (nr, nt, nz) = (nr0, nt0, nz0))
      /\ (reasonable_cylinder len rad (Z.to_nat nr) (Z.to_nat nt) (Z.to_nat nz) -> (refl = true -> Z.even nt = true) ->
          exists t ps, mesh_vertical_cylinder argsort set_order len rad c nr0 nt0 nz0 (Some r) axial refl = Ok t
            /\ t_props t = Ok ps /\ ps <> [] /\ Forall (fun p => p_radius p <= 4 / 3 * r) ps).
  Proof.
    intros Hl Hr Hq A B C Sy. destruct (cylinder_radius argsort set_order len rad c nr0 nt0 nz0 r axial refl Hl Hr Hq A B C) as (nr & nt & nz & P1 & P2 & P3 & E & R1 & R2 & K).
    exists nr, nt, nz. split; [exact P1|]. split; [exact P2|]. split; [exact P3|]. split; [exact E|]. split; [exact K|]. intros H Ev.
    assert (SQ : forall x, 0 <= x * x) by (intros x; apply Rle_0_sqr).
    apply half_hypot in R1; [|pose proof (SQ (rad / IZR nr)); pose proof (SQ (2 * PI * rad / IZR nt)); lra|exact Hq].
    apply half_hypot in R2; [|pose proof (SQ (len / IZR nz)); pose proof (SQ (2 * PI * rad / IZR nt)); lra|exact Hq].
    destruct (cylinder_props argsort Hs set_order Ho len rad c (Z.to_nat nr) (Z.to_nat nt) (Z.to_nat nz) axial refl r H) as (t & ps & Et & Ep & Lp & Fp); try lia; try assumption.
    - intros X. specialize (Ev X). apply Z.even_spec in Ev. apply Nat.even_spec. destruct Ev as [k ->]. exists (Z.to_nat k). lia.
    - rewrite !INR_IZR_INZ, !Z2Nat.id by lia. exact R1.
    - rewrite !INR_IZR_INZ, !Z2Nat.id by lia. exact R2.
    - rewrite !Z2Nat.id in Et by lia. rewrite E. exists t, ps. split; [exact Et|]. split; [exact Ep|]. split; [|exact Fp]. intros ->. cbn in Lp. nia.
  Qed.
  Lemma cylinder_radius_more : exists t ps p, mesh_vertical_cylinder argsort set_order 1 1 v0 1 12 1 (Some (61 / 100)) false false = Ok t /\ t_props t = Ok ps /\ In p ps /\ 61 / 100 < p_radius p.
  Proof.
    destruct (cylinder_radius argsort set_order 1 1 v0 1 12 1 (61 / 100) false false) as (nr & nt & nz & P1 & P2 & P3 & E & _ & _ & K); try lra; try lia.
    pose proof PI_4 as P4. pose proof PI_RGT_0 as P0.
    assert (B : (2 * PI * 1 / 12) * (2 * PI * 1 / 12) <= 4 / 9) by (assert (0 <= 2 * PI * 1 / 12 <= 2 / 3) by lra; nra).
    assert (Q : (nr, nt, nz) = (1, 12, 1)%Z).
    { apply K; apply half_hypot; try lra; pose proof (Rle_0_sqr (2 * PI * 1 / 12)) as X; unfold Rsqr in X; lra. }
    injection Q as -> -> ->. rewrite E.
    destruct (cylinder_ok argsort Hs set_order Ho 1 1 v0 1 12 1 false false twelve_sides eq_refl ltac:(discriminate)) as (t & Et & C & _).
    apply same_made in C. destruct C as (F & _ & M).
    assert (I0 : In (revolved_panel (node v0 (cylinder_profile 1 1 1 1) 12 0) 0 0) (revolved (node v0 (cylinder_profile 1 1 1 (Nat.max 1 1)) 12 0) (1 + Nat.max 1 1 + 1) 12)) by (left; reflexivity).
    destruct (made_panel t _ _ F M I0) as (ps & q & Ep & Sq & Iq). exists t, ps, (face_of q). split; [exact Et|]. split; [exact Ep|]. split; [exact Iq|].
    pose proof twelve_sides as (_ & _ & _ & _ & _ & _ & _ & Hsz & _).
    assert (Z0 : 0 <= fst (cylinder_profile 1 1 1 1 0)) by (apply (prof_pos 1 1 1 1); [lra|lia|lia]). assert (Z1 : 0 <= fst (cylinder_profile 1 1 1 1 1)) by (apply (prof_pos 1 1 1 1); [lra|lia|lia]).
    pose proof (panel_radius_least v0 (cylinder_profile 1 1 1 1) 12 0 0 0 ltac:(lia) Z0 Z1 (Hsz 0%nat ltac:(lia)) q Sq) as L.
    assert (E12 : PI / INR 12 = PI / 12) by (cbn; f_equal; ring). destruct twelve as (S2 & C2 & B1 & B3). rewrite E12, C2 in L. unfold cylinder_profile in L. cbn [Nat.ltb Nat.leb fst snd INR Nat.sub Nat.add] in L.
    match type of L with context [sqrt (?x + ?y)] => replace (x + y) with ((1 + sqrt 3 / 2) / 2) in L by field end.
    assert (X : sqrt ((1 + sqrt 3 / 2) / 2) * sqrt ((1 + sqrt 3 / 2) / 2) = (1 + sqrt 3 / 2) / 2) by (apply sqrt_sqrt; lra). pose proof (sqrt_pos ((1 + sqrt 3 / 2) / 2)).
    assert (Y : 96 / 100 <= sqrt ((1 + sqrt 3 / 2) / 2)) by nra.
    match type of L with ?a * _ <= _ => replace a with (2 / 3) in L by field end. lra.
  Qed.
End Radius.
