From Coq Require Import Reals List Bool Arith ZArith Lia Lra Permutation.
From Verif Require Import Model_Base Model_Geometry Model_Mesh Model_Clip Spec_Mesh Spec_Tree Spec_Clip Model_Tree Model_Body Spec_Body
  Proofs_Geometry Proofs_Mesh Proofs_Mesh2 Proofs_Mesh3 Proofs_Clip4 Proofs_Clip5 Proofs_Problem Model_Integrals Spec_Integrals Proofs_Integrals Proofs_Tree Proofs_Tree2 Proofs_Body Proofs_Body2 Proofs_Body5
  Model_Quality Spec_Quality Proofs_Quality Model_Normals Spec_Normals Proofs_Normals4 Model_Grid Spec_Grid Proofs_Grid Proofs_Grid2 Proofs_Grid3 Proofs_Grid4 Proofs_Grid5 Proofs_Grid6 Proofs_Grid7
  Model_Box Spec_Box Proofs_Box Proofs_Box2 Proofs_Box3 Proofs_Box4 Proofs_Box5 Proofs_Box6.
Import ListNotations.
Open Scope R_scope.

(** ** The number of panels for a radius *)
Definition edge_kept (w : R) (n n0 : Z) (r : R) : Prop := w / 2 <= w / IZR n \/ sqrt 2 * r / 2 <= w / IZR n \/ n = n0.
Lemma refined_box_radius w t h nw0 nt0 nh0 r : 0 < w -> 0 < t -> 0 < h -> (0 < nw0)%Z -> (0 < nt0)%Z -> (0 < nh0)%Z -> 0 < r ->
  exists nw nt nh, refined_box w t h nw0 nt0 nh0 (Some r) = Ok (nw, nt, nh) /\ (0 < nw)%Z /\ (0 < nt)%Z /\ (0 < nh)%Z
    /\ hypot (w / IZR nw) (h / IZR nh) / 2 <= r /\ hypot (w / IZR nw) (t / IZR nt) / 2 <= r /\ hypot (t / IZR nt) (h / IZR nh) / 2 <= r
    /\ ((nw, nt, nh) = (nw0, nt0, nh0)
        \/ (w / IZR nw <= sqrt 2 * r /\ t / IZR nt <= sqrt 2 * r /\ h / IZR nh <= sqrt 2 * r
            /\ (w / 2 <= w / IZR nw \/ sqrt 2 * r / 2 <= w / IZR nw) /\ (t / 2 <= t / IZR nt \/ sqrt 2 * r / 2 <= t / IZR nt)
            /\ (h / 2 <= h / IZR nh \/ sqrt 2 * r / 2 <= h / IZR nh))).
Proof.
  intros Pw Pt Ph Nw Nt Nh Hr. unfold refined_box. cbv zeta.
  destruct (Rltb r _) eqn:E.
  - rewrite (Reqb_false r 0) by lra. assert (S2 : 0 < sqrt 2) by (apply sqrt_lt_R0; lra). assert (Sr : 0 < sqrt 2 * r) by (apply Rmult_lt_0_compat; lra).
    destruct (ceil_cut w (sqrt 2 * r) Pw Sr) as (A1 & A2 & A3). destruct (ceil_cut t (sqrt 2 * r) Pt Sr) as (B1 & B2 & B3). destruct (ceil_cut h (sqrt 2 * r) Ph Sr) as (C1 & C2 & C3).
    assert (D : forall x n, 0 < x -> (0 < n)%Z -> 0 <= x / IZR n) by (intros x n Hx Hn; apply IZR_lt in Hn; apply Rlt_le, Rdiv_lt_0_compat; lra).
    eexists _, _, _. split; [reflexivity|]. split; [exact A1|]. split; [exact B1|]. split; [exact C1|]. unfold hypot.
    split; [|split; [|split]]; [apply half_diagonal; auto; lra..|]. right. auto 6.
  - apply Rltb_false in E. eexists _, _, _. split; [reflexivity|]. split; [exact Nw|]. split; [exact Nt|]. split; [exact Nh|].
    pose proof (Rmax_l (Rmax (hypot (w / IZR nw0) (h / IZR nh0) / 2) (hypot (w / IZR nw0) (t / IZR nt0) / 2)) (hypot (t / IZR nt0) (h / IZR nh0) / 2)).
    pose proof (Rmax_r (Rmax (hypot (w / IZR nw0) (h / IZR nh0) / 2) (hypot (w / IZR nw0) (t / IZR nt0) / 2)) (hypot (t / IZR nt0) (h / IZR nh0) / 2)).
    pose proof (Rmax_l (hypot (w / IZR nw0) (h / IZR nh0) / 2) (hypot (w / IZR nw0) (t / IZR nt0) / 2)).
    pose proof (Rmax_r (hypot (w / IZR nw0) (h / IZR nh0) / 2) (hypot (w / IZR nw0) (t / IZR nt0) / 2)).
    split; [lra|]. split; [lra|]. split; [lra|]. now left.
Qed.

Section Box.
  Variable argsort : list R -> list nat.
  Hypothesis Hs : sorts argsort.
  Variable set_order : list nat -> list nat.
  Hypothesis Ho : forall l, Permutation l (set_order l).

  Lemma box_ok w t h c nw0 nt0 nh0 r missing rf tr nw nt nh : 0 < w -> 0 < t -> 0 < h -> (0 < nw0)%Z -> (0 < nt0)%Z -> (0 < nh0)%Z ->
    refined_box w t h nw0 nt0 nh0 r = Ok (Z.of_nat nw, Z.of_nat nt, Z.of_nat nh) -> (0 < nw)%nat -> (0 < nt)%nat -> (0 < nh)%nat ->
    / 1000000 <= w / INR nw -> / 1000000 <= t / INR nt -> / 1000000 <= h / INR nh ->
    comparable w t h nw nt nh (shown rf missing) -> existsb (shown rf missing) box_sides = true ->
    tr && rf = false -> (rf = true -> Nat.even nw = true /\ Nat.even nt = true) ->
    (tr = true -> (2 <= nw)%nat /\ existsb (shown rf missing) [FrontSide; BackSide; TopSide; BottomSide] = true) ->
    exists T, mesh_parallelepiped argsort set_order w t h c nw0 nt0 nh0 r missing rf tr = Ok T /\ filled T /\ is_box c w t h nw nt nh (shown rf missing) T.
  Proof.
    intros Pw Pt Ph N1 N2 N3 Er Nw Nt Nh Dw Dt Dh Cm Ex Sy Ev Tw. unfold mesh_parallelepiped, box_checks.
    rewrite !(proj2 (Rltb_true 0 _)) by assumption. rewrite !(proj2 (Z.ltb_lt 0 _)) by assumption. cbn [andb negb]. rewrite Er. cbn [bind]. rewrite Sy.
    destruct rf.
    - destruct (Ev eq_refl) as [Ew Et]. apply Nat.even_spec in Ew, Et. destruct Ew as [pw Ew], Et as [pt Et].
      replace (2 * pw)%nat with (pw + pw)%nat in Ew by lia. replace (2 * pt)%nat with (pt + pt)%nat in Et by lia.
      assert (X : forall n p, n = (p + p)%nat -> (Z.of_nat n mod 2 =? 1)%Z = false /\ (Z.of_nat n / 2)%Z = Z.of_nat p).
      { intros n p ->. replace (Z.of_nat (p + p)) with (Z.of_nat p * 2)%Z by lia. rewrite Z.mod_mul, Z.div_mul by discriminate. auto. }
      destruct (X _ _ Ew) as [-> ->], (X _ _ Et) as [-> ->]. cbn [orb].
      apply (reflected_ok argsort Hs set_order Ho w t h nw nt nh Nw Nt Nh Dw Dt Dh pw pt Ew Et missing c Cm Ex).
    - destruct tr.
      + destruct (Tw eq_refl) as [N Ex']. rewrite (proj2 (Z.eqb_neq _ _)) by lia. replace (Z.to_nat (Z.of_nat nw - 1)) with (nw - 1)%nat by lia. rewrite <- INR_IZR_INZ.
        apply (translated_ok argsort Hs set_order Ho w t h nw nt nh Nw Nt Nh Dw Dt Dh missing c N Cm).
        apply existsb_exists in Ex'. destruct Ex' as (s & Is & Ss). apply existsb_exists. exists s. split; [destruct s; cbn; tauto|].
        unfold shown in Ss. unfold without. destruct Is as [<-|[<-|[<-|[<-|[]]]]]; cbn [existsb orb]; now rewrite orb_false_r.
      + destruct (simple_ok' argsort Hs set_order Ho w t h nw nt nh c missing) as (m & ks & E & C & Nk & Ne & Ik); try assumption.
        exists (Leaf m). split; [exact E|]. split; [constructor|].
        apply (keyed_box c w t h nw nt nh Nw Nt Nh Dw Dt Dh (Leaf m) [ks]); [constructor|constructor; [exact C|constructor]|cbn [concat]; rewrite app_nil_r; exact Nk|].
        intros k. cbn [concat]. rewrite app_nil_r. apply Ik.
  Qed.

  (** ** Errors *)
  Lemma no_side w t h nw nt nh missing : existsb (fun s => negb (missing s)) box_sides = false -> merged_sides argsort set_order w t h nw nt nh missing = Err ValueError.
  Proof.
    intros E. unfold merged_sides. change [LeftSide; RightSide; FrontSide; BackSide; TopSide; BottomSide] with box_sides.
    assert (F : forall l, existsb (fun s => negb (missing s)) l = false -> filter (fun s => negb (missing s)) l = []).
    { induction l as [|a l IH]; cbn; [reflexivity|]. intros H. apply orb_false_elim in H. destruct H as [H1 H2]. rewrite H1. now apply IH. }
    rewrite F by exact E. reflexivity.
  Qed.
  Lemma box_errors w t h c nw0 nt0 nh0 r missing rf tr :
    (~ (0 < w /\ 0 < t /\ 0 < h /\ (0 < nw0)%Z /\ (0 < nt0)%Z /\ (0 < nh0)%Z) -> mesh_parallelepiped argsort set_order w t h c nw0 nt0 nh0 r missing rf tr = Err AssertionError)
    /\ (0 < w -> 0 < t -> 0 < h -> (0 < nw0)%Z -> (0 < nt0)%Z -> (0 < nh0)%Z -> forall nw nt nh, refined_box w t h nw0 nt0 nh0 r = Ok (nw, nt, nh) ->
        (0 < nw)%Z -> (0 < nt)%Z -> (0 < nh)%Z ->
        (tr && rf = true -> mesh_parallelepiped argsort set_order w t h c nw0 nt0 nh0 r missing rf tr = Err NotImplementedError)
        /\ (tr = false -> rf = true -> Z.odd nw || Z.odd nt = true -> mesh_parallelepiped argsort set_order w t h c nw0 nt0 nh0 r missing rf tr = Err ValueError)
        /\ (tr && rf = false -> existsb (shown rf missing) box_sides = false -> mesh_parallelepiped argsort set_order w t h c nw0 nt0 nh0 r missing rf tr = Err ValueError)
        /\ (tr = true -> rf = false -> existsb (shown rf missing) [FrontSide; BackSide; TopSide; BottomSide] = false ->
            mesh_parallelepiped argsort set_order w t h c nw0 nt0 nh0 r missing rf tr = Err ValueError)).
  Proof.
    split.
    - intros H. unfold mesh_parallelepiped, box_checks. destruct (Rltb 0 w) eqn:A; [|reflexivity]. destruct (Rltb 0 t) eqn:B; [|reflexivity]. destruct (Rltb 0 h) eqn:C; [|reflexivity].
      destruct (0 <? nw0)%Z eqn:D; [|reflexivity]. destruct (0 <? nt0)%Z eqn:D'; [|reflexivity]. destruct (0 <? nh0)%Z eqn:E'; [|reflexivity]. exfalso. apply H.
      apply Rltb_true in A, B, C. apply Z.ltb_lt in D, D', E'. auto 6.
    - intros Pw Pt Ph N1 N2 N3 nw nt nh Er Nw Nt Nh. unfold mesh_parallelepiped, box_checks.
      rewrite !(proj2 (Rltb_true 0 _)) by assumption. rewrite !(proj2 (Z.ltb_lt 0 _)) by assumption. cbn [andb negb]. rewrite Er. cbn [bind].
      assert (Strip : rf = false -> existsb (shown rf missing) [FrontSide; BackSide; TopSide; BottomSide] = false ->
        simple_box argsort set_order (w / IZR nw) t h 1 nt nh (V (- w / 2 + w / (2 * IZR nw)) 0 0) (without [LeftSide; RightSide] missing) = Err ValueError).
      { intros -> H. unfold simple_box, box_checks. rewrite !(proj2 (Rltb_true 0 _)); try assumption.
        - rewrite !(proj2 (Z.ltb_lt 0 _)) by (assumption || lia). cbn [andb negb]. rewrite no_side; [reflexivity|].
          unfold shown in H. unfold without. cbn [existsb box_sides] in *. rewrite ?orb_false_r, ?orb_true_r in *. cbn [negb orb] in *. rewrite <- H. reflexivity.
        - apply Rdiv_lt_0_compat; [assumption|]. now apply IZR_lt in Nw. }
      split; [|split; [|split]].
      + intros ->. reflexivity.
      + intros -> -> O. cbn [andb]. rewrite !Zmod_odd. destruct (Z.odd nw); [reflexivity|]. destruct (Z.odd nt); [reflexivity|discriminate].
      + intros Sy H. rewrite Sy. destruct rf.
        * destruct (_ || _) eqn:Ez; [reflexivity|]. apply orb_false_elim in Ez. destruct Ez as [Z1 Z2]. apply Z.eqb_neq in Z1, Z2.
          unfold simple_box, box_checks. rewrite !(proj2 (Rltb_true 0 _)) by lra.
          rewrite !(proj2 (Z.ltb_lt 0 _)); [|assumption|..]; [|apply Z.div_str_pos; split; [lia|]; pose proof (Z.mod_pos_bound nt 2); destruct (Z.eq_dec nt 1) as [->|]; [now cbn in Z2|lia]
            |apply Z.div_str_pos; split; [lia|]; destruct (Z.eq_dec nw 1) as [->|]; [now cbn in Z1|lia]].
          cbn [andb negb]. rewrite no_side; [reflexivity|]. unfold shown in H. unfold without. cbn [existsb box_sides] in *. rewrite ?orb_false_r, ?orb_true_r in *. cbn [negb orb] in *.
          destruct (missing LeftSide), (missing FrontSide), (missing TopSide), (missing BottomSide); cbn in *; reflexivity || discriminate.
        * destruct tr.
          -- rewrite (proj2 (Z.eqb_neq _ _)) by lia. rewrite Strip; [reflexivity|reflexivity|]. cbn [existsb box_sides] in *.
             destruct (shown false missing LeftSide); [discriminate|]. destruct (shown false missing RightSide); [discriminate|]. exact H.
          -- rewrite no_side; [reflexivity|exact H].
      + intros -> -> H. cbn [andb]. rewrite (proj2 (Z.eqb_neq _ _)) by lia. rewrite Strip; [reflexivity|reflexivity|exact H].
  Qed.
  (** A single strip cannot be repeated. *)
  Lemma box_one w t h c nw0 nt0 nh0 r missing nt nh : 0 < w -> 0 < t -> 0 < h -> (0 < nw0)%Z -> (0 < nt0)%Z -> (0 < nh0)%Z ->
    refined_box w t h nw0 nt0 nh0 r = Ok (1%Z, Z.of_nat nt, Z.of_nat nh) -> (0 < nt)%nat -> (0 < nh)%nat ->
    / 1000000 <= w -> / 1000000 <= t / INR nt -> / 1000000 <= h / INR nh -> comparable w t h 1 nt nh (shown false missing) ->
    existsb (shown false missing) [FrontSide; BackSide; TopSide; BottomSide] = true ->
    mesh_parallelepiped argsort set_order w t h c nw0 nt0 nh0 r missing false true = Err AssertionError.
  Proof.
    intros Pw Pt Ph N1 N2 N3 Er Nt Nh Dw Dt Dh Cm Ex. unfold mesh_parallelepiped, box_checks.
    rewrite !(proj2 (Rltb_true 0 _)) by assumption. rewrite !(proj2 (Z.ltb_lt 0 _)) by assumption. cbn [andb negb]. rewrite Er. cbn [bind]. change ((1 =? 0)%Z) with false. cbn iota.
    replace (w / 1) with w by field. unfold simple_box. change 1%Z with (Z.of_nat 1). rewrite checks_ok by (assumption || lia). cbn [negb].
    destruct (simple_ok' argsort Hs set_order Ho w t h 1 nt nh (V (- w / 2 + w / (2 * IZR (Z.of_nat 1))) 0 0) (without [LeftSide; RightSide] missing)) as (m & ks & -> & _); try assumption; [lia|change (INR 1) with 1; lra| | |reflexivity].
    - intros s s' H1 H2. apply Cm; [revert H1|revert H2]; unfold without, shown; rewrite !negb_true_iff; intros E; apply orb_false_elim in E; tauto.
    - apply existsb_exists in Ex. destruct Ex as (s & Is & Ss). apply existsb_exists. exists s. split; [destruct s; cbn; tauto|].
      unfold shown in Ss. unfold without. destruct Is as [<-|[<-|[<-|[<-|[]]]]]; cbn [existsb orb]; now rewrite orb_false_r.
  Qed.

  (** ** The maximal radius *)
  Lemma box_counts w t h nw0 nt0 nh0 r : / 500000 <= w -> / 500000 <= t -> / 500000 <= h -> (0 < nw0)%Z -> (0 < nt0)%Z -> (0 < nh0)%Z ->
    / 1000000 <= w / IZR nw0 -> / 1000000 <= t / IZR nt0 -> / 1000000 <= h / IZR nh0 -> / 500000 <= r -> r <= w -> r <= t -> r <= h ->
    comparable w t h (Z.to_nat nw0) (Z.to_nat nt0) (Z.to_nat nh0) (fun _ => true) ->
    exists nw nt nh, refined_box w t h nw0 nt0 nh0 (Some r) = Ok (Z.of_nat nw, Z.of_nat nt, Z.of_nat nh) /\ (0 < nw)%nat /\ (0 < nt)%nat /\ (0 < nh)%nat
      /\ / 1000000 <= w / INR nw /\ / 1000000 <= t / INR nt /\ / 1000000 <= h / INR nh
      /\ comparable w t h nw nt nh (fun _ => true)
      /\ forall s, let '(a, b) := side_edges w t h nw nt nh s in sqrt (a * a + b * b) / 2 <= r.
  Proof.
    intros Pw Pt Ph N1 N2 N3 Dw Dt Dh Hr Rw Rt Rh Cm.
    destruct (refined_box_radius w t h nw0 nt0 nh0 r) as (nw & nt & nh & Er & Nw & Nt & Nh & R1 & R2 & R3 & K); try assumption; try lra.
    assert (Iw : forall n, (0 < n)%Z -> INR (Z.to_nat n) = IZR n) by (intros n Hn; rewrite INR_IZR_INZ, Z2Nat.id by lia; reflexivity).
    exists (Z.to_nat nw), (Z.to_nat nt), (Z.to_nat nh). rewrite !Z2Nat.id by lia. split; [exact Er|]. split; [lia|]. split; [lia|]. split; [lia|]. rewrite !Iw by assumption.
    assert (Fin : forall s, let '(a, b) := side_edges w t h (Z.to_nat nw) (Z.to_nat nt) (Z.to_nat nh) s in sqrt (a * a + b * b) / 2 <= r)
      by (intros s; unfold hypot in *; destruct s; cbn [side_edges]; rewrite !Iw by assumption; assumption).
    destruct K as [K|(W1 & T1 & H1 & W2 & T2 & H2)].
    - injection K as -> -> ->. auto.
    - assert (S2 : 1 <= sqrt 2) by (rewrite <- sqrt_1 at 1; apply sqrt_le_1_alt; lra).
      assert (S4 : sqrt 2 <= 2) by (replace 2 with (sqrt (2 * 2)) at 2 by (apply sqrt_square; lra); apply sqrt_le_1_alt; lra).
      assert (Q1 : r / 2 <= sqrt 2 * r / 2) by nra. assert (Q2 : sqrt 2 * r <= 2 * r) by nra.
      assert (L1 : r / 2 <= w / IZR nw <= 2 * r) by (destruct W2; split; lra). assert (L2 : r / 2 <= t / IZR nt <= 2 * r) by (destruct T2; split; lra). assert (L3 : r / 2 <= h / IZR nh <= 2 * r) by (destruct H2; split; lra).
      split; [lra|]. split; [lra|]. split; [lra|]. split; [|exact Fin].
      assert (B : forall s, r / 2 * (r / 2) <= panel_area w t h (Z.to_nat nw) (Z.to_nat nt) (Z.to_nat nh) s <= 2 * r * (2 * r)).
      { intros s. unfold panel_area. destruct s; cbn [side_edges]; rewrite !Iw by assumption; split; apply Rmult_le_compat; lra. }
      intros s s' _ _. pose proof (B s) as B1. pose proof (B s') as B2. assert (0 < r * r) by (apply Rmult_lt_0_compat; lra). lra.
  Qed.
  Lemma comparable_some w t h nw nt nh present : comparable w t h nw nt nh (fun _ => true) -> comparable w t h nw nt nh present.
  Proof. intros C s s' _ _. now apply C. Qed.
  Lemma box_radius w t h c nw0 nt0 nh0 r missing rf tr T : / 500000 <= w -> / 500000 <= t -> / 500000 <= h -> (0 < nw0)%Z -> (0 < nt0)%Z -> (0 < nh0)%Z ->
    / 1000000 <= w / IZR nw0 -> / 1000000 <= t / IZR nt0 -> / 1000000 <= h / IZR nh0 -> / 500000 <= r -> r <= w -> r <= t -> r <= h ->
    comparable w t h (Z.to_nat nw0) (Z.to_nat nt0) (Z.to_nat nh0) (fun _ => true) ->
    mesh_parallelepiped argsort set_order w t h c nw0 nt0 nh0 (Some r) missing rf tr = Ok T ->
    exists nw nt nh, (0 < nw)%nat /\ (0 < nt)%nat /\ (0 < nh)%nat /\ existsb (shown rf missing) box_sides = true /\ filled T
      /\ is_box c w t h nw nt nh (shown rf missing) T /\ forall s, let '(a, b) := side_edges w t h nw nt nh s in sqrt (a * a + b * b) / 2 <= r.
  Proof.
    intros Pw Pt Ph N1 N2 N3 Dw Dt Dh Hr Rw Rt Rh Cm E.
    destruct (box_counts w t h nw0 nt0 nh0 r) as (nw & nt & nh & Er & Nw & Nt & Nh & Ew & Et & Eh & C & Rr); try assumption.
    destruct (box_errors w t h c nw0 nt0 nh0 (Some r) missing rf tr) as [_ X].
    destruct (X ltac:(lra) ltac:(lra) ltac:(lra) N1 N2 N3 _ _ _ Er ltac:(lia) ltac:(lia) ltac:(lia)) as (X1 & X2 & X3 & X4). clear X. rewrite E in *.
    assert (Sy : tr && rf = false) by (destruct (tr && rf); [discriminate (X1 eq_refl)|reflexivity]).
    assert (Ex : existsb (shown rf missing) box_sides = true) by (destruct (existsb (shown rf missing) box_sides); [reflexivity|discriminate (X3 Sy eq_refl)]).
    destruct (box_ok w t h c nw0 nt0 nh0 (Some r) missing rf tr nw nt nh) as (T' & E' & Fl & B); try assumption; try lra.
    - now apply comparable_some.
    - intros ->. destruct tr; [discriminate|]. specialize (X2 eq_refl eq_refl). destruct (Z.odd (Z.of_nat nw)) eqn:O1; [discriminate (X2 eq_refl)|]. destruct (Z.odd (Z.of_nat nt)) eqn:O2; [discriminate (X2 eq_refl)|].
      rewrite <- Z.negb_even in O1, O2. apply negb_false_iff in O1, O2. apply Z.even_spec in O1, O2. destruct O1 as [k O1], O2 as [k' O2]. split; apply Nat.even_spec; [exists (Z.to_nat k)|exists (Z.to_nat k')]; lia.
    - intros ->. destruct rf; [discriminate|]. specialize (X4 eq_refl eq_refl). destruct (existsb (shown false missing) [FrontSide; BackSide; TopSide; BottomSide]) eqn:E4; [|discriminate (X4 eq_refl)].
      split; [|reflexivity]. destruct (Nat.eq_dec nw 1) as [->|]; [|lia]. exfalso.
      rewrite (box_one w t h c nw0 nt0 nh0 (Some r) missing nt nh) in E; try assumption; try lra; [discriminate|]. now apply comparable_some.
    - exists nw, nt, nh. rewrite E' in E. apply Ok_inj' in E. subst T'. auto 7.
  Qed.
  Lemma box_radius_returns w t h c nw0 nt0 nh0 r missing : / 500000 <= w -> / 500000 <= t -> / 500000 <= h -> (0 < nw0)%Z -> (0 < nt0)%Z -> (0 < nh0)%Z ->
    / 1000000 <= w / IZR nw0 -> / 1000000 <= t / IZR nt0 -> / 1000000 <= h / IZR nh0 -> / 500000 <= r -> r <= w -> r <= t -> r <= h ->
    comparable w t h (Z.to_nat nw0) (Z.to_nat nt0) (Z.to_nat nh0) (fun _ => true) -> existsb (shown false missing) box_sides = true ->
    exists T, mesh_parallelepiped argsort set_order w t h c nw0 nt0 nh0 (Some r) missing false false = Ok T.
  Proof.
    intros Pw Pt Ph N1 N2 N3 Dw Dt Dh Hr Rw Rt Rh Cm Ex.
    destruct (box_counts w t h nw0 nt0 nh0 r) as (nw & nt & nh & Er & Nw & Nt & Nh & Ew & Et & Eh & C & Rr); try assumption.
    destruct (box_ok w t h c nw0 nt0 nh0 (Some r) missing false false nw nt nh) as (T' & E' & _ & B); try assumption; try lra; try discriminate; try reflexivity; [now apply comparable_some|eauto].
  Qed.
  (** The number of panels for the radius may be odd. *)
  Lemma box_odd c missing : mesh_parallelepiped argsort set_order 3 3 3 c 2 2 2 (Some 1) missing true false = Err ValueError.
  Proof.
    assert (S1 : 14 / 10 < sqrt 2) by (rewrite <- (sqrt_square (14/10)) by lra; apply sqrt_lt_1_alt; lra).
    assert (S2 : sqrt 2 < 15 / 10) by (rewrite <- (sqrt_square (15/10)) by lra; apply sqrt_lt_1_alt; lra).
    assert (C : ceil (3 / (sqrt 2 * 1)) = 3%Z).
    { pose proof (ceil_spec (3 / (sqrt 2 * 1))) as [A B]. assert (L1 : 2 < 3 / (sqrt 2 * 1)) by (apply (Rmult_lt_reg_r (sqrt 2)); [lra|]; replace (3 / (sqrt 2 * 1) * sqrt 2) with 3 by (field; lra); lra).
      assert (L2 : 3 / (sqrt 2 * 1) < 3) by (apply (Rmult_lt_reg_r (sqrt 2)); [lra|]; replace (3 / (sqrt 2 * 1) * sqrt 2) with 3 by (field; lra); lra).
      assert (2 < ceil (3 / (sqrt 2 * 1)))%Z by (apply lt_IZR; lra). assert (ceil (3 / (sqrt 2 * 1)) < 4)%Z by (apply lt_IZR; lra). lia. }
    assert (Er : refined_box 3 3 3 2 2 2 (Some 1) = Ok (3, 3, 3)%Z).
    { unfold refined_box. cbv zeta. rewrite (proj2 (Rltb_true _ _)).
      - rewrite (Reqb_false 1 0) by lra. rewrite C. reflexivity.
      - eapply Rlt_le_trans; [|apply Rmax_r]. unfold hypot. replace (3 / 2 * (3 / 2) + 3 / 2 * (3 / 2)) with (3 / 2 * (3 / 2) * 2) by lra.
        rewrite sqrt_mult by lra. rewrite sqrt_square by lra. lra. }
    destruct (box_errors 3 3 3 c 2 2 2 (Some 1) missing true false) as [_ X].
    destruct (X ltac:(lra) ltac:(lra) ltac:(lra) ltac:(lia) ltac:(lia) ltac:(lia) _ _ _ Er ltac:(lia) ltac:(lia) ltac:(lia)) as (_ & X2 & _). now apply X2.
  Qed.
End Box.
