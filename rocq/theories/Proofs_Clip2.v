(** The pieces of a polygon, for each position of its polygon_corners. *)
From Coq Require Import Reals List Bool ZArith Arith Lra Lia.
From Verif Require Import Model_Base Model_Geometry Model_Mesh Spec_Mesh Spec_Clip Proofs_Geometry Model_Clip Proofs_Clip.
Import ListNotations.
Open Scope R_scope.

Section Pieces.
  Variable p : plane.
  Notation D := (height p).

  (** One piece: what has to be shown. *)
  Lemma clips_one q g : (forall x, In x (polygon_corners g) -> hull q x /\ D x <= 0) ->
    (forall x, hull q x -> D x < 0 -> hull g x) -> (exists k, 0 < k /\ area_of g = vscale k (area_of q)) ->
    (exists x, In x (polygon_corners q) /\ 0 < D x) -> clips p q [g].
  Proof.
    intros Hc Hcov Ho (y & Iy & Hy). destruct g as [[[g1 g2] g3] g4]. cbn [polygon_corners] in Hc.
    split; [|split; [|split; [|split]]].
    - intros g x [<-|[]] Hx. split.
      + apply (hull_sub q g1 g2 g3 g4); try apply Hc; cbn; auto.
      + apply (hull_low p g1 g2 g3 g4); try apply Hc; cbn; auto.
    - intros x Hx Lx. eexists. split; [now left|]. now apply Hcov.
    - intros g [<-|[]]. exact Ho.
    - intros _ [|[|i]] [|[|j]] g g'; cbn; intros N E E'; try discriminate; now elim N.
    - intros Hl. specialize (Hl y Iy). lra.
  Qed.
  Lemma clips_keep q g : (forall x, hull g x <-> hull q x) -> (forall x, In x (polygon_corners q) -> D x <= 0) ->
    (exists k, 0 < k /\ area_of g = vscale k (area_of q)) -> clips p q [g].
  Proof.
    intros He Hl Ho. destruct q as [[[a b] c] d]. cbn [polygon_corners] in Hl.
    split; [|split; [|split; [|split]]].
    - intros g' x [<-|[]] Hx. apply He in Hx. split; [exact Hx|].
      apply (hull_low p a b c d); try apply Hl; cbn; auto.
    - intros x Hx Lx. eexists. split; [now left|]. now apply He.
    - intros g' [<-|[]]. exact Ho.
    - intros _ [|[|i]] [|[|j]] g1 g'; cbn; intros N E E'; try discriminate; now elim N.
    - intros _ _. exists g. now split.
  Qed.
  Lemma clips_same q : (forall x, In x (polygon_corners q) -> D x <= 0) -> clips p q [q].
  Proof.
    intros H. apply clips_keep; [reflexivity|exact H|]. exists 1. split; [lra|]. apply vec_ext; cbn; ring.
  Qed.
  Lemma clips_drop q : (forall x, In x (polygon_corners q) -> 0 <= D x) -> clips p q [].
  Proof.
    destruct q as [[[a b] c] d]. cbn [polygon_corners]. intros H. split; [|split; [|split; [|split]]].
    - intros g x [].
    - intros x Hx Lx. assert (0 <= D x); [|lra]. apply (hull_high p a b c d); try apply H; cbn; auto.
    - intros g [].
    - intros _ [|i] j g g' _; cbn; discriminate.
    - intros Hl (x & Ix & Lx). specialize (H x Ix). lra.
  Qed.
  (** The same polygon from another corner. *)
  Lemma clips_source q q' gs : (forall x, hull q' x <-> hull q x) -> (forall x, In x (polygon_corners q') <-> In x (polygon_corners q)) ->
    area_of q' = area_of q -> clips p q' gs -> clips p q gs.
  Proof.
    intros Hh Hc Ha (C1 & C2 & C3 & C4 & C5). split; [|split; [|split; [|split]]].
    - intros g x Hg Hx. destruct (C1 g x Hg Hx) as [A B]. split; [now apply Hh|exact B].
    - intros x Hx. apply C2. now apply Hh.
    - intros g Hg. rewrite <- Ha. now apply C3.
    - rewrite <- Ha. exact C4.
    - intros H1 (x & H2 & H3). destruct C5 as (g & E & Hg).
      + intros y Hy. apply H1. now apply Hc.
      + exists x. split; [now apply Hc|exact H3].
      + exists g. split; [exact E|]. intros y. rewrite Hg. apply Hh.
  Qed.
  Lemma area_roll a b c d : area_vector b c d a = area_vector a b c d.
  Proof. unfold area_vector. apply vec_ext; cbn; ring. Qed.
  Lemma clips_roll a b c d gs : clips p (b, c, d, a) gs -> clips p (a, b, c, d) gs.
  Proof.
    apply clips_source.
    - intros x. apply hull_roll.
    - intros x. cbn. tauto.
    - apply area_roll.
  Qed.
  Lemma clips_roll3 a b c gs : clips p (b, c, a, b) gs -> clips p (a, b, c, a) gs.
  Proof.
    apply clips_source.
    - intros x. rewrite <- !hull_h3. split; intros (u & v & w & Hu & Hv & Hw & E & ->);
        [exists w, u, v|exists v, w, u]; repeat split; try lra; apply vec_ext; cbn; ring.
    - intros x. cbn. tauto.
    - cbn. unfold area_vector. apply vec_ext; cbn; ring.
  Qed.
  Lemma clips_same_roll3 a b c : (forall x, In x [a; b; c] -> D x <= 0) -> clips p (a, b, c, a) [(a, b, c, a)].
  Proof. intros H. apply clips_same. cbn in *. intros x Hx. apply H. tauto. Qed.

  (** ** Triangles *)
  Lemma tri_piece_below a b c i j : D a < 0 -> 0 <= D b -> 0 <= D c -> (0 < D b \/ 0 < D c) -> crosses p a b i -> crosses p a c j ->
    clips p (a, b, c, a) [(j, a, i, j)].
  Proof.
    intros Ha Hb Hc Hp Hi Hj. apply clips_one.
    - pose proof (crosses_zero _ _ _ _ Hi) as Zi. pose proof (crosses_zero _ _ _ _ Hj) as Zj.
      assert (A : hull (a, b, c, a) a) by apply hull_1. assert (B : hull (a, b, c, a) b) by apply hull_2.
      assert (C : hull (a, b, c, a) c) by apply hull_3.
      assert (I : hull (a, b, c, a) i) by now apply (crosses_hull p _ a b).
      assert (J : hull (a, b, c, a) j) by now apply (crosses_hull p _ a c).
      cbn. intros x [<-|[<-|[<-|[<-|[]]]]]; split; auto; lra.
    - intros x Hx Lx. apply hull_h3'. apply (tri_one_below p a b c i j x); auto; [now apply hull_h3|lra].
    - destruct Hi as (t & Ht & -> & Et). destruct Hj as (s & Hs & -> & Es). exists (t * s). split; [nra|].
      cbn. unfold area_vector. apply vec_ext; cbn; ring.
    - cbn. destruct Hp; [exists b|exists c]; auto.
  Qed.
  Lemma crosses_lt a b i : crosses p a b i -> 0 < D a -> D b < 0 ->
    exists t, 0 < t < 1 /\ i = vadd (vscale (1 - t) a) (vscale t b) /\ D a + t * (D b - D a) = 0.
  Proof.
    intros (t & Ht & -> & Et) Ha Hb. exists t. split; [|now split]. split; [lra|].
    destruct (Req_dec t 1) as [->|]; lra.
  Qed.
  Lemma tri_piece_above a b c i j : 0 < D a -> D b < 0 -> D c < 0 -> crosses p a b i -> crosses p a c j ->
    clips p (a, b, c, a) [(i, b, c, j)].
  Proof.
    intros Ha Hb Hc Hi Hj. apply clips_one.
    - pose proof (crosses_zero _ _ _ _ Hi) as Zi. pose proof (crosses_zero _ _ _ _ Hj) as Zj.
      assert (A : hull (a, b, c, a) a) by apply hull_1. assert (B : hull (a, b, c, a) b) by apply hull_2.
      assert (C : hull (a, b, c, a) c) by apply hull_3.
      assert (I : hull (a, b, c, a) i) by now apply (crosses_hull p _ a b).
      assert (J : hull (a, b, c, a) j) by now apply (crosses_hull p _ a c).
      cbn. intros x [<-|[<-|[<-|[<-|[]]]]]; split; auto; lra.
    - intros x Hx Lx. apply (tri_one_above p a b c i j x); auto; [now apply hull_h3|lra].
    - destruct (crosses_lt _ _ _ Hi Ha Hb) as (t & Ht & -> & Et). destruct (crosses_lt _ _ _ Hj Ha Hc) as (s & Hs & -> & Es).
      exists (1 - t * s). split; [nra|].
      cbn. unfold area_vector. apply vec_ext; cbn; ring.
    - exists a. cbn. auto.
  Qed.

  (** ** Quadrangles *)
  Lemma quad_piece_below a b c d i j : diagonals_meet (a, b, c, d) -> D a < 0 -> 0 <= D b -> 0 <= D c -> 0 <= D d ->
    (0 < D b \/ 0 < D c \/ 0 < D d) -> crosses p a b i -> crosses p a d j ->
    clips p (a, b, c, d) [(j, a, i, j)].
  Proof.
    intros Hq Ha Hb Hc Hd Hp Hi Hj. apply clips_one.
    - pose proof (crosses_zero _ _ _ _ Hi) as Zi. pose proof (crosses_zero _ _ _ _ Hj) as Zj.
      assert (A : hull (a, b, c, d) a) by apply hull_1. assert (B : hull (a, b, c, d) b) by apply hull_2.
      assert (C : hull (a, b, c, d) c) by apply hull_3. assert (E : hull (a, b, c, d) d) by apply hull_4.
      assert (I : hull (a, b, c, d) i) by now apply (crosses_hull p _ a b).
      assert (J : hull (a, b, c, d) j) by now apply (crosses_hull p _ a d).
      cbn. intros x [<-|[<-|[<-|[<-|[]]]]]; split; auto; lra.
    - intros x Hx Lx. apply hull_h3'. destruct (split_quad _ _ _ _ _ Hq Hx) as [T|T].
      + apply (tri_one_below p a b d i j x); auto; lra.
      + exfalso. apply hull_h3 in T. assert (0 <= D x); [|lra]. apply (hull_high p b c d b); auto.
    - destruct Hi as (t & Ht & -> & Et). destruct Hj as (s & Hs & -> & Es).
      destruct Hq as (s' & t' & Hs' & Ht' & E).
      assert (Ed : d = vscale (/ t') (vsub (vadd (vscale (1 - s') a) (vscale s' c)) (vscale (1 - t') b))).
      { rewrite E. clear -Ht'. apply vec_ext; cbn; field; lra. }
      exists (t * s * s'). split; [apply Rmult_lt_0_compat; [nra|lra]|].
      cbn. rewrite Ed. unfold area_vector. apply vec_ext; cbn; field; lra.
    - cbn. destruct Hp as [H|[H|H]]; eexists; (split; [|exact H]); auto.
  Qed.

  Lemma two_crossings a b c d i j e s t : 0 < s < 1 -> 0 < t < 1 ->
    vadd (vscale (1 - s) a) (vscale s c) = vadd (vscale (1 - t) b) (vscale t d) ->
    0 < D a -> D b < 0 -> D c < 0 -> 0 <= D d -> crosses p b a i -> crosses p c d j -> crosses p a c e ->
    exists k, 0 <= k <= 1 /\ e = vadd (vscale (1 - k) i) (vscale k j).
  Proof.
    intros Hs Ht E Ha Hb Hc Hd (ti & Hti & -> & Ei) (tj & Htj & -> & Ej) (te & Hte & -> & Ee).
    assert (ED : (1 - s) * D a + s * D c = (1 - t) * D b + t * D d).
    { apply (f_equal (height p)) in E. rewrite !D_comb2 in E by lra. exact E. }
    assert (Ed : d = vscale (/ t) (vsub (vadd (vscale (1 - s) a) (vscale s c)) (vscale (1 - t) b))).
    { rewrite E. clear -Ht. apply vec_ext; cbn; field; lra. }
    set (A := (1 - t) / D a). set (B := t / (- D c)).
    set (wi := A * (D a - D b)). set (wj := B * (D d - D c)).
    assert (HA : 0 < A) by (apply Rdiv_lt_0_compat; lra). assert (HB : 0 < B) by (apply Rdiv_lt_0_compat; lra).
    assert (Hwi : 0 < wi) by (apply Rmult_lt_0_compat; lra). assert (Hwj : 0 < wj) by (apply Rmult_lt_0_compat; lra).
    exists (wj / (wi + wj)). split.
    { split; [apply Rmult_le_pos; [lra|left; apply Rinv_0_lt_compat; lra]|].
      apply (Rmult_le_reg_r (wi + wj)); [lra|]. unfold Rdiv. rewrite Rmult_assoc, Rinv_l by lra. lra. }
    assert (Tie : ti = - D b / (D a - D b)) by (apply (Rmult_eq_reg_r (D a - D b)); [field_simplify; lra|lra]).
    assert (Tje : tj = - D c / (D d - D c)) by (apply (Rmult_eq_reg_r (D d - D c)); [field_simplify; lra|lra]).
    assert (Tee : te = D a / (D a - D c)) by (apply (Rmult_eq_reg_r (D a - D c)); [field_simplify; lra|lra]).
    (* C = ((1-s) + A |Db|) / |Dc| = (s + B Dd) / Da, and wi + wj = C (Da + |Dc|) *)
    set (C := (s + B * D d) / D a).
    assert (EC1 : C * D a = s + B * D d) by (unfold C; field; lra).
    assert (EBc : B * D c = - t) by (unfold B; field; lra). assert (EAa : A * D a = 1 - t) by (unfold A; field; lra).
    assert (EC2 : C * (- D c) = (1 - s) + A * (- D b)).
    { apply (Rmult_eq_reg_r (D a)); [|lra].
      transitivity (C * D a * (- D c)); [ring|]. rewrite EC1.
      transitivity (- s * D c - (B * D c) * D d); [ring|]. rewrite EBc.
      transitivity ((1 - s) * D a - (A * D a) * D b); [rewrite EAa; lra|ring]. }
    assert (EW : wi + wj = C * (D a - D c)).
    { unfold wi, wj. transitivity (A * D a - A * D b + B * D d - B * D c); [ring|]. rewrite EAa, EBc.
      transitivity (C * D a + C * (- D c)); [rewrite EC1, EC2; ring|ring]. }
    assert (HC : 0 < C * (D a - D c)) by lra.
    assert (W1 : 1 - wj / (wi + wj) = wi / (wi + wj)) by (field; lra). rewrite W1.
    assert (Wi : wi * (1 - ti) = A * D a) by (rewrite Tie; unfold wi; field; lra).
    assert (Wi' : wi * ti = A * (- D b)) by (rewrite Tie; unfold wi; field; lra).
    assert (Wj : wj * (1 - tj) = B * D d) by (rewrite Tje; unfold wj; field; lra).
    assert (Wj' : wj * tj = B * (- D c)) by (rewrite Tje; unfold wj; field; lra).
    assert (We : (wi + wj) * (1 - te) = C * (- D c)) by (rewrite EW, Tee; field; lra).
    assert (We' : (wi + wj) * te = C * D a) by (rewrite EW, Tee; field; lra).
    assert (K : vscale (wi + wj) (vadd (vscale (1 - te) a) (vscale te c)) =
                vadd (vscale wi (vadd (vscale (1 - ti) b) (vscale ti a))) (vscale wj (vadd (vscale (1 - tj) c) (vscale tj d)))).
    { transitivity (vadd (vscale ((wi + wj) * (1 - te)) a) (vscale ((wi + wj) * te) c)); [apply vec_ext; cbn; ring|].
      transitivity (vadd (vadd (vscale (wi * (1 - ti)) b) (vscale (wi * ti) a)) (vadd (vscale (wj * (1 - tj)) c) (vscale (wj * tj) d)));
        [|apply vec_ext; cbn; ring].
      rewrite We, We', Wi, Wi', Wj, Wj', EC1, EC2, EAa. replace (B * - D c) with t by lra.
      rewrite Ed. apply vec_ext; cbn; field; lra. }
    apply (f_equal (vscale (/ (wi + wj)))) in K.
    transitivity (vscale (/ (wi + wj)) (vscale (wi + wj) (vadd (vscale (1 - te) a) (vscale te c)))).
    - apply vec_ext; cbn; field; lra.
    - rewrite K. apply vec_ext; cbn; field; lra.
  Qed.

  Lemma quad_piece_two a b c d i j : diagonals_meet (a, b, c, d) -> 0 <= D a -> D b < 0 -> D c < 0 -> 0 <= D d ->
    (0 < D a \/ 0 < D d) -> crosses p b a i -> crosses p c d j ->
    clips p (a, b, c, d) [(i, b, c, j)].
  Proof.
    intros Hq Ha Hb Hc Hd Hp Hi Hj.
    pose proof (crosses_zero _ _ _ _ Hi) as Zi. pose proof (crosses_zero _ _ _ _ Hj) as Zj.
    apply clips_one.
    - assert (A : hull (a, b, c, d) a) by apply hull_1. assert (B : hull (a, b, c, d) b) by apply hull_2.
      assert (C : hull (a, b, c, d) c) by apply hull_3. assert (E : hull (a, b, c, d) d) by apply hull_4.
      assert (I : hull (a, b, c, d) i) by now apply (crosses_hull p _ b a).
      assert (J : hull (a, b, c, d) j) by now apply (crosses_hull p _ c d).
      cbn. intros x [<-|[<-|[<-|[<-|[]]]]]; split; auto; lra.
    - intros x Hx Lx. pose proof Hq as (s & t & Hs & Ht & E).
      assert (T : h3 b c a x \/ h3 c d a x).
      { apply split_quad; [now apply diagonals_roll|]. now apply hull_roll. }
      assert (B : hull (i, b, c, j) b) by apply hull_2. assert (C : hull (i, b, c, j) c) by apply hull_3.
      assert (I : hull (i, b, c, j) i) by apply hull_1. assert (J : hull (i, b, c, j) j) by apply hull_4.
      destruct (Rle_lt_or_eq_dec 0 (D a) Ha) as [Pa|Na].
      + assert (exists e, crosses p a c e) as (e & He) by (exists (cut p a c); apply cut_crosses; auto).
        destruct (two_crossings a b c d i j e s t) as (k & Hk & Ee); auto.
        assert (He' : hull (i, b, c, j) e) by (rewrite Ee; now apply hull_segment).
        destruct T as [T|T].
        * assert (T' : hull (i, b, c, e) x).
          { apply (tri_one_above p a b c i e x); auto; [| |lra].
            - destruct Hi as (ti & Hti & -> & Ei). exists (1 - ti). split; [split; [|lra]|split; [apply vec_ext; cbn; ring|lra]].
              destruct (Req_dec ti 1) as [->|]; lra.
            - destruct T as (u & v & w & Hu & Hv & Hw & Eu & ->). exists w, u, v. repeat split; try lra. apply vec_ext; cbn; ring. }
          revert T'. now apply hull_sub.
        * assert (T' : h3 c e j x).
          { apply (tri_one_below p c a d e j x); auto; [| |lra].
            - destruct He as (te & Hte & -> & Ec). exists (1 - te). split; [split; [|lra]|split; [apply vec_ext; cbn; ring|lra]].
              destruct (Req_dec te 1) as [->|]; lra.
            - destruct T as (u & v & w & Hu & Hv & Hw & Eu & ->). exists u, w, v. repeat split; try lra. apply vec_ext; cbn; ring. }
          apply hull_h3 in T'. revert T'. now apply hull_sub.
      + assert (Ia : i = a).
        { destruct Hi as (ti & Hti & -> & Ei). assert (ti = 1) by (rewrite <- Na in Ei; nra). subst. apply vec_ext; cbn; ring. }
        subst i. destruct T as [T|T].
        * apply hull_h3 in T. revert T. now apply hull_sub.
        * assert (T' : h3 c j a x).
          { apply (tri_one_below p c d a j a x); auto; try lra. apply crosses_on. lra. }
          apply hull_h3 in T'. revert T'. now apply hull_sub.
    - destruct Hi as (ti & Hti & -> & Ei). destruct Hj as (tj & Htj & -> & Ej). destruct Hq as (s & t & Hs & Ht & E).
      assert (Ed : d = vscale (/ t) (vsub (vadd (vscale (1 - s) a) (vscale s c)) (vscale (1 - t) b))).
      { rewrite E. clear -Ht. apply vec_ext; cbn; field; lra. }
      exists ((1 - (1 - ti) * s) * (tj * (1 - t) + t) - (1 - ti) * t * (1 - tj) * (1 - s)). split.
      + assert (0 <= (1 - ti) * s <= 1 - ti) by nra. assert (0 < 1 - (1 - ti) * s) by lra.
        assert (0 < tj * (1 - t)) by nra.
        assert (0 < (1 - (1 - ti) * s) * (tj * (1 - t))) by now apply Rmult_lt_0_compat.
        assert (0 <= (1 - ti) * (1 - s)) by nra.
        assert ((1 - ti) * (1 - s) * (1 - tj) <= (1 - ti) * (1 - s)) by nra.
        assert (Q1 : (1 - ti) * (1 - s) * (1 - tj) <= 1 - (1 - ti) * s) by nra.
        assert (t * ((1 - ti) * (1 - s) * (1 - tj)) <= t * (1 - (1 - ti) * s)) by (apply Rmult_le_compat_l; lra).
        nra.
      + cbn. rewrite Ed. unfold area_vector. apply vec_ext; cbn; field; lra.
    - cbn. destruct Hp as [H|H]; eexists; (split; [|exact H]); auto.
  Qed.

  Lemma quad_piece_above a b c d i j : diagonals_meet (a, b, c, d) -> 0 < D a -> D b < 0 -> D c < 0 -> D d < 0 ->
    crosses p a b i -> crosses p a d j -> clips p (a, b, c, d) [(i, b, d, j); (b, c, d, b)].
  Proof.
    intros Hq Ha Hb Hc Hd Hi Hj.
    pose proof (crosses_zero _ _ _ _ Hi) as Zi. pose proof (crosses_zero _ _ _ _ Hj) as Zj.
    assert (A : hull (a, b, c, d) a) by apply hull_1. assert (B : hull (a, b, c, d) b) by apply hull_2.
    assert (C : hull (a, b, c, d) c) by apply hull_3. assert (E' : hull (a, b, c, d) d) by apply hull_4.
    assert (I : hull (a, b, c, d) i) by now apply (crosses_hull p _ a b).
    assert (J : hull (a, b, c, d) j) by now apply (crosses_hull p _ a d).
    pose proof Hq as (s & t & Hs & Ht & E).
    assert (Ed : d = vscale (/ t) (vsub (vadd (vscale (1 - s) a) (vscale s c)) (vscale (1 - t) b))).
    { rewrite E. clear -Ht. apply vec_ext; cbn; field; lra. }
    assert (Common : area_vector a b c d <> v0 -> forall x, hull (i, b, d, j) x -> hull (b, c, d, b) x -> segment b d x).
    { intros Na x H1 H2.
      assert (H1' : h3 a b d x).
      { apply hull_h3. revert H1. apply hull_sub; [apply (crosses_hull p _ a b)| | |apply (crosses_hull p _ a d)]; auto;
          first [apply hull_1|apply hull_2|apply hull_3]. }
      apply hull_h3 in H2.
      destruct H1' as (u & v & w & Hu & Hv & Hw & Eu & Ex). destruct H2 as (u' & v' & w' & Hu' & Hv' & Hw' & Eu' & Ex').
      assert (Z : vscale (u * s + v' * (1 - s)) (area_vector a b c d) = v0).
      { transitivity (vscale (/ 2) (cross (vsub x x) (vsub d b))).
        - rewrite Ex at 2. rewrite Ex'. replace w with (1 - u - v) by lra. replace w' with (1 - u' - v') by lra.
          rewrite Ed. unfold area_vector. clear -Ht. apply vec_ext; cbn; field; lra.
        - apply vec_ext; cbn; ring. }
      destruct (Req_dec (u * s + v' * (1 - s)) 0) as [N|N].
      - assert (0 <= u * s) by (apply Rmult_le_pos; lra). assert (0 <= v' * (1 - s)) by (apply Rmult_le_pos; lra).
        assert (u * s = 0) by lra. assert (u = 0) by nra. subst u.
        exists w. split; [lra|]. rewrite Ex. replace v with (1 - w) by lra. apply vec_ext; cbn; ring.
      - elim Na. apply (f_equal (vscale (/ (u * s + v' * (1 - s))))) in Z.
        transitivity (vscale (/ (u * s + v' * (1 - s))) (vscale (u * s + v' * (1 - s)) (area_vector a b c d))).
        + apply vec_ext; cbn; field; exact N.
        + rewrite Z. apply vec_ext; cbn; ring. }
    split; [|split; [|split; [|split]]].
    - intros g x [<-|[<-|[]]] Hx; split.
      + revert Hx. now apply hull_sub.
      + revert Hx. apply hull_low; lra.
      + revert Hx. now apply hull_sub.
      + revert Hx. apply hull_low; lra.
    - intros x Hx Lx. destruct (split_quad _ _ _ _ _ Hq Hx) as [T|T].
      + exists (i, b, d, j). split; [now left|]. apply (tri_one_above p a b d i j x); auto; lra.
      + exists (b, c, d, b). split; [right; now left|]. now apply hull_h3.
    - destruct (crosses_lt _ _ _ Hi Ha Hb) as (ti & Hti & -> & Ei). destruct (crosses_lt _ _ _ Hj Ha Hd) as (tj & Htj & -> & Ej).
      intros g [<-|[<-|[]]].
      + exists ((1 - ti * tj) * s). split; [apply Rmult_lt_0_compat; nra|].
        cbn. rewrite Ed. unfold area_vector. clear -Ht. apply vec_ext; cbn; field; lra.
      + exists (1 - s). split; [lra|]. cbn. rewrite Ed. unfold area_vector. clear -Ht. apply vec_ext; cbn; field; lra.
    - cbn [area_of]. intros Na i' j' g g' Nij G G'. specialize (Common Na).
      exists b, d. intros x.
      destruct i' as [|[|i']]; destruct j' as [|[|j']]; try (now elim Nij); cbn in *;
        try (destruct i'; discriminate); try (destruct j'; discriminate); intros H1 H2;
        match goal with G : Some _ = Some g, G' : Some _ = Some g' |- _ => injection G as <-; injection G' as <- end;
        now apply Common.
    - intros Hl. specialize (Hl a ltac:(cbn; auto)). lra.
  Qed.
End Pieces.
