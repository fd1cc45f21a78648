(** Clipping one polygon: geometry. *)
From Coq Require Import Reals List Bool ZArith Arith Lra Lia.
From Verif Require Import Model_Base Model_Geometry Model_Mesh Spec_Mesh Spec_Clip Proofs_Geometry Model_Clip.
Import ListNotations.
Open Scope R_scope.

Definition h3 (a b c x : vec) : Prop := exists u v w, 0 <= u /\ 0 <= v /\ 0 <= w /\ u + v + w = 1
  /\ x = vadd (vadd (vscale u a) (vscale v b)) (vscale w c).

Lemma height_distance p x : distance_to_point p x = height p x.
Proof. unfold distance_to_point, height, dot, vsub; cbn. ring. Qed.

Section Polygon.
  Variable p : plane.
  Let D := height p.

  Lemma D_comb3 u v w a b c : u + v + w = 1 ->
    D (vadd (vadd (vscale u a) (vscale v b)) (vscale w c)) = u * D a + v * D b + w * D c.
  Proof.
    intros E. unfold D, height, dot, vsub, vadd, vscale. cbn.
    replace w with (1 - u - v) by lra. ring.
  Qed.
  Lemma D_comb2 u v a b : u + v = 1 -> D (vadd (vscale u a) (vscale v b)) = u * D a + v * D b.
  Proof.
    intros E. unfold D, height, dot, vsub, vadd, vscale. cbn. replace v with (1 - u) by lra. ring.
  Qed.
  Lemma D_comb4 u v w z a b c d : u + v + w + z = 1 ->
    D (vadd (vadd (vscale u a) (vscale v b)) (vadd (vscale w c) (vscale z d))) = u * D a + v * D b + w * D c + z * D d.
  Proof.
    intros E. unfold D, height, dot, vsub, vadd, vscale. cbn. replace z with (1 - u - v - w) by lra. ring.
  Qed.

  (** ** Hulls *)
  Lemma hull_h3 a b c x : h3 a b c x <-> hull (a, b, c, a) x.
  Proof.
    split.
    - intros (u & v & w & Hu & Hv & Hw & E & ->). exists u, v, w, 0. repeat split; try lra.
      apply vec_ext; cbn; ring.
    - intros (u & v & w & z & Hu & Hv & Hw & Hz & E & ->). exists (u + z), v, w. repeat split; try lra.
      apply vec_ext; cbn; ring.
  Qed.
  Lemma hull_h3' a b c x : h3 a b c x <-> hull (c, a, b, c) x.
  Proof.
    split.
    - intros (u & v & w & Hu & Hv & Hw & E & ->). exists w, u, v, 0. repeat split; try lra.
      apply vec_ext; cbn; ring.
    - intros (u & v & w & z & Hu & Hv & Hw & Hz & E & ->). exists v, w, (u + z). repeat split; try lra.
      apply vec_ext; cbn; ring.
  Qed.
  Lemma hull_roll a b c d x : hull (b, c, d, a) x <-> hull (a, b, c, d) x.
  Proof.
    split; intros (u & v & w & z & Hu & Hv & Hw & Hz & E & ->);
      [exists z, u, v, w | exists v, w, z, u]; repeat split; try lra; apply vec_ext; cbn; ring.
  Qed.
  Lemma hull_1 a b c d : hull (a, b, c, d) a.
  Proof. exists 1, 0, 0, 0. repeat split; try lra. apply vec_ext; cbn; ring. Qed.
  Lemma hull_2 a b c d : hull (a, b, c, d) b.
  Proof. exists 0, 1, 0, 0. repeat split; try lra. apply vec_ext; cbn; ring. Qed.
  Lemma hull_3 a b c d : hull (a, b, c, d) c.
  Proof. exists 0, 0, 1, 0. repeat split; try lra. apply vec_ext; cbn; ring. Qed.
  Lemma hull_4 a b c d : hull (a, b, c, d) d.
  Proof. exists 0, 0, 0, 1. repeat split; try lra. apply vec_ext; cbn; ring. Qed.
  Lemma hull_segment q a b t : hull q a -> hull q b -> 0 <= t <= 1 -> hull q (vadd (vscale (1 - t) a) (vscale t b)).
  Proof.
    destruct q as [[[q1 q2] q3] q4].
    intros (u & v & w & z & Hu & Hv & Hw & Hz & E & ->) (u' & v' & w' & z' & Hu' & Hv' & Hw' & Hz' & E' & ->) Ht.
    exists ((1 - t) * u + t * u'), ((1 - t) * v + t * v'), ((1 - t) * w + t * w'), ((1 - t) * z + t * z').
    split; [nra|]. split; [nra|]. split; [nra|]. split; [nra|]. split.
    - transitivity ((1 - t) * (u + v + w + z) + t * (u' + v' + w' + z')); [ring|rewrite E, E'; ring].
    - apply vec_ext; cbn; ring.
  Qed.
  Lemma hull_sub q a b c d x : hull q a -> hull q b -> hull q c -> hull q d -> hull (a, b, c, d) x -> hull q x.
  Proof.
    destruct q as [[[q1 q2] q3] q4].
    intros (a1 & a2 & a3 & a4 & Ha1 & Ha2 & Ha3 & Ha4 & Ea & ->) (b1 & b2 & b3 & b4 & Hb1 & Hb2 & Hb3 & Hb4 & Eb & ->)
      (c1 & c2 & c3 & c4 & Hc1 & Hc2 & Hc3 & Hc4 & Ec & ->) (d1 & d2 & d3 & d4 & Hd1 & Hd2 & Hd3 & Hd4 & Ed & ->)
      (u & v & w & z & Hu & Hv & Hw & Hz & E & ->).
    exists (u * a1 + v * b1 + w * c1 + z * d1), (u * a2 + v * b2 + w * c2 + z * d2),
      (u * a3 + v * b3 + w * c3 + z * d3), (u * a4 + v * b4 + w * c4 + z * d4).
    assert (P : forall x1 x2 x3 x4, 0 <= x1 -> 0 <= x2 -> 0 <= x3 -> 0 <= x4 -> 0 <= u * x1 + v * x2 + w * x3 + z * x4).
    { intros. pose proof (Rmult_le_pos u x1 Hu). pose proof (Rmult_le_pos v x2 Hv).
      pose proof (Rmult_le_pos w x3 Hw). pose proof (Rmult_le_pos z x4 Hz). lra. }
    split; [now apply P|]. split; [now apply P|]. split; [now apply P|]. split; [now apply P|]. split.
    - transitivity (u * (a1 + a2 + a3 + a4) + v * (b1 + b2 + b3 + b4) + w * (c1 + c2 + c3 + c4) + z * (d1 + d2 + d3 + d4));
        [ring|rewrite Ea, Eb, Ec, Ed; lra].
    - apply vec_ext; cbn; ring.
  Qed.
  Lemma hull_low a b c d x : D a <= 0 -> D b <= 0 -> D c <= 0 -> D d <= 0 -> hull (a, b, c, d) x -> D x <= 0.
  Proof.
    intros A B C0 E0 (u & v & w & z & Hu & Hv & Hw & Hz & E & ->). rewrite D_comb4 by lra.
    pose proof (Rmult_le_compat_l u _ _ Hu A). pose proof (Rmult_le_compat_l v _ _ Hv B).
    pose proof (Rmult_le_compat_l w _ _ Hw C0). pose proof (Rmult_le_compat_l z _ _ Hz E0). lra.
  Qed.
  Lemma hull_high a b c d x : 0 <= D a -> 0 <= D b -> 0 <= D c -> 0 <= D d -> hull (a, b, c, d) x -> 0 <= D x.
  Proof.
    intros A B C0 E0 (u & v & w & z & Hu & Hv & Hw & Hz & E & ->). rewrite D_comb4 by lra.
    pose proof (Rmult_le_pos u _ Hu A). pose proof (Rmult_le_pos v _ Hv B).
    pose proof (Rmult_le_pos w _ Hw C0). pose proof (Rmult_le_pos z _ Hz E0). lra.
  Qed.

  (** ** Crossings: from a corner strictly on one side to a corner on the other side or on the plane *)
  Definition crosses (a b i : vec) : Prop := exists t, 0 < t <= 1 /\ i = vadd (vscale (1 - t) a) (vscale t b)
    /\ D a + t * (D b - D a) = 0.
  Lemma crosses_on a b : D b = 0 -> crosses a b b.
  Proof. intros E. exists 1. split; [lra|]. split; [apply vec_ext; cbn; ring|lra]. Qed.
  Lemma crosses_zero a b i : crosses a b i -> D i = 0.
  Proof. intros (t & Ht & -> & E). rewrite D_comb2 by lra. lra. Qed.
  Lemma crosses_hull q a b i : hull q a -> hull q b -> crosses a b i -> hull q i.
  Proof. intros A B (t & Ht & -> & E). apply hull_segment; auto. lra. Qed.
  Definition cut (a b : vec) : vec :=
    let t := D a / (D a - D b) in vadd (vscale (1 - t) a) (vscale t b).
  Lemma cut_crosses a b : (0 < D a /\ D b < 0) \/ (D a < 0 /\ 0 < D b) -> crosses a b (cut a b).
  Proof.
    intros H. exists (D a / (D a - D b)). assert (D a - D b <> 0) by lra. split; [|split; [reflexivity|field; lra]].
    assert (0 < D a / (D a - D b)).
    { destruct H as [[A B]|[A B]]; [apply Rdiv_lt_0_compat; lra|].
      replace (D a / (D a - D b)) with ((- D a) / (D b - D a)) by (field; lra). apply Rdiv_lt_0_compat; lra. }
    split; [lra|]. assert (0 < 1 - D a / (D a - D b)); [|lra].
    replace (1 - D a / (D a - D b)) with ((- D b) / (D a - D b)) by (field; lra).
    destruct H as [[A B]|[A B]]; [apply Rdiv_lt_0_compat; lra|].
    replace (- D b / (D a - D b)) with (D b / (D b - D a)) by (field; lra). apply Rdiv_lt_0_compat; lra.
  Qed.
  Lemma cut_sym a b : D a <> D b -> cut a b = cut b a.
  Proof. intros H. unfold cut. apply vec_ext; cbn; field; lra. Qed.
  Lemma cut_crosses' a b : (0 < D a /\ D b < 0) \/ (D a < 0 /\ 0 < D b) -> crosses a b (cut b a).
  Proof. intros H. rewrite <- (cut_sym a b) by lra. now apply cut_crosses. Qed.

  (** ** Triangles *)
  Lemma tri_one_below a b c i j x : D a < 0 -> 0 <= D b -> 0 <= D c -> crosses a b i -> crosses a c j ->
    h3 a b c x -> D x <= 0 -> h3 a i j x.
  Proof.
    intros Ha Hb Hc (t & Ht & -> & Et) (s & Hs & -> & Es) (u & v & w & Hu & Hv & Hw & E & ->).
    rewrite D_comb3 by lra. intros Hx.
    assert (Ev : v / t = v * (D b - D a) / (- D a)).
    { assert (D b - D a > 0) by lra. apply (Rmult_eq_reg_r (t * - D a)); [|nra].
      replace (v / t * (t * - D a)) with (v * - D a) by (field; lra).
      replace (v * (D b - D a) / - D a * (t * - D a)) with (v * (t * (D b - D a))) by (field; lra).
      replace (t * (D b - D a)) with (- D a) by lra. ring. }
    assert (Ew : w / s = w * (D c - D a) / (- D a)).
    { apply (Rmult_eq_reg_r (s * - D a)); [|nra].
      replace (w / s * (s * - D a)) with (w * - D a) by (field; lra).
      replace (w * (D c - D a) / - D a * (s * - D a)) with (w * (s * (D c - D a))) by (field; lra).
      replace (s * (D c - D a)) with (- D a) by lra. ring. }
    exists (1 - v / t - w / s), (v / t), (w / s). split; [|split; [|split; [|split; [lra|]]]].
    - rewrite Ev, Ew. replace (1 - v * (D b - D a) / - D a - w * (D c - D a) / - D a) with ((- (u * D a + v * D b + w * D c)) / (- D a)).
      + apply Rmult_le_pos; [lra|]. left. apply Rinv_0_lt_compat. lra.
      + replace u with (1 - v - w) by lra. field. lra.
    - apply Rmult_le_pos; [lra|]. left. apply Rinv_0_lt_compat. lra.
    - apply Rmult_le_pos; [lra|]. left. apply Rinv_0_lt_compat. lra.
    - replace u with (1 - v - w) by lra. apply vec_ext; cbn; field; lra.
  Qed.
  Lemma tri_one_above a b c i j x : 0 < D a -> D b < 0 -> D c < 0 -> crosses a b i -> crosses a c j ->
    h3 a b c x -> D x <= 0 -> hull (i, b, c, j) x.
  Proof.
    intros Ha Hb Hc (t & Ht & -> & Et) (s & Hs & -> & Es) (u & v & w & Hu & Hv & Hw & E & ->).
    rewrite D_comb3 by lra. intros Hx.
    set (M := v * (- D b) + w * (- D c)).
    assert (HM : 0 < M).
    { unfold M. assert (0 <= v * (- D b)) by (apply Rmult_le_pos; lra). assert (0 <= w * (- D c)) by (apply Rmult_le_pos; lra).
      destruct (Req_dec (v * (- D b) + w * (- D c)) 0) as [Z|Z]; [|lra].
      assert (v = 0) by nra. assert (w = 0) by nra. subst. assert (u = 1) by lra. subst. lra. }
    assert (HuM : u * D a <= M) by (unfold M; lra).
    assert (Tb : t = D a / (D a - D b)) by (apply (Rmult_eq_reg_r (D a - D b)); [field_simplify; lra|lra]).
    assert (Ts : s = D a / (D a - D c)) by (apply (Rmult_eq_reg_r (D a - D c)); [field_simplify; lra|lra]).
    exists (u * v * (D a - D b) / M), (v * (M - u * D a) / M), (w * (M - u * D a) / M), (u * w * (D a - D c) / M).
    assert (P : forall y, 0 <= y -> 0 <= y / M).
    { intros y Hy. apply Rmult_le_pos; [exact Hy|]. left. now apply Rinv_0_lt_compat. }
    split; [apply P; apply Rmult_le_pos; [nra|lra]|]. split; [apply P; apply Rmult_le_pos; lra|].
    split; [apply P; apply Rmult_le_pos; lra|]. split; [apply P; apply Rmult_le_pos; [nra|lra]|].
    assert (Eu : u * v * (- D b) / M + u * w * (- D c) / M = u).
    { transitivity (u * M / M); [unfold M; field; fold M; lra|field; lra]. }
    split.
    - transitivity ((u * v * (- D b) / M + u * w * (- D c) / M) + v + w); [field; lra|rewrite Eu; lra].
    - subst t s.
      transitivity (vadd (vadd (vscale (u * v * (- D b) / M + u * w * (- D c) / M) a) (vscale v b)) (vscale w c)).
      + now rewrite Eu.
      + apply vec_ext; cbn; field; lra.
  Qed.

  (** ** Quadrangles *)
  Lemma split_quad a b c d x : diagonals_meet (a, b, c, d) -> hull (a, b, c, d) x -> h3 a b d x \/ h3 b c d x.
  Proof.
    intros (s & t & Hs & Ht & E) (u & v & w & z & Hu & Hv & Hw & Hz & Es & ->).
    assert (Ed : d = vscale (/ t) (vsub (vadd (vscale (1 - s) a) (vscale s c)) (vscale (1 - t) b))).
    { rewrite E. clear -Ht. destruct b, d. unfold vscale, vsub, vadd; cbn. apply vec_ext; cbn; field; lra. }
    destruct (Rle_lt_dec (u * s) (w * (1 - s))) as [L|L].
    - (* eliminate a: remove u/(1-s) times the relation *)
      right. set (k := u / (1 - s)).
      assert (Hk : 0 <= k) by (unfold k; apply Rmult_le_pos; [lra|left; apply Rinv_0_lt_compat; lra]).
      assert (Ek : k * (1 - s) = u) by (unfold k; field; lra).
      exists (v + k * (1 - t)), (w - k * s), (z + k * t).
      split; [nra|]. split; [|split; [nra|split; [nra|]]].
      + apply (Rmult_le_reg_r (1 - s)); [lra|].
        replace ((w - k * s) * (1 - s)) with (w * (1 - s) - k * (1 - s) * s) by ring. rewrite Ek. lra.
      + rewrite <- Ek, Ed. apply vec_ext; cbn; field; lra.
    - left. set (k := w / s).
      assert (Hk : 0 <= k) by (unfold k; apply Rmult_le_pos; [lra|left; apply Rinv_0_lt_compat; lra]).
      assert (Ek : k * s = w) by (unfold k; field; lra).
      exists (u - k * (1 - s)), (v + k * (1 - t)), (z + k * t).
      split; [|split; [nra|split; [nra|split; [nra|]]]].
      + apply (Rmult_le_reg_r s); [lra|].
        replace ((u - k * (1 - s)) * s) with (u * s - k * s * (1 - s)) by ring. rewrite Ek. lra.
      + rewrite <- Ek, Ed. apply vec_ext; cbn; field; lra.
  Qed.
  Lemma diagonals_roll a b c d : diagonals_meet (a, b, c, d) -> diagonals_meet (b, c, d, a).
  Proof.
    intros (s & t & Hs & Ht & E). exists t, (1 - s). split; [lra|]. split; [lra|].
    rewrite <- E. apply vec_ext; cbn; ring.
  Qed.
  Lemma diagonals_D a b c d : diagonals_meet (a, b, c, d) ->
    exists s t, 0 < s < 1 /\ 0 < t < 1 /\ (1 - s) * D a + s * D c = (1 - t) * D b + t * D d.
  Proof.
    intros (s & t & Hs & Ht & E). exists s, t. split; [lra|]. split; [lra|].
    apply (f_equal D) in E. rewrite !D_comb2 in E by lra. exact E.
  Qed.
End Polygon.
