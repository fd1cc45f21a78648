(** The radiuses of the panels of surfaces of revolution. *)
From Coq Require Import Reals List Bool Arith Lia Lra Permutation ZArith.
From Verif Require Import Model_Base Model_Geometry Model_Mesh Model_Clip Spec_Mesh Spec_Tree Spec_Clip Model_Tree Model_Body Spec_Body
  Proofs_Geometry Proofs_Mesh Proofs_Mesh2 Proofs_Mesh3 Proofs_Clip4 Proofs_Clip7 Model_Integrals Spec_Integrals Proofs_Integrals
  Model_Quality Spec_Quality Proofs_Quality Spec_Grid Model_Grid Proofs_Grid Proofs_Grid2 Proofs_Grid5 Proofs_Grid7
  Proofs_Dataset Proofs_Problem Model_Box Proofs_Box5 Model_Cylinder Spec_Cylinder Proofs_Cylinder3 Proofs_Cylinder4 Proofs_Cylinder6 Proofs_Cylinder7 Proofs_Cylinder8 Proofs_Cylinder9 Proofs_Sphere Proofs_Sphere2.
Import ListNotations.
Open Scope R_scope.

(** ** Isosceles trapezoids *)
Definition trap (m d u : vec) (w1 w2 : R) : polygon :=
  (vsub m (vscale w1 u), vadd m (vscale w1 u), vadd (vadd m d) (vscale w2 u), vsub (vadd m d) (vscale w2 u)).
Definition trap_mean (m d : vec) (w1 w2 : R) : vec := vadd m (vscale ((w1 + 2 * w2) / (3 * (w1 + w2))) d).
Ltac flat := apply vec_ext; cbn [vx vy vz vadd vsub vscale vopp cross].
Lemma trap_quad a b c d k1 k2 x : degenerate_tol <= norm (cross (vsub c a) (vsub d b)) -> norm (cross (vsub b a) (vsub c a)) = 2 * k1 -> norm (cross (vsub d a) (vsub c a)) = 2 * k2 -> k1 + k2 <> 0 ->
  vadd (vscale k1 (vscale (/ 3) (vadd (vadd a b) c))) (vscale k2 (vscale (/ 3) (vadd (vadd c d) a))) = vscale (k1 + k2) x ->
  p_center (face_of (a, b, c, d)) = x.
Proof.
  intros D E1 E2 K Ex. unfold face_of, quad_of, props_of, quad_props. cbn [qa qb qc qd]. rewrite (proj2 (Rltb_false _ _)).
  - cbv zeta. cbn [p_center]. rewrite E1, E2. replace (2 * k1 * (1 / 2)) with k1 by field. replace (2 * k2 * (1 / 2)) with k2 by field. rewrite Ex. destruct x as [x y z]. flat; now field.
  - rewrite Rabs_pos_eq by apply norm_pos. first [exact D|apply Rle_not_lt, D].
Qed.
Lemma trap_center1 m d u w1 w2 : 0 <= w1 -> 0 <= w2 -> degenerate_tol <= 2 * (w1 + w2) * norm (cross u d) ->
  let '(a, b, c, e) := trap m d u w1 w2 in p_center (face_of (a, b, c, e)) = trap_mean m d w1 w2 /\ p_center (face_of (b, c, e, a)) = trap_mean m d w1 w2.
Proof.
  intros W1 W2 D. cbn [trap]. set (h := norm (cross u d)) in *. assert (H0 : 0 <= h) by apply norm_pos. assert (0 < degenerate_tol) by (unfold degenerate_tol; lra).
  assert (Wp : 0 < w1 + w2) by nra. assert (Hp : 0 < h) by nra.
  assert (NS : forall k v, v = vscale k (cross u d) -> norm v = Rabs k * h) by (intros k v ->; apply norm_scale).
  destruct m as [mx my mz]. destruct d as [dx dy dz]. destruct u as [ux uy uz]. split.
  - apply (trap_quad _ _ _ _ (w1 * h) (w2 * h)).
    + rewrite (NS (2 * (w1 + w2))) by (flat; ring). rewrite Rabs_pos_eq by lra. exact D.
    + rewrite (NS (2 * w1)) by (flat; ring). rewrite Rabs_pos_eq by lra. ring.
    + rewrite (NS (- (2 * w2))) by (flat; ring). rewrite Rabs_Ropp, Rabs_pos_eq by lra. ring.
    + nra.
    + unfold trap_mean. flat; field; lra.
  - apply (trap_quad _ _ _ _ (w2 * h) (w1 * h)).
    + rewrite (NS (2 * (w1 + w2))) by (flat; ring). rewrite Rabs_pos_eq by lra. exact D.
    + rewrite (NS (2 * w2)) by (flat; ring). rewrite Rabs_pos_eq by lra. ring.
    + rewrite (NS (- (2 * w1))) by (flat; ring). rewrite Rabs_Ropp, Rabs_pos_eq by lra. ring.
    + nra.
    + unfold trap_mean. flat; field; lra.
Qed.
Lemma trap_center m d u w1 w2 q : 0 <= w1 -> 0 <= w2 -> degenerate_tol <= 2 * (w1 + w2) * norm (cross u d) -> same_polygon (trap m d u w1 w2) q -> p_center (face_of q) = trap_mean m d w1 w2.
Proof.
  intros W1 W2 D S. pose proof (trap_center1 m d u w1 w2 W1 W2 D) as [A B].
  assert (D' : degenerate_tol <= 2 * (w2 + w1) * norm (cross (vopp u) (vopp d))).
  { replace (cross (vopp u) (vopp d)) with (cross u d) by (destruct u, d; flat; ring). lra. }
  pose proof (trap_center1 (vadd m d) (vopp d) (vopp u) w2 w1 W2 W1 D') as [A' B'].
  assert (Wp : 0 < w1 + w2) by (assert (0 < degenerate_tol) by (unfold degenerate_tol; lra); pose proof (norm_pos (cross u d)); nra).
  assert (M : trap_mean (vadd m d) (vopp d) w2 w1 = trap_mean m d w1 w2) by (unfold trap_mean; destruct m, d; flat; field; lra).
  assert (E1 : vsub (vadd m d) (vscale w2 (vopp u)) = vadd (vadd m d) (vscale w2 u)) by (destruct m, d, u; flat; ring).
  assert (E2 : vadd (vadd m d) (vscale w2 (vopp u)) = vsub (vadd m d) (vscale w2 u)) by (destruct m, d, u; flat; ring).
  assert (E3 : vadd (vadd (vadd m d) (vopp d)) (vscale w1 (vopp u)) = vsub m (vscale w1 u)) by (destruct m, d, u; flat; ring).
  assert (E4 : vsub (vadd (vadd m d) (vopp d)) (vscale w1 (vopp u)) = vadd m (vscale w1 u)) by (destruct m, d, u; flat; ring).
  rewrite E1, E2, E3, E4, M in A', B'. unfold trap in S. cbn [same_polygon] in S. destruct S as [->|[->|[->| ->]]]; assumption.
Qed.
Lemma radius_all q B : p_radius (face_of q) <= B <-> let '(a, b, e, f) := q in forall p, In p [a; b; e; f] -> norm (vsub (p_center (face_of q)) p) <= B.
Proof.
  destruct q as [[[a b] e] f]. unfold face_of at 1, props_of, quad_of. destruct (quad_props (Q a b e f)) as [[s n] g] eqn:E.
  assert (Eg : p_center (face_of (a, b, e, f)) = g) by (unfold face_of, props_of, quad_of; rewrite E; reflexivity). rewrite Eg. cbn [p_radius]. unfold radius. cbn [qa qb qc qd]. split.
  - intros H. pose proof (Rmax_l (norm (vsub g a)) (norm (vsub g b))). pose proof (Rmax_r (norm (vsub g a)) (norm (vsub g b))). pose proof (Rmax_l (norm (vsub g e)) (norm (vsub g f))). pose proof (Rmax_r (norm (vsub g e)) (norm (vsub g f))).
    match type of H with Rmax ?x ?y <= _ => pose proof (Rmax_l x y); pose proof (Rmax_r x y) end. intros p [<-|[<-|[<-|[<-|[]]]]]; lra.
  - intros H. repeat apply Rmax_lub; apply H; cbn [In]; auto.
Qed.
Lemma radius_trap m d u w1 w2 q B : 0 <= w1 -> 0 <= w2 -> degenerate_tol <= 2 * (w1 + w2) * norm (cross u d) -> same_polygon (trap m d u w1 w2) q ->
  (p_radius (face_of q) <= B <-> forall p, In p (polygon_corners (trap m d u w1 w2)) -> norm (vsub (trap_mean m d w1 w2) p) <= B).
Proof.
  intros W1 W2 D S. rewrite radius_all, (trap_center m d u w1 w2 q W1 W2 D S). unfold trap in *. cbn [same_polygon polygon_corners] in *.
  destruct S as [->|[->|[->| ->]]]; cbn [In]; split; intros G p Hp; apply G; tauto.
Qed.
Lemma trap_large m d u w1 w2 w q : 0 <= w1 <= w -> 0 <= w2 <= w -> degenerate_tol <= 2 * (w1 + w2) * norm (cross u d) -> dot u u = 1 -> dot u d = 0 ->
  same_polygon (trap m d u w1 w2) q -> p_radius (face_of q) <= sqrt (w * w + 4 / 9 * dot d d).
Proof.
  intros W1 W2 D U O S. apply (radius_trap m d u w1 w2); [tauto|tauto|exact D|exact S|].
  assert (Wp : 0 < w1 + w2) by (assert (0 < degenerate_tol) by (unfold degenerate_tol; lra); pose proof (norm_pos (cross u d)); nra).
  set (t := (w1 + 2 * w2) / (3 * (w1 + w2))). assert (T1 : / 3 <= t <= 2 / 3).
  { unfold t. split; apply Rmult_le_reg_r with (3 * (w1 + w2)); try lra; unfold Rdiv; rewrite ?Rmult_assoc, Rinv_l by lra; lra. }
  assert (DD : 0 <= dot d d) by (rewrite <- norm_sq; pose proof (norm_pos d); nra).
  assert (G : forall s k p, - (2 / 3) <= s <= 2 / 3 -> - w <= k <= w -> vsub (trap_mean m d w1 w2) p = vadd (vscale s d) (vscale k u) -> norm (vsub (trap_mean m d w1 w2) p) <= sqrt (w * w + 4 / 9 * dot d d)).
  { intros s k p Hs Hk E. unfold norm. apply sqrt_le_1_alt. rewrite E.
    assert (EQ : dot (vadd (vscale s d) (vscale k u)) (vadd (vscale s d) (vscale k u)) = s * s * dot d d + k * k * dot u u + 2 * (s * k) * dot u d) by (destruct d as [dx dy dz], u as [ux uy uz]; unfold dot; cbn [vx vy vz vadd vscale]; ring).
    rewrite EQ, U, O. assert (s * s <= 4 / 9) by nra. assert (k * k <= w * w) by nra. assert (s * s * dot d d <= 4 / 9 * dot d d) by (apply Rmult_le_compat_r; assumption). lra. }
  intros p. unfold trap. cbn [polygon_corners In]. fold t.
  intros [<-|[<-|[<-|[<-|[]]]]]; [apply (G t w1)|apply (G t (- w1))|apply (G (t - 1) (- w2))|apply (G (t - 1) w2)]; try lra; unfold trap_mean; fold t; destruct m, d, u; flat; ring.
Qed.
(** The distance from the middle to a corner is at least its part along the height. *)
Lemma trap_far m d u w1 w2 q : 0 <= w1 -> 0 <= w2 -> degenerate_tol <= 2 * (w1 + w2) * norm (cross u d) -> dot u u = 1 -> dot u d = 0 ->
  same_polygon (trap m d u w1 w2) q -> (w1 + 2 * w2) / (3 * (w1 + w2)) * norm d <= p_radius (face_of q).
Proof.
  intros W1 W2 D U O S. pose proof (proj1 (radius_trap m d u w1 w2 q (p_radius (face_of q)) W1 W2 D S) (Rle_refl _)) as G.
  specialize (G (vsub m (vscale w1 u)) ltac:(unfold trap; cbn; auto)). eapply Rle_trans; [|exact G].
  assert (Wp : 0 < w1 + w2) by (assert (0 < degenerate_tol) by (unfold degenerate_tol; lra); pose proof (norm_pos (cross u d)); nra).
  unfold trap_mean. set (t := (w1 + 2 * w2) / (3 * (w1 + w2))). assert (T1 : 0 <= t) by (unfold t, Rdiv; apply Rmult_le_pos; [lra|left; apply Rinv_0_lt_compat; lra]).
  rewrite <- (Rabs_pos_eq t T1), <- norm_scale, (Rabs_pos_eq t T1). unfold norm. apply sqrt_le_1_alt.
  assert (EQ : dot (vsub (vadd m (vscale t d)) (vsub m (vscale w1 u))) (vsub (vadd m (vscale t d)) (vsub m (vscale w1 u))) = dot (vscale t d) (vscale t d) + w1 * w1 * dot u u + 2 * (t * w1) * dot u d) by (destruct m as [mx my mz], d as [dx dy dz], u as [ux uy uz]; unfold dot; cbn [vx vy vz vadd vscale vsub]; ring).
  rewrite EQ, U, O. nra.
Qed.
(** ** Panels between two rows and two meridians *)
Section Panels.
  Variables (o : vec) (prof : nat -> R * R) (T : nat) (th0 : R) (i j : nat).
  Hypothesis HT : (3 <= T)%nat.
  Notation rho i := (fst (prof i)). Notation zed i := (snd (prof i)).
  Hypotheses (P1 : 0 <= rho i) (P2 : 0 <= rho (S i)).
  Hypothesis Hsz : / 1000000000000 <= strip_area (prof i) (prof (S i)) T.
  Let de := PI / INR T.
  Let ph := angle T th0 j + de.
  Let u := V (- cos ph) (sin ph) 0.
  Let m := vadd o (V (rho i * cos de * sin ph) (rho i * cos de * cos ph) (zed i)).
  Let d := V ((rho (S i) - rho i) * cos de * sin ph) ((rho (S i) - rho i) * cos de * cos ph) (zed (S i) - zed i).
  Lemma panel_trap : same_polygon (trap m d u (rho i * sin de) (rho (S i) * sin de)) (revolved_panel (node o prof T th0) i j).
  Proof.
    unfold trap, revolved_panel, same_polygon. right. left. unfold node, tp.
    assert (IT : INR T <> 0) by (apply not_0_INR; lia).
    assert (Ea : angle T th0 j = ph - de) by (unfold ph; ring). assert (Eb : angle T th0 (S j) = ph + de) by (unfold ph, angle, de; rewrite S_INR; field; exact IT).
    rewrite Ea, Eb, sin_minus, cos_minus, sin_plus, cos_plus. unfold m, d, u. destruct o as [ox oy oz]. apply f_equal2; [apply f_equal2; [apply f_equal2|]|]; flat; ring.
  Qed.
  Lemma u_unit : dot u u = 1.
  Proof. unfold u, dot. cbn [vx vy vz]. pose proof (sin2_cos2 ph) as E. unfold Rsqr in E. lra. Qed.
  Lemma u_across : dot u d = 0.
  Proof. unfold u, d, dot. cbn [vx vy vz]. ring. Qed.
  Lemma d_long : dot d d = (zed (S i) - zed i) * (zed (S i) - zed i) + (rho (S i) - rho i) * (rho (S i) - rho i) * (cos de * cos de).
  Proof.
    unfold d, dot. cbn [vx vy vz]. pose proof (sin2_cos2 ph) as E. unfold Rsqr in E.
    transitivity ((zed (S i) - zed i) * (zed (S i) - zed i) + (rho (S i) - rho i) * (rho (S i) - rho i) * (cos de * cos de) * (sin ph * sin ph + cos ph * cos ph)); [ring|rewrite E; ring].
  Qed.
  Lemma u_cross : norm (cross u d) = sqrt (dot d d).
  Proof. unfold norm. f_equal. rewrite lagrange, u_unit. replace (dot d u) with (dot u d) by (unfold dot; ring). rewrite u_across. ring. Qed.
  Lemma de_pos : 0 < sin de.
  Proof. pose proof (sin_least T 1 ltac:(lia) ltac:(lia)). unfold de. lra. Qed.
  Lemma panel_seen : degenerate_tol <= 2 * (rho i * sin de + rho (S i) * sin de) * norm (cross u d).
  Proof.
    rewrite u_cross, d_long. unfold strip_area in Hsz. fold de in Hsz. unfold degenerate_tol.
    set (h := sqrt _) in *. assert (0 <= h) by apply sqrt_pos. pose proof de_pos. replace (2 * (rho i * sin de + rho (S i) * sin de) * h) with (2 * ((rho i + rho (S i)) * sin de * h)) by ring. lra.
  Qed.
  Lemma panel_radius_most w h q : rho i * sin (PI / INR T) <= w -> rho (S i) * sin (PI / INR T) <= w ->
    4 / 9 * ((zed (S i) - zed i) * (zed (S i) - zed i) + (rho (S i) - rho i) * (rho (S i) - rho i)) <= h * h ->
    same_polygon (revolved_panel (node o prof T th0) i j) q -> p_radius (face_of q) <= sqrt (w * w + h * h).
  Proof.
    fold de. intros A B C S. pose proof de_pos. assert (0 <= rho i * sin de) by (apply Rmult_le_pos; lra). assert (0 <= rho (Datatypes.S i) * sin de) by (apply Rmult_le_pos; lra).
    eapply Rle_trans; [apply (trap_large m d u (rho i * sin de) (rho (Datatypes.S i) * sin de) w q); [lra|lra|exact panel_seen|exact u_unit|exact u_across|eapply same_polygon_trans; [exact panel_trap|exact S]]|].
    apply sqrt_le_1_alt. rewrite d_long. pose proof (COS_bound de). assert (cos de * cos de <= 1) by nra.
    set (x := (rho (Datatypes.S i) - rho i) * (rho (Datatypes.S i) - rho i)) in *. assert (0 <= x) by (unfold x; apply Rle_0_sqr). assert (x * (cos de * cos de) <= x * 1) by (apply Rmult_le_compat_l; assumption). lra.
  Qed.
  Lemma panel_radius_least q : same_polygon (revolved_panel (node o prof T th0) i j) q ->
    (rho i + 2 * rho (S i)) / (3 * (rho i + rho (S i))) * sqrt ((zed (S i) - zed i) * (zed (S i) - zed i) + (rho (S i) - rho i) * (rho (S i) - rho i) * (cos (PI / INR T) * cos (PI / INR T))) <= p_radius (face_of q).
  Proof.
    fold de. intros S. pose proof de_pos. assert (0 <= rho i * sin de) by (apply Rmult_le_pos; lra). assert (0 <= rho (Datatypes.S i) * sin de) by (apply Rmult_le_pos; lra).
    assert (Rp : rho i + rho (Datatypes.S i) <> 0). { intros E. unfold strip_area in Hsz. rewrite E, !Rmult_0_l in Hsz. lra. }
    pose proof (trap_far m d u (rho i * sin de) (rho (Datatypes.S i) * sin de) q ltac:(lra) ltac:(lra) panel_seen u_unit u_across (same_polygon_trans _ _ _ panel_trap S)) as G.
    unfold norm in G. rewrite d_long in G. replace ((rho i + 2 * rho (Datatypes.S i)) / (3 * (rho i + rho (Datatypes.S i)))) with ((rho i * sin de + 2 * (rho (Datatypes.S i) * sin de)) / (3 * (rho i * sin de + rho (Datatypes.S i) * sin de))); [exact G|].
    assert (X : rho i * sin de + rho (Datatypes.S i) * sin de <> 0) by (rewrite <- Rmult_plus_distr_r; apply Rmult_integral_contrapositive; split; [exact Rp|lra]).
    field. split; assumption.
  Qed.
End Panels.
Lemma revolved_props (X : fprops -> Prop) t P n T : filled t -> made_of t (revolved P n T) -> (forall i j q, (i < n)%nat -> (j < T)%nat -> same_polygon (revolved_panel P i j) q -> X (face_of q)) ->
  exists ps, t_props t = Ok ps /\ length ps = (n * T)%nat /\ Forall X ps.
Proof.
  intros Fl (q1 & q2 & Tq & Pm & S) H. exists (map face_of q2). split; [now apply tree_props|].
  assert (L : length (revolved P n T) = (n * T)%nat).
  { unfold revolved. clear. assert (G : forall s, length (flat_map (fun i => map (revolved_panel P i) (seq 0 T)) (seq s n)) = (n * T)%nat); [|apply G]. induction n as [|n IH]; intros s; [reflexivity|]. cbn [seq flat_map]. rewrite app_length, map_length, seq_length, IH. lia. }
  split; [rewrite map_length, <- (f2_length _ _ _ S), <- (Permutation_length Pm); exact L|].
  apply Forall_map. rewrite Forall_forall. intros q Hq. destruct (In_nth_error _ _ Hq) as [k Hk]. apply Forall2_nth in S. destruct S as [Ls S].
  destruct (nth_error q1 k) as [p|] eqn:Ep; [|apply nth_error_None in Ep; assert (k < length q2)%nat by (apply nth_error_Some; congruence); lia].
  assert (Ip : In p (revolved P n T)) by (eapply Permutation_in; [symmetry; exact Pm|eapply nth_error_In; exact Ep]).
  apply in_flat_map in Ip. destruct Ip as (i & Hi & Ip). apply in_map_iff in Ip. destruct Ip as (j & <- & Hj). apply in_seq in Hi, Hj. apply (H i j q); [lia|lia|].
  exact (S _ _ _ Ep Hk).
Qed.
Lemma sin_below x : 0 <= x -> sin x <= x.
Proof. intros [H| <-]; [left; now apply sin_lt_x|rewrite sin_0; lra]. Qed.
Section Spheres.
  Variable argsort : list R -> list nat.
  Hypothesis Hs : sorts argsort.
  Variable set_order : list nat -> list nat.
  Hypothesis Ho : forall l, Permutation l (set_order l).
  Lemma sphere_props rad n T c axial : reasonable_sphere rad n T -> exists t ps, mesh_sphere argsort set_order rad c (Z.of_nat n) (Z.of_nat T) None axial = Ok t
    /\ t_props t = Ok ps /\ length ps = (n * T)%nat /\ Forall (fun p => p_radius p <= sqrt ((PI * rad / INR n) * (PI * rad / INR n) + (PI * rad / INR T) * (PI * rad / INR T))) ps.
  Proof.
    intros H. destruct (sphere_made argsort Hs set_order Ho rad n T H c axial) as (t & E & (F & S & M) & L). exists t.
    pose proof H as (R0 & Hn & HT & _ & _ & Hsz & _). pose proof PI_RGT_0 as Pp. assert (0 < INR n) by (apply lt_0_INR; lia). assert (0 < INR T) by (apply lt_0_INR; lia).
    edestruct (revolved_props (fun p => p_radius p <= sqrt ((PI * rad / INR n) * (PI * rad / INR n) + (PI * rad / INR T) * (PI * rad / INR T))) t _ n T F M) as (ps & A & B & C); [|exists ps; auto].
    intros i j q Hi Hj Sq. cbn beta. rewrite Rplus_comm.
    assert (W : forall i, (i <= n)%nat -> fst (sphere_profile rad n i) * sin (PI / INR T) <= PI * rad / INR T).
    { intros k Hk. pose proof (sphere_pos rad n T H k Hk) as P1. cbn [sphere_profile fst] in *. pose proof (SIN_bound (PI * INR k / INR n)).
      assert (0 < PI / INR T) by (apply Rdiv_lt_0_compat; lra). assert (sin (PI / INR T) <= PI / INR T) by (apply sin_below; lra). assert (0 < sin (PI / INR T)) by (pose proof (sin_least T 1 ltac:(lia) ltac:(lia)); lra).
      replace (PI * rad / INR T) with (rad * (PI / INR T)) by (field; lra). apply Rmult_le_compat; nra. }
    apply (panel_radius_most c (sphere_profile rad n) T (PI / 2) i j HT (sphere_pos rad n T H i ltac:(lia)) (sphere_pos rad n T H (Datatypes.S i) ltac:(lia)) (Hsz i Hi)); [apply W; lia|apply W; lia| |exact Sq].
    cbn [sphere_profile fst snd]. set (a := PI * INR (Datatypes.S i) / INR n). set (b := PI * INR i / INR n).
    assert (Ed : a - b = PI / INR n) by (unfold a, b; rewrite S_INR; field; lra).
    assert (EQ : (- rad * cos a - - rad * cos b) * (- rad * cos a - - rad * cos b) + (rad * sin a - rad * sin b) * (rad * sin a - rad * sin b) = (2 * rad * sin ((a - b) / 2)) * (2 * rad * sin ((a - b) / 2))).
    { assert (X : 2 * (sin ((a - b) / 2) * sin ((a - b) / 2)) = 1 - (cos a * cos b + sin a * sin b)).
      { rewrite <- cos_minus. replace (a - b) with (2 * ((a - b) / 2)) at 3 by field. rewrite cos_2a_sin. ring. }
      pose proof (sin2_cos2 a) as Ea. pose proof (sin2_cos2 b) as Eb. unfold Rsqr in Ea, Eb.
      transitivity (rad * rad * (2 * (2 * (sin ((a - b) / 2) * sin ((a - b) / 2))))); [|ring]. rewrite X.
      transitivity (rad * rad * ((sin a * sin a + cos a * cos a) + (sin b * sin b + cos b * cos b) - 2 * (cos a * cos b + sin a * sin b))); [ring|]. rewrite Ea, Eb. ring. }
    rewrite EQ, Ed. apply Rle_trans with ((2 * rad * sin (PI / INR n / 2)) * (2 * rad * sin (PI / INR n / 2))); [pose proof (Rle_0_sqr (2 * rad * sin (PI / INR n / 2))) as X; unfold Rsqr in X; lra|].
    assert (0 < PI / INR n) by (apply Rdiv_lt_0_compat; lra). assert (L2 : (2 <= n)%nat) by exact Hn. assert (PI / INR n <= PI) by (apply Rmult_le_reg_r with (INR n); [lra|]; unfold Rdiv; rewrite Rmult_assoc, Rinv_l by lra; assert (1 <= INR n) by (apply (le_INR 1 n); lia); nra).
    assert (S0 : 0 <= sin (PI / INR n / 2)) by (apply sin_ge_0; lra). pose proof (sin_below (PI / INR n / 2) ltac:(lra)).
    assert (0 <= 2 * rad * sin (PI / INR n / 2)) by (apply Rmult_le_pos; lra). assert (2 * rad * sin (PI / INR n / 2) <= PI * rad / INR n) by (replace (PI * rad / INR n) with (2 * rad * (PI / INR n / 2)) by (field; lra); apply Rmult_le_compat_l; lra).
    apply Rmult_le_compat; assumption.
  Qed.
  Lemma sphere_radius_most rad c nth0 nph0 r axial : 0 < rad -> 0 < r -> (0 < nth0)%Z -> (0 < nph0)%Z ->
    exists nth nph, (0 < nth)%Z /\ (0 < nph)%Z
      /\ mesh_sphere argsort set_order rad c nth0 nph0 (Some r) axial = mesh_sphere argsort set_order rad c nth nph None axial
      /\ (sqrt ((2 * PI * rad / IZR nth0) * (2 * PI * rad / IZR nth0) + (2 * PI * rad / IZR nph0) * (2 * PI * rad / IZR nph0)) / 2 <= r -> (nth, nph) = (nth0, nph0))
      /\ (reasonable_sphere rad (Z.to_nat nth) (Z.to_nat nph) ->
          exists t ps, mesh_sphere argsort set_order rad c nth0 nph0 (Some r) axial = Ok t /\ t_props t = Ok ps /\ length ps = (Z.to_nat nth * Z.to_nat nph)%nat /\ Forall (fun p => p_radius p <= r) ps).
  Proof.
    intros A B C D. destruct (sphere_radius argsort set_order rad c nth0 nph0 r axial A B C D) as (nth & nph & Pn & Pp & E & Rd & K). exists nth, nph. split; [exact Pn|]. split; [exact Pp|]. split; [exact E|]. split; [exact K|].
    intros H. destruct (sphere_props rad _ _ c axial H) as (t & ps & Et & Ep & Lp & Fp). rewrite !Z2Nat.id in Et by lia. exists t, ps. rewrite E. split; [exact Et|]. split; [exact Ep|]. split; [exact Lp|].
    eapply Forall_impl; [|exact Fp]. cbn beta. intros p Hp. eapply Rle_trans; [exact Hp|]. eapply Rle_trans; [|exact Rd]. right.
    rewrite !INR_IZR_INZ, !Z2Nat.id by lia. assert (IZR nth <> 0) by (apply not_0_IZR; lia). assert (IZR nph <> 0) by (apply not_0_IZR; lia).
    replace ((2 * PI * rad / IZR nth) * (2 * PI * rad / IZR nth) + (2 * PI * rad / IZR nph) * (2 * PI * rad / IZR nph)) with ((2 * 2) * ((PI * rad / IZR nth) * (PI * rad / IZR nth) + (PI * rad / IZR nph) * (PI * rad / IZR nph))) by (field; split; assumption).
    rewrite sqrt_mult_alt by lra. rewrite sqrt_square by lra. field.
  Qed.
End Spheres.
