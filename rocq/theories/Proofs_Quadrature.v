(** Proofs about quadrature schemes. *)
From Coq Require Import Reals String List Bool Lra Lia Arith.
From Verif Require Import Model_Base Model_Geometry Model_Mesh Spec_Mesh Proofs_Geometry Proofs_Mesh Proofs_Mesh2
  Model_Quadrature Spec_Quadrature Proofs_Integrals.
Import ListNotations.
Open Scope R_scope.

(** ** Totals over a scheme *)

Lemma total_nil f : total [] f = 0. Proof. reflexivity. Qed.
Lemma total_cons x y w s f : total (((x, y), w) :: s) f = w * f x y + total s f. Proof. reflexivity. Qed.
Lemma total_ext s f g : (forall x y w, In ((x, y), w) s -> f x y = g x y) -> total s f = total s g.
Proof.
  induction s as [|[[x y] w] s IH]; intros H; [reflexivity|].
  rewrite !total_cons, (H x y w (or_introl eq_refl)), IH; [reflexivity|].
  intros; eapply H; right; eauto.
Qed.
Lemma total_add s f g : total s (fun x y => f x y + g x y) = total s f + total s g.
Proof. induction s as [|[[x y] w] s IH]; [rewrite !total_nil; ring|]. rewrite !total_cons, IH. ring. Qed.
Lemma total_scale s k f : total s (fun x y => k * f x y) = k * total s f.
Proof. induction s as [|[[x y] w] s IH]; [rewrite !total_nil; ring|]. rewrite !total_cons, IH. ring. Qed.

Lemma first_order_linear : exact_linear first_order.
Proof. repeat split; unfold total, first_order; cbn; ring. Qed.
Lemma first_order_inside : inside_square first_order.
Proof. intros x y w [E|[]]. injection E as <- <- <-. lra. Qed.
Lemma root3 : 1 / sqrt 3 * (1 / sqrt 3) = 1 / 3.
Proof.
  assert (S3 := sqrt_sqrt 3). assert (0 < sqrt 3) by (apply sqrt_lt_R0; lra).
  replace (1 / sqrt 3 * (1 / sqrt 3)) with (1 / (sqrt 3 * sqrt 3)) by (field; lra).
  rewrite S3 by lra. reflexivity.
Qed.
Lemma root3_bounds : 0 <= 1 / sqrt 3 <= 1.
Proof.
  assert (0 < sqrt 3) by (apply sqrt_lt_R0; lra).
  assert (H1 : 0 < 1 / sqrt 3) by (apply Rdiv_lt_0_compat; lra).
  split; [lra|]. assert (E := root3). nra.
Qed.
Lemma gauss_legendre_inside : inside_square gauss_legendre_2.
Proof.
  assert (B := root3_bounds). intros x y w H. unfold gauss_legendre_2 in H. cbn in H.
  repeat destruct H as [H|H]; try contradiction; injection H as <- <- <-; lra.
Qed.
Lemma gauss_legendre_mixed : exact_mixed gauss_legendre_2.
Proof.
  assert (E := root3). unfold exact_mixed, exact_quadratic, exact_linear, total, gauss_legendre_2; cbn [map Rsum fold_right].
  set (r := 1 / sqrt 3) in *. clearbody r. repeat split; nra.
Qed.

(** ** The points *)

Lemma point_inside q x y : -1 <= x <= 1 -> -1 <= y <= 1 ->
  convex_combination (qa q) (qb q) (qc q) (qd q) (local_point q x y).
Proof.
  intros Hx Hy. exists ((1 + x) * (1 + y) / 4), ((1 + x) * (1 - y) / 4), ((1 - x) * (1 - y) / 4), ((1 - x) * (1 + y) / 4).
  repeat split; [nra|nra|nra|nra|field|]. destruct q as [a b c d]. unfold local_point. apply vec_ext; cbn; field.
Qed.

(** ** The weights *)

(** The Jacobian vector is affine in the local coordinates, and given by the
    cross products at the corners. *)
Lemma jacobian q x y : cross (dxidx q y) (dxidy q x) =
  vscale (-1 / 16) (vadd (vadd
    (vscale ((1 + x) * (1 - y)) (cross (vsub (qb q) (qa q)) (vsub (qc q) (qb q))))
    (vscale ((1 - x) * (1 - y)) (cross (vsub (qc q) (qb q)) (vsub (qd q) (qc q)))))
    (vadd (vscale ((1 - x) * (1 + y)) (cross (vsub (qd q) (qc q)) (vsub (qa q) (qd q))))
    (vscale ((1 + x) * (1 + y)) (cross (vsub (qa q) (qd q)) (vsub (qb q) (qa q)))))).
Proof. destruct q as [[] [] [] []]. unfold dxidx, dxidy. apply vec_ext; cbn; field. Qed.

Lemma corner_balance a b c d :
  vadd (cross (vsub b a) (vsub c b)) (cross (vsub d c) (vsub a d))
  = vadd (cross (vsub c b) (vsub d c)) (cross (vsub a d) (vsub b a)).
Proof. destruct a, b, c, d. apply vec_ext; cbn; ring. Qed.
Lemma area_corners a b c d : area_vector a b c d
  = vscale (1 / 2) (vadd (cross (vsub b a) (vsub c b)) (cross (vsub d c) (vsub a d))).
Proof. destruct a, b, c, d. unfold area_vector. apply vec_ext; cbn; ring. Qed.

Lemma unit_inj u k k' : unit_vector u -> vscale k u = vscale k' u -> k = k'.
Proof.
  intros U E. assert (D : dot u u = 1).
  { unfold unit_vector, norm in U. assert (0 <= dot u u) by (unfold dot; nra).
    rewrite <- (sqrt_sqrt (dot u u)) by auto. rewrite U. ring. }
  apply (f_equal (dot u)) in E. unfold dot in *. cbn in E.
  replace k with (k * (vx u * vx u + vy u * vy u + vz u * vz u)) by (rewrite D; ring).
  replace k' with (k' * (vx u * vx u + vy u * vy u + vz u * vz u)) by (rewrite D; ring). lra.
Qed.

(** On a planar convex face the determinant is affine. *)
Lemma det_planar a b c d : planar_convex a b c d ->
  exists k1 k2 k3 k4, 0 <= k1 /\ 0 <= k2 /\ 0 <= k3 /\ 0 <= k4 /\ k1 + k3 = k2 + k4
  /\ norm (area_vector a b c d) = (k1 + k3) / 2
  /\ norm (area_vector a b c a) = k1 / 2 /\ norm (area_vector a c d a) = k3 / 2
  /\ (exists u, unit_vector u /\ cross (vsub b a) (vsub c b) = vscale k1 u /\ cross (vsub c b) (vsub d c) = vscale k2 u
    /\ cross (vsub d c) (vsub a d) = vscale k3 u /\ cross (vsub a d) (vsub b a) = vscale k4 u)
  /\ forall x y, -1 <= x <= 1 -> -1 <= y <= 1 ->
    4 * det_j (Q a b c d) x y
    = ((1 + x) * (1 - y) * k1 + (1 - x) * (1 - y) * k2 + (1 - x) * (1 + y) * k3 + (1 + x) * (1 + y) * k4) / 4.
Proof.
  intros (u & k1 & k2 & k3 & k4 & U & P1 & P2 & P3 & P4 & E1 & E2 & E3 & E4).
  assert (Bal : k1 + k3 = k2 + k4).
  { assert (B := corner_balance a b c d). rewrite E1, E2, E3, E4 in B. apply (unit_inj u _ _ U).
    replace (vscale (k1 + k3) u) with (vadd (vscale k1 u) (vscale k3 u)) by (apply vec_ext; cbn; ring).
    rewrite B. apply vec_ext; cbn; ring. }
  exists k1, k2, k3, k4. repeat (split; [assumption|]). split; [|split; [|split; [|split]]].
  - rewrite area_corners, E1, E3.
    replace (vscale (1 / 2) (vadd (vscale k1 u) (vscale k3 u))) with (vscale ((k1 + k3) / 2) u) by (apply vec_ext; cbn; field).
    rewrite norm_scale, U, Rabs_right by lra. lra.
  - replace (area_vector a b c a) with (vscale (1 / 2) (cross (vsub b a) (vsub c b)))
      by (destruct a, b, c; unfold area_vector; apply vec_ext; cbn; field).
    rewrite E1, !norm_scale, U, !Rabs_right by lra. lra.
  - replace (area_vector a c d a) with (vscale (1 / 2) (cross (vsub d c) (vsub a d)))
      by (destruct a, c, d; unfold area_vector; apply vec_ext; cbn; field).
    rewrite E3, !norm_scale, U, !Rabs_right by lra. lra.
  - exists u. auto.
  - intros x y Hx Hy. unfold det_j. rewrite jacobian. cbn [qa qb qc qd]. rewrite E1, E2, E3, E4.
    set (k := (1 + x) * (1 - y) * k1 + (1 - x) * (1 - y) * k2 + (1 - x) * (1 + y) * k3 + (1 + x) * (1 + y) * k4).
    match goal with |- 4 * norm ?v = _ => replace v with (vscale (- (k / 16)) u) by (unfold k; apply vec_ext; cbn; field) end.
    assert (0 <= k).
    { unfold k. assert (0 <= (1 + x) * (1 - y)) by nra. assert (0 <= (1 - x) * (1 - y)) by nra.
      assert (0 <= (1 - x) * (1 + y)) by nra. assert (0 <= (1 + x) * (1 + y)) by nra.
      assert (0 <= (1 + x) * (1 - y) * k1) by (apply Rmult_le_pos; auto).
      assert (0 <= (1 - x) * (1 - y) * k2) by (apply Rmult_le_pos; auto).
      assert (0 <= (1 - x) * (1 + y) * k3) by (apply Rmult_le_pos; auto).
      assert (0 <= (1 + x) * (1 + y) * k4) by (apply Rmult_le_pos; auto). lra. }
    rewrite norm_scale, U, Rabs_Ropp, Rabs_right by lra. lra.
Qed.

Lemma sum_weights_total s q : sum_weights (face_quadrature s q) = total s (fun x y => 4 * det_j q x y).
Proof.
  unfold sum_weights, face_quadrature. induction s as [|[[x y] w] s IH]; [reflexivity|].
  cbn [map snd]. rewrite Rsum_cons, IH, total_cons. ring.
Qed.
Lemma weights_area s a b c d : planar_convex a b c d -> inside_square s -> exact_linear s ->
  sum_weights (face_quadrature s (Q a b c d)) = norm (area_vector a b c d).
Proof.
  intros P I (T0 & Tx & Ty). destruct (det_planar a b c d P) as (k1 & k2 & k3 & k4 & _ & _ & _ & _ & Bal & A & _ & _ & _ & D).
  rewrite sum_weights_total, A.
  rewrite (total_ext s _ (fun x y => ((k1 + k3) / 2 * 1 + (k1 + k4 - k2 - k3) / 4 * x) + (k3 + k4 - k1 - k2) / 4 * y)).
  - rewrite !total_add, !total_scale, T0, Tx, Ty. lra.
  - intros x y w H. destruct (I x y w H) as [Hx Hy]. rewrite (D x y Hx Hy).
    replace k4 with (k1 + k3 - k2) by lra. field.
Qed.

Lemma first_moment_total s q p : (p = vx \/ p = vy \/ p = vz) ->
  p (first_moment (face_quadrature s q)) = total s (fun x y => 4 * det_j q x y * p (local_point q x y)).
Proof.
  intros Hp. unfold first_moment, face_quadrature. induction s as [|[[x y] w] s IH].
  - cbn. destruct Hp as [->|[->| ->]]; reflexivity.
  - cbn [map fst snd]. rewrite vsum_cons, total_cons. rewrite <- IH.
    destruct Hp as [->|[->| ->]]; cbn [vadd vscale vx vy vz]; ring.
Qed.
Lemma unit_square u : unit_vector u -> dot u u = 1.
Proof.
  intros U. unfold unit_vector, norm in U. assert (0 <= dot u u) by (unfold dot; nra).
  rewrite <- (sqrt_sqrt (dot u u)) by auto. rewrite U. ring.
Qed.
(** The barycentric relation between four points of a plane. *)
Lemma barycentric a b c d u k1 k2 k3 k4 : unit_vector u ->
  cross (vsub b a) (vsub c b) = vscale k1 u -> cross (vsub c b) (vsub d c) = vscale k2 u ->
  cross (vsub d c) (vsub a d) = vscale k3 u -> cross (vsub a d) (vsub b a) = vscale k4 u ->
  vadd (vscale k3 b) (vscale k1 d) = vadd (vscale k2 a) (vscale k4 c).
Proof.
  intros U E1 E2 E3 E4. assert (N := unit_square u U).
  set (p := vsub b a). set (q := vsub c a). set (r := vsub d a).
  assert (F1 : cross p q = vscale k1 u) by (rewrite <- E1; unfold p, q; vring).
  assert (F3 : cross q r = vscale k3 u) by (rewrite <- E3; unfold q, r; vring).
  assert (F4 : cross p r = vscale k4 u) by (rewrite <- E4; unfold p, r; vring).
  assert (G1 : k1 = dot u (cross p q)) by (rewrite F1; transitivity (k1 * dot u u); [rewrite N; ring|unfold dot; cbn; ring]).
  assert (G3 : k3 = dot u (cross q r)) by (rewrite F3; transitivity (k3 * dot u u); [rewrite N; ring|unfold dot; cbn; ring]).
  assert (G4 : k4 = dot u (cross p r)) by (rewrite F4; transitivity (k4 * dot u u); [rewrite N; ring|unfold dot; cbn; ring]).
  assert (Bal : k1 + k3 = k2 + k4).
  { assert (B := corner_balance a b c d). rewrite E1, E2, E3, E4 in B. apply (unit_inj u _ _ U).
    replace (vscale (k1 + k3) u) with (vadd (vscale k1 u) (vscale k3 u)) by (apply vec_ext; cbn; ring).
    rewrite B. apply vec_ext; cbn; ring. }
  assert (Det : dot p (cross q r) = 0).
  { destruct (Req_dec k3 0) as [Z|Z].
    - rewrite F3, Z. unfold dot; cbn; ring.
    - assert (R0 : k3 * dot r u = 0).
      { transitivity (dot r (cross q r)); [rewrite F3; unfold dot; cbn; ring|unfold dot; cbn; ring]. }
      apply Rmult_integral in R0. destruct R0 as [R0|R0]; [contradiction|].
      transitivity (dot r (cross p q)); [unfold dot; cbn; ring|].
      rewrite F1. transitivity (k1 * dot r u); [unfold dot; cbn; ring|rewrite R0; ring]. }
  assert (Cramer : vadd (vscale k3 p) (vscale k1 r) = vadd (vscale k4 q) (vscale (dot p (cross q r)) u)).
  { rewrite G1, G3, G4. clearbody p q r. destruct p, q, r, u. unfold dot. apply vec_ext; cbn; ring. }
  rewrite Det in Cramer.
  assert (K2 : k2 = k1 + k3 - k4) by lra. subst k2.
  assert (X := f_equal vx Cramer). assert (Y := f_equal vy Cramer). assert (Z := f_equal vz Cramer).
  unfold p, q, r in X, Y, Z. cbn in X, Y, Z.
  apply vec_ext; cbn; lra.
Qed.
Lemma moment_area s a b c d : planar_convex a b c d -> inside_square s -> exact_mixed s ->
  first_moment (face_quadrature s (Q a b c d))
  = vadd (vscale (norm (area_vector a b c a)) (vscale (1 / 3) (vadd (vadd a b) c)))
         (vscale (norm (area_vector a c d a)) (vscale (1 / 3) (vadd (vadd c d) a))).
Proof.
  intros P I (((T0 & Tx & Ty) & Txx & Txy & Tyy) & Txxy & Txyy).
  destruct (det_planar a b c d P) as (k1 & k2 & k3 & k4 & _ & _ & _ & _ & Bal & A & A1 & A3 & (u & U & E1 & E2 & E3 & E4) & D).
  assert (Rel := barycentric a b c d u k1 k2 k3 k4 U E1 E2 E3 E4). rewrite A1, A3.
  assert (Main : forall p : vec -> R, p = vx \/ p = vy \/ p = vz ->
    p (first_moment (face_quadrature s (Q a b c d)))
    = (k1 + k3) / 2 * ((p a + p b + p c + p d) / 4)
      + (k1 - k2) / 2 * ((p a + p b - p c - p d) / 4) / 3 + (k3 - k2) / 2 * ((p a - p b - p c + p d) / 4) / 3).
  { intros p Hp. rewrite (first_moment_total s _ p Hp).
    set (p0 := (p a + p b + p c + p d) / 4). set (px := (p a + p b - p c - p d) / 4).
    set (py := (p a - p b - p c + p d) / 4). set (pxy := (p a - p b + p c - p d) / 4).
    set (c0 := (k1 + k3) / 2). set (cx := (k1 - k2) / 2). set (cy := (k3 - k2) / 2).
    rewrite (total_ext s _ (fun x y => c0 * p0 * 1 + ((c0 * px + cx * p0) * x + ((c0 * py + cy * p0) * y
      + (cx * px * (x * x) + ((c0 * pxy + cx * py + cy * px) * (x * y) + (cy * py * (y * y)
      + (cx * pxy * (x * x * y) + cy * pxy * (x * y * y))))))))).
    - rewrite !total_add, !total_scale, T0, Tx, Ty, Txx, Tyy, Txxy, Txyy.
      change (total s Rmult) with (total s (fun x y => x * y)). rewrite Txy. field.
    - intros x y w H. destruct (I x y w H) as [Hx Hy]. rewrite (D x y Hx Hy).
      replace k4 with (k1 + k3 - k2) by lra. unfold p0, px, py, pxy, c0, cx, cy.
      destruct Hp as [->|[->| ->]]; cbn; field. }
  assert (X := f_equal vx Rel). assert (Y := f_equal vy Rel). assert (Z := f_equal vz Rel). cbn in X, Y, Z.
  assert (K4 : k4 = k1 + k3 - k2) by lra. subst k4.
  apply vec_ext; [rewrite (Main vx) by auto|rewrite (Main vy) by auto|rewrite (Main vz) by auto]; cbn; lra.
Qed.

(** ** Parallelograms and triangles are planar and convex *)

Lemma parallelogram_convex a b c d : vsub d a = vsub c b -> planar_convex a b c d.
Proof.
  intros E. set (n := cross (vsub b a) (vsub c b)).
  assert (D : d = vadd a (vsub c b)) by (rewrite <- E; apply vec_ext; cbn; ring).
  assert (All : cross (vsub c b) (vsub d c) = n /\ cross (vsub d c) (vsub a d) = n /\ cross (vsub a d) (vsub b a) = n).
  { subst d. unfold n. repeat split; vring. }
  destruct All as (N2 & N3 & N4).
  destruct (Req_dec (norm n) 0) as [Z|Z].
  - exists (V 0 0 1), 0, 0, 0, 0. rewrite N2, N3, N4.
    assert (n = v0) by (apply norm_zero; exact Z).
    fold n. rewrite H. repeat split; try lra; try (apply vec_ext; cbn; ring).
    apply unit_dot. unfold dot; cbn; ring.
  - assert (0 < norm n) by (assert (0 <= norm n) by apply sqrt_pos; lra).
    exists (vscale (/ norm n) n), (norm n), (norm n), (norm n), (norm n). rewrite N2, N3, N4. fold n.
    assert (n = vscale (norm n) (vscale (/ norm n) n)) by (apply vec_ext; cbn; field; lra).
    repeat split; try lra; auto.
    unfold unit_vector. rewrite norm_scale, Rabs_right by (apply Rle_ge, Rlt_le, Rinv_0_lt_compat; lra). field. lra.
Qed.
Lemma triangle_convex a b c : planar_convex a b c a.
Proof.
  set (n := cross (vsub b a) (vsub c b)).
  assert (N2 : cross (vsub c b) (vsub a c) = n) by (unfold n; vring).
  assert (N3 : cross (vsub a c) (vsub a a) = v0) by vring.
  assert (N4 : cross (vsub a a) (vsub b a) = v0) by vring.
  destruct (Req_dec (norm n) 0) as [Z|Z].
  - exists (V 0 0 1), 0, 0, 0, 0. rewrite N2, N3, N4.
    assert (n = v0) by (apply norm_zero; exact Z).
    fold n. rewrite H. repeat split; try lra; try (apply vec_ext; cbn; ring).
    apply unit_dot. unfold dot; cbn; ring.
  - assert (0 < norm n) by (assert (0 <= norm n) by apply sqrt_pos; lra).
    exists (vscale (/ norm n) n), (norm n), (norm n), 0, 0. rewrite N2, N3, N4. fold n.
    assert (n = vscale (norm n) (vscale (/ norm n) n)) by (apply vec_ext; cbn; field; lra).
    repeat split; try lra; auto; try (apply vec_ext; cbn; ring).
    unfold unit_vector. rewrite norm_scale, Rabs_right by (apply Rle_ge, Rlt_le, Rinv_0_lt_compat; lra). field. lra.
Qed.

(** ** The area of the panels *)

Lemma panel_area tri q : (tri = true -> qa q = qd q) -> p_area (props_of tri q) <> 0 ->
  planar_convex (qa q) (qb q) (qc q) (qd q) ->
  p_area (props_of tri q) = norm (area_vector (qa q) (qb q) (qc q) (qd q)).
Proof.
  intros T NZ P. destruct q as [a b c d]. cbn [qa qb qc qd] in *.
  destruct (det_planar a b c d P) as (k1 & k2 & k3 & k4 & P1 & _ & P3 & _ & Bal & A & A1 & A3 & (u & U & E1 & E2 & E3 & E4) & _).
  rewrite A. unfold props_of in *. destruct tri.
  - specialize (T eq_refl). subst d. unfold tri_props in *. cbn [qa qb qc qd] in *.
    destruct (Rltb _ _); [cbn in NZ; contradiction|]. cbn.
    assert (E : cross (vsub b a) (vsub c a) = cross (vsub b a) (vsub c b)) by vring. rewrite E, E1, norm_scale, U, Rabs_right by lra.
    assert (k3 = 0). { apply (unit_inj u); [exact U|]. rewrite <- E3. vring. } lra.
  - unfold quad_props in *. cbn [qa qb qc qd] in *. destruct (Rltb _ _); [cbn in NZ; contradiction|]. cbn [p_area].
    assert (E : cross (vsub b a) (vsub c a) = cross (vsub b a) (vsub c b)) by vring. rewrite E, E1, norm_scale, U, Rabs_right by lra.
    assert (E' : cross (vsub d a) (vsub c a) = vscale (-1) (cross (vsub d c) (vsub a d))) by vring.
    rewrite E', E3, !norm_scale, U, (Rabs_right k3), Rabs_left by lra. lra.
Qed.

(** ** Whole meshes *)

Lemma builtin_cases name s : builtin_method name = Some s ->
  (name = "First order"%string /\ s = first_order) \/ (name = "Gauss-Legendre 2"%string /\ s = gauss_legendre_2).
Proof.
  unfold builtin_method. destruct (String.eqb_spec name "First order"); [intros E; injection E as <-; auto|].
  destruct (String.eqb_spec name "Gauss-Legendre 2"); [intros E; injection E as <-; auto|discriminate].
Qed.
Lemma builtin_scheme name s : builtin_method name = Some s -> inside_square s /\ exact_linear s.
Proof.
  intros H. destruct (builtin_cases _ _ H) as [[_ ->]|[_ ->]].
  - split; [exact first_order_inside|exact first_order_linear].
  - split; [exact gauss_legendre_inside|exact (proj1 (proj1 gauss_legendre_mixed))].
Qed.
Lemma builtin_weight name s x y w : builtin_method name = Some s -> In ((x, y), w) s -> 0 < w.
Proof.
  intros H I. destruct (builtin_cases _ _ H) as [[_ ->]|[_ ->]].
  - destruct I as [I|[]]. injection I as _ _ <-. lra.
  - unfold gauss_legendre_2 in I. cbn in I. repeat destruct I as [I|I]; try contradiction; injection I as _ _ <-; lra.
Qed.
Lemma weight_nonneg s q p w : (forall x y v, In ((x, y), v) s -> 0 <= v) -> In (p, w) (face_quadrature s q) -> 0 <= w.
Proof.
  intros P I. unfold face_quadrature in I. apply in_map_iff in I. destruct I as ([[x y] v] & E & I).
  injection E as _ <-. assert (0 <= v) by (eapply P; eauto). assert (0 <= det_j q x y) by apply sqrt_pos. nra.
Qed.
Lemma points_inside s q p w : inside_square s -> In (p, w) (face_quadrature s q) ->
  convex_combination (qa q) (qb q) (qc q) (qd q) p.
Proof.
  intros P I. unfold face_quadrature in I. apply in_map_iff in I. destruct I as ([[x y] v] & E & I).
  injection E as <- _. destruct (P x y v I). apply point_inside; auto.
Qed.
