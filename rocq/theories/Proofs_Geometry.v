(** Proofs about geometric transformations. *)
From Coq Require Import Reals List Bool ZArith Lra Lia.
From Verif Require Import Model_Base Model_Geometry Model_Mesh Spec_Mesh.
Import ListNotations.
Open Scope R_scope.

Lemma vec_ext (u v : vec) : vx u = vx v -> vy u = vy v -> vz u = vz v -> u = v.
Proof. destruct u, v; cbn; intros; subst; reflexivity. Qed.

Ltac vunfold := unfold vopp, vsub, vadd, vscale, dot, cross, v0, e_x, e_y, e_z in *; cbn [vx vy vz] in *.
Ltac vring := intros; repeat match goal with v : vec |- _ => destruct v end;
  vunfold; try (apply vec_ext; cbn [vx vy vz]); ring.

Lemma dot_sym u v : dot u v = dot v u. Proof. vring. Qed.
Lemma dot_pos u : 0 <= dot u u.
Proof. destruct u. unfold dot; cbn. nra. Qed.
Lemma norm_pos u : 0 <= norm u. Proof. apply sqrt_pos. Qed.
Lemma norm_sq u : norm u * norm u = dot u u.
Proof. apply sqrt_sqrt, dot_pos. Qed.
Lemma norm_zero u : norm u = 0 <-> u = v0.
Proof.
  split.
  - intros H. pose proof (norm_sq u) as E. rewrite H in E. destruct u as [x y z]. unfold dot in E; cbn in E.
    unfold v0. f_equal; nra.
  - intros ->. unfold norm. replace (dot v0 v0) with 0 by (unfold dot, v0; cbn; ring). apply sqrt_0.
Qed.
Lemma norm_eq u v : dot u u = dot v v -> norm u = norm v.
Proof. unfold norm. now intros ->. Qed.
Lemma norm_scale k u : norm (vscale k u) = Rabs k * norm u.
Proof.
  unfold norm. replace (dot (vscale k u) (vscale k u)) with (Rsqr k * dot u u) by (unfold Rsqr; vring).
  rewrite sqrt_mult; [|apply Rle_0_sqr|apply dot_pos]. now rewrite sqrt_Rsqr_abs.
Qed.
Lemma unit_dot u : unit_vector u <-> dot u u = 1.
Proof.
  unfold unit_vector, norm. split; intros H.
  - rewrite <- (sqrt_sqrt (dot u u)) by apply dot_pos. rewrite H. ring.
  - rewrite H. apply sqrt_1.
Qed.
Lemma dist_scale_opp u v : dist u v = dist v u.
Proof. apply norm_eq. vring. Qed.
Lemma normalize_unit v u : normalize v = Some u -> unit_vector u /\ exists k, 0 < k /\ v = vscale k u.
Proof.
  unfold normalize. destruct (Req_EM_T (norm v) 0) as [|N]; [discriminate|]. intros H; injection H as <-.
  pose proof (norm_pos v) as P. split.
  - unfold unit_vector. rewrite norm_scale. rewrite Rabs_pos_eq by (left; apply Rinv_0_lt_compat; lra). field. exact N.
  - exists (norm v). split; [lra|]. destruct v as [x y z]. unfold vscale; cbn. apply vec_ext; cbn; field; exact N.
Qed.
Lemma normalize_none v : normalize v = None <-> v = v0.
Proof.
  unfold normalize. destruct (Req_EM_T (norm v) 0) as [E|N].
  - split; [intros _; now apply norm_zero|reflexivity].
  - split; [discriminate|]. intros ->. exfalso. apply N. now apply norm_zero.
Qed.

(** ** Rotations *)
Lemma half_angle t : 2 * (sin (t / 2) * sin (t / 2)) = 1 - cos t.
Proof.
  assert (E : cos t = cos (2 * (t / 2))) by (f_equal; field).
  rewrite E, cos_2a. pose proof (sin2_cos2 (t / 2)) as P. unfold Rsqr in P. lra.
Qed.
(** Rodrigues' formula. *)
Lemma rotate_vector_formula a t v :
  rotate_vector a t v =
  vadd (vadd v (vscale (sin t) (cross (ax_vector a) v)))
       (vscale (1 - cos t) (cross (ax_vector a) (cross (ax_vector a) v))).
Proof.
  unfold rotate_vector, rotation_matrix. rewrite half_angle. destruct a as [[a b c] p]. destruct v as [x y z].
  unfold mapply, madd3, mscale3, mmul3, skew, id3, col1, col2, col3. cbn [ax_vector r1 r2 r3].
  vunfold. apply vec_ext; cbn [vx vy vz]; ring.
Qed.
Lemma rotate_vector_formula_unit a t v : proper_axis a ->
  rotate_vector a t v =
  vadd (vadd (vscale (cos t) v) (vscale (sin t) (cross (ax_vector a) v)))
       (vscale ((1 - cos t) * dot (ax_vector a) v) (ax_vector a)).
Proof.
  intros U. apply unit_dot in U. rewrite rotate_vector_formula. destruct a as [[a b c] p]. destruct v as [x y z].
  cbn [ax_vector] in *. vunfold. apply vec_ext; cbn [vx vy vz].
  - replace (b * (a * y - b * x) - c * (c * x - a * z)) with (a * (a * x + b * y + c * z) - (a * a + b * b + c * c) * x) by ring.
    rewrite U. ring.
  - replace (c * (b * z - c * y) - a * (a * y - b * x)) with (b * (a * x + b * y + c * z) - (a * a + b * b + c * c) * y) by ring.
    rewrite U. ring.
  - replace (a * (c * x - a * z) - b * (b * z - c * y)) with (c * (a * x + b * y + c * z) - (a * a + b * b + c * c) * z) by ring.
    rewrite U. ring.
Qed.

Lemma rotate_vector_linear a t k u l v :
  rotate_vector a t (vadd (vscale k u) (vscale l v)) = vadd (vscale k (rotate_vector a t u)) (vscale l (rotate_vector a t v)).
Proof. rewrite !rotate_vector_formula. generalize (sin t) (cos t). vring. Qed.
Lemma rotate_vector_sub a t u v : rotate_vector a t (vsub u v) = vsub (rotate_vector a t u) (rotate_vector a t v).
Proof. rewrite !rotate_vector_formula. generalize (sin t) (cos t). vring. Qed.
Lemma rotate_vector_add a t u v : rotate_vector a t (vadd u v) = vadd (rotate_vector a t u) (rotate_vector a t v).
Proof. rewrite !rotate_vector_formula. generalize (sin t) (cos t). vring. Qed.
Lemma rotate_vector_scale a t k v : rotate_vector a t (vscale k v) = vscale k (rotate_vector a t v).
Proof. rewrite !rotate_vector_formula. generalize (sin t) (cos t). vring. Qed.

Lemma dot_add_r u v w : dot u (vadd v w) = dot u v + dot u w. Proof. vring. Qed.
Lemma dot_add_l u v w : dot (vadd v w) u = dot v u + dot w u. Proof. vring. Qed.
Lemma dot_scale_r k u v : dot u (vscale k v) = k * dot u v. Proof. vring. Qed.
Lemma dot_scale_l k u v : dot (vscale k u) v = k * dot u v. Proof. vring. Qed.
Lemma dot_cross_self u v : dot u (cross u v) = 0. Proof. vring. Qed.
Lemma dot_cross_self' u v : dot v (cross u v) = 0. Proof. vring. Qed.
Lemma cross_self u : cross u u = v0. Proof. vring. Qed.
Lemma lagrange a b c d : dot (cross a b) (cross c d) = dot a c * dot b d - dot a d * dot b c.
Proof. vring. Qed.

Lemma sincos t : sin t * sin t + cos t * cos t = 1.
Proof. pose proof (sin2_cos2 t) as H. unfold Rsqr in H. exact H. Qed.

(** Any rotation vector keeps dot products. *)
Lemma rotate_vector_dot a t u v : proper_axis a -> dot (rotate_vector a t u) (rotate_vector a t v) = dot u v.
Proof.
  intros U. rewrite !rotate_vector_formula_unit by exact U. apply unit_dot in U. set (w := ax_vector a) in *.
  rewrite !dot_add_l, !dot_add_r, !dot_scale_l, !dot_scale_r.
  rewrite lagrange, U, !dot_cross_self.
  rewrite (dot_sym (cross w u) w), !dot_cross_self, (dot_sym u w).
  assert (E : dot (cross w u) v = - dot u (cross w v)) by vring. rewrite E.
  pose proof (sincos t) as S1. generalize dependent (sin t). intros s Hs. generalize dependent (cos t). intros c Hc.
  generalize (dot u (cross w v)) (dot u v) (dot w u) (dot w v). intros e d x y.
  transitivity ((s * s + c * c) * d + (1 - (s * s + c * c)) * x * y); [ring|].
  rewrite Hc. ring.
Qed.
Lemma rotate_point_sub a t p q : vsub (rotate_point a t p) (rotate_point a t q) = rotate_vector a t (vsub p q).
Proof.
  unfold rotate_point.
  rewrite !rotate_vector_sub. generalize (rotate_vector a t p) (rotate_vector a t q) (rotate_vector a t (ax_point a)). vring.
Qed.
Lemma rotate_isometry a t p q : proper_axis a -> dist (rotate_point a t p) (rotate_point a t q) = dist p q.
Proof.
  intros U. unfold dist. rewrite rotate_point_sub. apply norm_eq. now apply rotate_vector_dot.
Qed.
Lemma rotate_vector_axis a t : rotate_vector a t (ax_vector a) = ax_vector a.
Proof. rewrite rotate_vector_formula. generalize (sin t) (cos t). destruct a as [u p]. cbn. vring. Qed.
Lemma rotate_fixes a t x : on_axis a x -> rotate_point a t x = x.
Proof.
  intros [k ->]. unfold rotate_point.
  replace (vsub (vadd (ax_point a) (vscale k (ax_vector a))) (ax_point a)) with (vscale k (ax_vector a)) by vring.
  rewrite rotate_vector_scale, rotate_vector_axis. vring.
Qed.
Lemma rotate_vector_compose a s t v : proper_axis a ->
  rotate_vector a s (rotate_vector a t v) = rotate_vector a (s + t) v.
Proof.
  intros U. rewrite (rotate_vector_formula_unit a t v U), (rotate_vector_formula_unit a (s + t) v U).
  rewrite !rotate_vector_add, !rotate_vector_scale, rotate_vector_axis.
  rewrite (rotate_vector_formula_unit a s v U), (rotate_vector_formula_unit a s (cross (ax_vector a) v) U).
  rewrite dot_cross_self, cos_plus, sin_plus. apply unit_dot in U. revert U.
  generalize (sin s) (cos s) (sin t) (cos t). destruct a as [[a b c] p]. destruct v as [x y z]. cbn [ax_vector].
  intros ss cs st ct U. vunfold. apply vec_ext; cbn [vx vy vz].
  - replace (b * (a * y - b * x) - c * (c * x - a * z)) with (a * (a * x + b * y + c * z) - (a * a + b * b + c * c) * x) by ring.
    rewrite U. ring.
  - replace (c * (b * z - c * y) - a * (a * y - b * x)) with (b * (a * x + b * y + c * z) - (a * a + b * b + c * c) * y) by ring.
    rewrite U. ring.
  - replace (a * (c * x - a * z) - b * (b * z - c * y)) with (c * (a * x + b * y + c * z) - (a * a + b * b + c * c) * z) by ring.
    rewrite U. ring.
Qed.
Lemma rotate_compose a s t p : proper_axis a ->
  rotate_point a s (rotate_point a t p) = rotate_point a (s + t) p.
Proof.
  intros U. unfold rotate_point.
  replace (vsub (vadd (rotate_vector a t (vsub p (ax_point a))) (ax_point a)) (ax_point a)) with (rotate_vector a t (vsub p (ax_point a))) by vring.
  now rewrite rotate_vector_compose.
Qed.
Lemma rotate_zero a p : rotate_point a 0 p = p.
Proof. unfold rotate_point. rewrite rotate_vector_formula, sin_0, cos_0. vring. Qed.
Lemma rotate_full_turn a p : proper_axis a -> rotate_point a (2 * PI) p = p.
Proof.
  intros U. unfold rotate_point. rewrite rotate_vector_formula, sin_2PI, cos_2PI. vring.
Qed.
(** Rotations preserve the orientation. *)
Lemma cross_unit w u v : dot w w = 1 ->
  vadd (vscale (dot w v) (cross u w)) (vscale (dot w u) (cross w v)) = vsub (cross u v) (vscale (dot w (cross u v)) w).
Proof.
  destruct w as [a b c], u as [x y z], v as [x' y' z']. intros U. vunfold. apply vec_ext; cbn [vx vy vz].
  - transitivity ((a * a + b * b + c * c) * (y * z' - z * y') - (a * (y * z' - z * y') + b * (z * x' - x * z') + c * (x * y' - y * x')) * a); [ring|].
    rewrite U. ring.
  - transitivity ((a * a + b * b + c * c) * (z * x' - x * z') - (a * (y * z' - z * y') + b * (z * x' - x * z') + c * (x * y' - y * x')) * b); [ring|].
    rewrite U. ring.
  - transitivity ((a * a + b * b + c * c) * (x * y' - y * x') - (a * (y * z' - z * y') + b * (z * x' - x * z') + c * (x * y' - y * x')) * c); [ring|].
    rewrite U. ring.
Qed.
Lemma double_cross w v : dot w w = 1 -> cross w (cross w v) = vsub (vscale (dot w v) w) v.
Proof.
  destruct w as [a b c], v as [x y z]. intros U. vunfold. apply vec_ext; cbn [vx vy vz].
  - transitivity ((a * x + b * y + c * z) * a - (a * a + b * b + c * c) * x); [ring|]. rewrite U. ring.
  - transitivity ((a * x + b * y + c * z) * b - (a * a + b * b + c * c) * y); [ring|]. rewrite U. ring.
  - transitivity ((a * x + b * y + c * z) * c - (a * a + b * b + c * c) * z); [ring|]. rewrite U. ring.
Qed.
Lemma rotate_vector_cross a t u v : proper_axis a ->
  cross (rotate_vector a t u) (rotate_vector a t v) = rotate_vector a t (cross u v).
Proof.
  intros U. rewrite !rotate_vector_formula_unit by exact U. apply unit_dot in U. set (w := ax_vector a) in *. clearbody w.
  pose proof (sincos t) as S1. revert S1. generalize (sin t) (cos t). intros s c S1.
  transitivity (vadd (vadd (vadd (vscale (c * c) (cross u v)) (vscale (c * s) (cross w (cross u v))))
                     (vscale (c * (1 - c)) (vadd (vscale (dot w v) (cross u w)) (vscale (dot w u) (cross w v)))))
               (vadd (vscale (s * s) (vscale (dot w (cross u v)) w))
                     (vscale (s * (1 - c)) (vadd (vscale (- dot w v) (cross w (cross w u))) (vscale (dot w u) (cross w (cross w v))))))).
  { clear. vring. }
  rewrite cross_unit by exact U. rewrite !double_cross by exact U.
  replace (s * s) with (1 - c * c) by lra. clear. vring.
Qed.
Lemma rotate_vector_triple a t u v w : proper_axis a ->
  triple (rotate_vector a t u) (rotate_vector a t v) (rotate_vector a t w) = triple u v w.
Proof. intros U. unfold triple. rewrite rotate_vector_cross by exact U. now apply rotate_vector_dot. Qed.
(** A rotation fixes only its axis, unless it is a number of full turns. *)
Lemma rotate_fixed_on_axis a t x : proper_axis a -> cos t <> 1 -> rotate_point a t x = x -> on_axis a x.
Proof.
  intros U N E. assert (E' : rotate_vector a t (vsub x (ax_point a)) = vsub x (ax_point a)).
  { unfold rotate_point in E. rewrite <- E at 2. vring. }
  rewrite rotate_vector_formula_unit in E' by exact U. apply unit_dot in U.
  exists (dot (ax_vector a) (vsub x (ax_point a))).
  set (v := vsub x (ax_point a)) in *. set (w := ax_vector a) in *.
  assert (Ex : x = vadd (ax_point a) v) by (unfold v; vring). rewrite Ex at 1. f_equal. clearbody v w. clear Ex E x.
  (* the dot product of the equation with v gives (1 - c) (|v|^2 - (w.v)^2) = 0 *)
  assert (D : (1 - cos t) * dot (vsub v (vscale (dot w v) w)) (vsub v (vscale (dot w v) w)) = 0).
  { assert (E2 : dot v (vadd (vadd (vscale (cos t) v) (vscale (sin t) (cross w v))) (vscale ((1 - cos t) * dot w v) w)) = dot v v) by now rewrite E'.
    rewrite !dot_add_r, !dot_scale_r, dot_cross_self' in E2.
    replace (dot (vsub v (vscale (dot w v) w)) (vsub v (vscale (dot w v) w))) with (dot v v - 2 * (dot w v * dot w v) + dot w v * dot w v * dot w w) by vring.
    rewrite U. rewrite (dot_sym v w) in E2. lra. }
  apply Rmult_integral in D. destruct D as [D|D]; [exfalso; lra|].
  assert (Z : vsub v (vscale (dot w v) w) = v0).
  { apply norm_zero. unfold norm. rewrite D. apply sqrt_0. }
  transitivity (vadd (vsub v (vscale (dot w v) w)) (vscale (dot w v) w)); [vring|]. rewrite Z. vring.
Qed.

(** ** Translations *)
Lemma translate_isometry p q t : dist (vadd p t) (vadd q t) = dist p q.
Proof. unfold dist. f_equal. vring. Qed.

(** ** Reflections *)
Lemma mirror_vector_dot p u v : proper_plane p -> dot (mirror_vector p u) (mirror_vector p v) = dot u v.
Proof.
  intros U. apply unit_dot in U. unfold mirror_vector. set (n := pl_normal p) in *. clearbody n.
  replace (dot (vsub u (vscale (2 * dot u n) n)) (vsub v (vscale (2 * dot v n) n)))
    with (dot u v - 4 * dot u n * dot v n + 4 * dot u n * dot v n * dot n n) by vring. rewrite U. ring.
Qed.
Lemma mirror_point_sub p x y : vsub (mirror_point p x) (mirror_point p y) = mirror_vector p (vsub x y).
Proof. unfold mirror_point, mirror_vector. generalize (pl_c p) (pl_normal p). vring. Qed.
Lemma mirror_isometry p x y : proper_plane p -> dist (mirror_point p x) (mirror_point p y) = dist x y.
Proof. intros U. unfold dist. rewrite mirror_point_sub. apply norm_eq. now apply mirror_vector_dot. Qed.
Lemma mirror_involution p x : proper_plane p -> mirror_point p (mirror_point p x) = x.
Proof.
  intros U. apply unit_dot in U. unfold mirror_point. generalize (pl_c p). set (n := pl_normal p) in *. clearbody n. intros c.
  replace (dot (vsub x (vscale (2 * (dot x n - c)) n)) n) with (dot x n - 2 * (dot x n - c) * dot n n) by vring.
  rewrite U. vring.
Qed.
Lemma mirror_vector_cross p u v : proper_plane p ->
  cross (mirror_vector p u) (mirror_vector p v) = vopp (mirror_vector p (cross u v)).
Proof.
  intros U. apply unit_dot in U. unfold mirror_vector. set (n := pl_normal p) in *. clearbody n.
  assert (E := cross_unit n u v U).
  transitivity (vsub (cross u v) (vscale 2 (vadd (vscale (dot n v) (cross u n)) (vscale (dot n u) (cross n v))))); [clear; vring|].
  rewrite E. clear. vring.
Qed.
Lemma mirror_vector_triple p u v w : proper_plane p ->
  triple (mirror_vector p u) (mirror_vector p v) (mirror_vector p w) = - triple u v w.
Proof.
  intros U. unfold triple. rewrite mirror_vector_cross by exact U.
  replace (dot (vopp (mirror_vector p (cross u v))) (mirror_vector p w)) with (- dot (mirror_vector p (cross u v)) (mirror_vector p w))
    by (generalize (mirror_vector p (cross u v)) (mirror_vector p w); vring).
  now rewrite mirror_vector_dot.
Qed.
(** Through which plane points are really reflected. *)
Lemma mirror_reflected p x : proper_plane p -> 0 <= dot (pl_normal p) (pl_point p) -> reflected p x (mirror_point p x).
Proof.
  intros U P. apply unit_dot in U. unfold reflected, on_plane, mirror_point, pl_c. rewrite Rabs_pos_eq by exact P.
  destruct p as [n q]. cbn [pl_normal pl_point] in *. split.
  - replace (dot (vsub (vscale (1 / 2) (vadd x (vsub x (vscale (2 * (dot x n - dot n q)) n)))) q) n)
      with (dot x n - dot n q - (dot x n - dot n q) * dot n n) by (clear; destruct x, n, q; vunfold; field).
    rewrite U. ring.
  - eexists. transitivity (vscale (- (2 * (dot x n - dot n q))) n); [|reflexivity]. clear. vring.
Qed.
Lemma mirror_wrong_plane p x : proper_plane p -> dot (pl_normal p) (pl_point p) < 0 ->
  reflected (Plane (pl_normal p) (vopp (pl_point p))) x (mirror_point p x) /\ ~ reflected p x (mirror_point p x).
Proof.
  intros U P. apply unit_dot in U. unfold reflected, on_plane, mirror_point, pl_c. rewrite Rabs_left by exact P.
  destruct p as [n q]. cbn [pl_normal pl_point] in *.
  assert (E : forall q', dot (vsub (vscale (1 / 2) (vadd x (vsub x (vscale (2 * (dot x n - - dot n q)) n)))) q') n
      = dot x n - dot n q' - (dot x n + dot n q) * dot n n) by (intros q'; clear; destruct x, n, q, q'; vunfold; field).
  split.
  - split.
    + rewrite E, U. replace (dot n (vopp q)) with (- dot n q) by (clear; vring). ring.
    + eexists. transitivity (vscale (- (2 * (dot x n - - dot n q))) n); [|reflexivity]. clear. vring.
  - rewrite E, U. intros [H _]. lra.
Qed.
Lemma reflected_unique p x y y' : proper_plane p -> reflected p x y -> reflected p x y' -> y = y'.
Proof.
  intros U [H [t Ht]] [H' [t' Ht']]. apply unit_dot in U. unfold on_plane in *. destruct p as [n q]. cbn [pl_normal pl_point] in *.
  assert (Ey : y = vadd x (vscale t n)) by (rewrite <- Ht; clear; vring).
  assert (Ey' : y' = vadd x (vscale t' n)) by (rewrite <- Ht'; clear; vring). subst.
  assert (E : forall s, dot (vsub (vscale (1 / 2) (vadd x (vadd x (vscale s n)))) q) n = dot x n - dot q n + 1 / 2 * s * dot n n)
    by (intros s; clear; destruct x, n, q; vunfold; field).
  rewrite E, U in H, H'. f_equal. f_equal. lra.
Qed.

(** ** Aligning vectors *)
Lemma Rltb_true a b : Rltb a b = true <-> a < b.
Proof. unfold Rltb. destruct (Rlt_dec a b); split; intros; try easy; contradiction. Qed.
Lemma Rltb_false a b : Rltb a b = false <-> b <= a.
Proof. unfold Rltb. destruct (Rlt_dec a b); split; intros; try easy; lra. Qed.
Lemma Rleb_true a b : Rleb a b = true <-> a <= b.
Proof. unfold Rleb. destruct (Rle_dec a b); split; intros; try easy; contradiction. Qed.
Lemma unit_dot_bounds u v : unit_vector u -> unit_vector v -> -1 <= dot u v <= 1.
Proof.
  intros U W. apply unit_dot in U, W.
  assert (P := dot_pos (vsub u v)). assert (Q := dot_pos (vadd u v)).
  replace (dot (vsub u v) (vsub u v)) with (dot u u + dot v v - 2 * dot u v) in P by vring.
  replace (dot (vadd u v) (vadd u v)) with (dot u u + dot v v + 2 * dot u v) in Q by vring. lra.
Qed.
Lemma geom_tol_pos : 0 < geom_tol.
Proof. unfold geom_tol. apply Rinv_0_lt_compat. lra. Qed.
Lemma normalize_some v : v <> v0 -> normalize v = Some (vscale (/ norm v) v).
Proof. intros N. unfold normalize. destruct (Req_EM_T (norm v) 0) as [E|]; [|reflexivity]. exfalso. apply N. now apply norm_zero. Qed.
Lemma align_apart center u v : unit_vector u -> unit_vector v -> parallel_vectors u v = false ->
  exists a t, align_vectors center u v = Rotation a t /\ proper_axis a /\ ax_point a = center
    /\ rotate_vector a t u = v.
Proof.
  intros U W P. unfold align_vectors, parallel_same_direction. rewrite P. cbn [andb].
  assert (N : cross u v <> v0).
  { intros E. unfold parallel_vectors in P. rewrite E in P. apply Rltb_false in P.
    replace (norm v0) with 0 in P by (symmetry; now apply norm_zero). pose proof geom_tol_pos. lra. }
  unfold new_axis. rewrite (normalize_some _ N). pose proof (unit_dot_bounds u v U W) as [B1 B2].
  apply Rleb_true in B1, B2. rewrite B1, B2. cbn [andb]. eexists. eexists. split; [reflexivity|].
  assert (Pr : proper_axis (Axis (vscale (/ norm (cross u v)) (cross u v)) center)).
  { apply (normalize_unit (cross u v)). now apply normalize_some. }
  split; [exact Pr|]. split; [reflexivity|]. rewrite rotate_vector_formula_unit by exact Pr. cbn [ax_vector].
  apply Rleb_true in B1, B2. rewrite cos_acos, sin_acos by (split; assumption).
  assert (L : norm (cross u v) <> 0) by (intros E; apply N; now apply norm_zero).
  assert (E1 : sqrt (1 - (dot u v)²) = norm (cross u v)).
  { unfold norm. f_equal. rewrite lagrange. apply unit_dot in U, W. rewrite U, W, (dot_sym v u). unfold Rsqr. ring. }
  rewrite E1. apply unit_dot in U.
  assert (E2 : dot (vscale (/ norm (cross u v)) (cross u v)) u = 0).
  { rewrite dot_scale_l, dot_sym, dot_cross_self. ring. }
  rewrite E2.
  assert (E3 : vscale (norm (cross u v)) (cross (vscale (/ norm (cross u v)) (cross u v)) u) = cross (cross u v) u).
  { replace (cross (vscale (/ norm (cross u v)) (cross u v)) u) with (vscale (/ norm (cross u v)) (cross (cross u v) u)).
    - set (k := norm (cross u v)) in *. generalize (cross (cross u v) u). intros [x y z]. unfold vscale; cbn.
      apply vec_ext; cbn; field; exact L.
    - generalize (/ norm (cross u v)) (cross u v). vring. }
  rewrite E3. replace (cross (cross u v) u) with (vsub (vscale (dot u u) v) (vscale (dot u v) u)) by vring. rewrite U.
  generalize (dot u v) (vscale (/ norm (cross u v)) (cross u v)). vring.
Qed.
Lemma align_opposite center u : unit_vector u ->
  exists a t, align_vectors center u (vopp u) = Rotation a t /\ proper_axis a /\ ax_point a = center
    /\ rotate_vector a t u = vopp u.
Proof.
  intros U. unfold align_vectors, parallel_same_direction.
  assert (P : parallel_vectors u (vopp u) = true).
  { unfold parallel_vectors. apply Rltb_true. replace (cross u (vopp u)) with v0 by vring.
    replace (norm v0) with 0 by (symmetry; now apply norm_zero). apply geom_tol_pos. }
  rewrite P. cbn [andb].
  assert (D : Rltb 0 (dot u (vopp u)) = false).
  { apply Rltb_false. apply unit_dot in U. replace (dot u (vopp u)) with (- dot u u) by vring. lra. }
  rewrite D. set (e := if parallel_vectors u e_x then e_y else e_x).
  assert (N : cross u e <> v0).
  { unfold e. unfold parallel_vectors. intros E. destruct (Rltb (norm (cross u e_x)) geom_tol) eqn:T.
    - apply Rltb_true in T. apply unit_dot in U. destruct u as [x y z]. unfold cross, dot, e_y, e_x, v0 in *. cbn in *.
      injection E as E1 E2. assert (z = 0) by lra. assert (x = 0) by lra. subst.
      assert (Y : y * y = 1) by lra. unfold norm, dot in T. cbn in T.
      replace (sqrt _) with 1 in T. { unfold geom_tol in T. lra. }
      symmetry. transitivity (sqrt 1); [|apply sqrt_1]. f_equal. lra.
    - rewrite E in T. replace (norm v0) with 0 in T by (symmetry; now apply norm_zero).
      apply Rltb_false in T. pose proof geom_tol_pos. lra. }
  unfold new_axis. rewrite (normalize_some _ N). eexists. eexists. split; [reflexivity|].
  assert (Pr : proper_axis (Axis (vscale (/ norm (cross u e)) (cross u e)) center)).
  { apply (normalize_unit (cross u e)). now apply normalize_some. }
  split; [exact Pr|]. split; [reflexivity|]. rewrite rotate_vector_formula_unit by exact Pr. cbn [ax_vector].
  rewrite cos_PI, sin_PI, dot_scale_l, (dot_sym _ u), dot_cross_self.
  generalize (vscale (/ norm (cross u e)) (cross u e)) (/ norm (cross u e)). vring.
Qed.
Lemma align_not_unit center p : apply_alignment (align_vectors center (V 1 0 0) (V 1 1 0)) p = Some p.
Proof.
  unfold align_vectors, parallel_same_direction.
  assert (E : cross (V 1 0 0) (V 1 1 0) = e_z) by (unfold cross, e_z; apply vec_ext; cbn; ring).
  assert (P : parallel_vectors (V 1 0 0) (V 1 1 0) = false).
  { unfold parallel_vectors. rewrite E. apply Rltb_false. unfold norm, dot, e_z. cbn.
    replace (0 * 0 + 0 * 0 + 1 * 1) with 1 by ring. rewrite sqrt_1. unfold geom_tol. lra. }
  rewrite P. cbn [andb]. rewrite E. unfold new_axis. rewrite normalize_some.
  - replace (dot (V 1 0 0) (V 1 1 0)) with 1 by (unfold dot; cbn; ring).
    replace (Rleb (-1) 1 && Rleb 1 1) with true.
    + cbn [apply_alignment]. rewrite acos_1. now rewrite rotate_zero.
    + symmetry. apply andb_true_intro. split; apply Rleb_true; lra.
  - intros H. injection H. lra.
Qed.
