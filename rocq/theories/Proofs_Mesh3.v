(** Proofs about the properties of faces under transformations. *)
From Coq Require Import Reals List Bool ZArith Lra Lia.
From Verif Require Import Model_Base Model_Geometry Model_Mesh Spec_Mesh Proofs_Geometry Proofs_Mesh Proofs_Mesh2.
Import ListNotations.
Open Scope R_scope.

Lemma norm_scale_unit k u : 0 <= k -> unit_vector u -> norm (vscale k u) = k.
Proof. intros H U. rewrite norm_scale, U, Rabs_pos_eq by exact H. ring. Qed.
Lemma norm_opp u : norm (vopp u) = norm u.
Proof. apply norm_eq. vring. Qed.

Lemma planar_next a b c d : planar_convex a b c d -> planar_convex b c d a.
Proof. intros (u & k1 & k2 & k3 & k4 & H). exists u, k2, k3, k4, k1. tauto. Qed.
Lemma planar_reverse a b c d : planar_convex a b c d -> planar_convex d c b a.
Proof.
  intros (u & k1 & k2 & k3 & k4 & U & P1 & P2 & P3 & P4 & E1 & E2 & E3 & E4).
  exists (vopp u), k2, k1, k4, k3. split; [unfold unit_vector; now rewrite norm_opp|].
  split; [exact P2|]. split; [exact P1|]. split; [exact P4|]. split; [exact P3|].
  split; [|split; [|split]].
  - transitivity (vopp (cross (vsub c b) (vsub d c))); [vring|rewrite E2; vring].
  - transitivity (vopp (cross (vsub b a) (vsub c b))); [vring|rewrite E1; vring].
  - transitivity (vopp (cross (vsub a d) (vsub b a))); [vring|rewrite E4; vring].
  - transitivity (vopp (cross (vsub d c) (vsub a d))); [vring|rewrite E3; vring].
Qed.
(** The centroid does not depend on the diagonal. *)
Lemma planar_volume a b c d : planar_convex a b c d -> dot (cross (vsub b a) (vsub c a)) (vsub d a) = 0.
Proof.
  intros (u & k1 & k2 & k3 & k4 & U & P1 & P2 & P3 & P4 & E1 & E2 & E3 & E4).
  assert (F1 : cross (vsub b a) (vsub c a) = vscale k1 u) by (rewrite <- E1; vring).
  assert (F3 : cross (vsub c a) (vsub d a) = vscale k3 u) by (rewrite <- E3; vring).
  assert (Z : k1 * dot u (vsub b a) = 0) by (rewrite <- dot_scale_l, <- F1; vring).
  apply Rmult_integral in Z. destruct Z as [Z|Z].
  - rewrite F1, Z. vring.
  - transitivity (dot (cross (vsub c a) (vsub d a)) (vsub b a)); [vring|]. rewrite F3, dot_scale_l, Z. ring.
Qed.
Lemma centroid_identity a b c d u :
  vsub (vadd (vscale (dot (cross (vsub b a) (vsub c a)) u) (vadd (vadd a b) c))
             (vscale (dot (cross (vsub c a) (vsub d a)) u) (vadd (vadd c d) a)))
       (vadd (vscale (dot (cross (vsub c b) (vsub d b)) u) (vadd (vadd b c) d))
             (vscale (dot (cross (vsub d b) (vsub a b)) u) (vadd (vadd d a) b)))
  = vscale (- dot (cross (vsub b a) (vsub c a)) (vsub d a)) u.
Proof. vring. Qed.
Record quad_area a b c d (k1 k3 : R) (u : vec) : Prop := {
  qa_unit : unit_vector u; qa_k1 : 0 <= k1; qa_k3 : 0 <= k3;
  qa_1 : cross (vsub b a) (vsub c a) = vscale k1 u;
  qa_3 : cross (vsub d a) (vsub c a) = vscale (- k3) u }.
Lemma quad_props_value a b c d k1 k3 u : quad_area a b c d k1 k3 u ->
  quad_props (Q a b c d) =
  if Rltb (k1 + k3) degenerate_tol then (0, v0, v0)
  else ((k1 + k3) / 2, u,
        vscale (/ (3 * (k1 + k3))) (vadd (vscale k1 (vadd (vadd a b) c)) (vscale k3 (vadd (vadd c d) a)))).
Proof.
  intros [U P1 P3 E1 E3]. unfold quad_props. cbn [qa qb qc qd].
  assert (En : cross (vsub c a) (vsub d b) = vscale (k1 + k3) u).
  { transitivity (vsub (cross (vsub b a) (vsub c a)) (cross (vsub d a) (vsub c a))); [vring|]. rewrite E1, E3. vring. }
  assert (N1 : norm (cross (vsub b a) (vsub c a)) = k1) by (rewrite E1; now apply norm_scale_unit).
  assert (N3 : norm (cross (vsub d a) (vsub c a)) = k3).
  { rewrite E3, norm_scale, U, Rabs_Ropp, Rabs_pos_eq by exact P3. ring. }
  assert (N : norm (cross (vsub c a) (vsub d b)) = k1 + k3) by (rewrite En; apply norm_scale_unit; [lra|exact U]).
  rewrite N1, N3, N, En, Rabs_pos_eq by lra.
  destruct (Rltb (k1 + k3) degenerate_tol) eqn:T; [reflexivity|]. apply Rltb_false in T. pose proof degenerate_tol_pos.
  f_equal; [f_equal|].
  - field.
  - destruct u. unfold vscale; cbn. apply vec_ext; cbn; field; lra.
  - destruct a, b, c, d. unfold vscale, vadd; cbn. apply vec_ext; cbn; field; lra.
Qed.
Lemma planar_area a b c d : planar_convex a b c d ->
  exists u k1 k2 k3 k4, quad_area a b c d k1 k3 u /\ quad_area b c d a k2 k4 u /\ quad_area d c b a k2 k4 (vopp u)
    /\ k1 + k3 = k2 + k4
    /\ vadd (vscale k1 (vadd (vadd a b) c)) (vscale k3 (vadd (vadd c d) a))
       = vadd (vscale k2 (vadd (vadd b c) d)) (vscale k4 (vadd (vadd d a) b)).
Proof.
  intros Pc. pose proof (planar_volume a b c d Pc) as Vol.
  destruct Pc as (u & k1 & k2 & k3 & k4 & U & P1 & P2 & P3 & P4 & E1 & E2 & E3 & E4).
  assert (U' : unit_vector (vopp u)) by (unfold unit_vector; now rewrite norm_opp).
  assert (A1 : cross (vsub b a) (vsub c a) = vscale k1 u) by (rewrite <- E1; vring).
  assert (A3 : cross (vsub c a) (vsub d a) = vscale k3 u) by (rewrite <- E3; vring).
  assert (A2 : cross (vsub c b) (vsub d b) = vscale k2 u) by (rewrite <- E2; vring).
  assert (A4 : cross (vsub d b) (vsub a b) = vscale k4 u) by (rewrite <- E4; vring).
  assert (Un := proj1 (unit_dot u) U).
  assert (D : forall k, dot (vscale k u) u = k) by (intros k; rewrite dot_scale_l, Un; ring).
  exists u, k1, k2, k3, k4. split; [|split; [|split; [|split]]].
  - constructor; try assumption. transitivity (vopp (cross (vsub c a) (vsub d a))); [vring|rewrite A3; vring].
  - constructor; try assumption. transitivity (vopp (cross (vsub d b) (vsub a b))); [vring|rewrite A4; vring].
  - constructor; try assumption.
    + transitivity (vopp (cross (vsub c b) (vsub d b))); [vring|rewrite A2; vring].
    + transitivity (cross (vsub d b) (vsub a b)); [vring|rewrite A4; vring].
  - rewrite <- (D k1), <- (D k2), <- (D k3), <- (D k4), <- A1, <- A2, <- A3, <- A4. vring.
  - pose proof (centroid_identity a b c d u) as I. rewrite A1, A2, A3, A4, !D in I. rewrite A1 in Vol.
    assert (Z : dot (vscale k1 u) (vsub d a) = 0) by exact Vol. rewrite Z in I.
    set (x := vadd (vscale k1 _) _) in *. set (y := vadd (vscale k2 _) _) in *.
    transitivity (vadd (vsub x y) y); [clearbody x y; vring|]. rewrite I. clearbody x y. vring.
Qed.
Lemma planar_props_next a b c d : planar_convex a b c d -> quad_props (Q b c d a) = quad_props (Q a b c d).
Proof.
  intros Pc. destruct (planar_area a b c d Pc) as (u & k1 & k2 & k3 & k4 & A & B & _ & S & C).
  rewrite (quad_props_value _ _ _ _ _ _ _ A), (quad_props_value _ _ _ _ _ _ _ B), S, C.
  destruct (Rltb (k2 + k4) degenerate_tol); reflexivity.
Qed.
Lemma planar_props_reverse a b c d : planar_convex a b c d ->
  quad_props (Q d c b a) = let '(s, n, g) := quad_props (Q a b c d) in (s, vopp n, g).
Proof.
  intros Pc. destruct (planar_area a b c d Pc) as (u & k1 & k2 & k3 & k4 & A & _ & B & S & C).
  rewrite (quad_props_value _ _ _ _ _ _ _ A), (quad_props_value _ _ _ _ _ _ _ B), S, C.
  destruct (Rltb (k2 + k4) degenerate_tol).
  - f_equal. f_equal. vring.
  - f_equal. f_equal. clear. vring.
Qed.
Lemma tri_props_reverse a b c : tri_props (Q a c b a) = let '(s, n, g) := tri_props (Q a b c a) in (s, vopp n, g).
Proof.
  unfold tri_props. cbn [qa qb qc qd].
  replace (cross (vsub c a) (vsub b a)) with (vopp (cross (vsub b a) (vsub c a))) by vring. rewrite norm_opp.
  destruct (Rltb _ _).
  - f_equal. f_equal. vring.
  - f_equal; [f_equal|].
    + generalize (cross (vsub b a) (vsub c a)) (/ norm (cross (vsub b a) (vsub c a))). vring.
    + vring.
Qed.
Lemma radius_perm g a b c d : radius g (Q b c d a) = radius g (Q a b c d) /\ radius g (Q d c b a) = radius g (Q a b c d).
Proof.
  unfold radius. cbn. generalize (norm (vsub g a)) (norm (vsub g b)) (norm (vsub g c)) (norm (vsub g d)). intros x y z t.
  split.
  - rewrite (Rmax_comm (Rmax y z)), (Rmax_comm t x), <- !Rmax_assoc. f_equal.
    rewrite (Rmax_comm t), <- !Rmax_assoc. reflexivity.
  - rewrite (Rmax_comm t z), (Rmax_comm y x). apply Rmax_comm.
Qed.

(** ** Isometries *)
Section Isometry.
  Variable L : vec -> vec.
  Variable tr : vec.
  Variable sg : R.
  Hypothesis L_add : forall u v, L (vadd u v) = vadd (L u) (L v).
  Hypothesis L_scale : forall k u, L (vscale k u) = vscale k (L u).
  Hypothesis L_dot : forall u v, dot (L u) (L v) = dot u v.
  Hypothesis L_cross : forall u v, cross (L u) (L v) = vscale sg (L (cross u v)).
  Hypothesis sg_one : sg * sg = 1.
  Definition iso (x : vec) : vec := vadd (L x) tr.
  Definition iso_quad (q : quad) : quad := Q (iso (qa q)) (iso (qb q)) (iso (qc q)) (iso (qd q)).
  Lemma L_sub u v : L (vsub u v) = vsub (L u) (L v).
  Proof. replace (vsub u v) with (vadd u (vscale (-1) v)) by (clear; vring). rewrite L_add, L_scale. generalize (L u) (L v). clear; vring. Qed.
  Lemma iso_sub x y : vsub (iso x) (iso y) = L (vsub x y).
  Proof. unfold iso. rewrite L_sub. generalize (L x) (L y) tr. clear. intros u1 u2 u3. vring. Qed.
  Lemma L_norm u : norm (L u) = norm u.
  Proof. apply norm_eq, L_dot. Qed.
  Lemma abs_sg : Rabs sg = 1.
  Proof. unfold Rabs. destruct (Rcase_abs sg); nra. Qed.
  Lemma cross_norm u v : norm (cross (L u) (L v)) = norm (cross u v).
  Proof. rewrite L_cross, norm_scale, abs_sg, L_norm. ring. Qed.
  Lemma L_zero : L v0 = v0.
  Proof. replace v0 with (vscale 0 v0) by (clear; vring). rewrite L_scale. generalize (L v0). clear; vring. Qed.
  Lemma iso_tri q : tri_props (iso_quad q) =
    if Rltb (Rabs (norm (cross (vsub (qb q) (qa q)) (vsub (qc q) (qa q))))) degenerate_tol then (0, v0, v0)
    else let '(s, n, g) := tri_props q in (s, vscale sg (L n), iso g).
  Proof.
    unfold tri_props, iso_quad. cbn [qa qb qc qd]. rewrite !iso_sub, cross_norm.
    destruct (Rltb _ _); [reflexivity|]. f_equal; [f_equal|].
    - rewrite L_cross, L_scale. generalize (L (cross (vsub (qb q) (qa q)) (vsub (qc q) (qa q)))) (/ norm (cross (vsub (qb q) (qa q)) (vsub (qc q) (qa q)))).
      clear; vring.
    - unfold iso. rewrite L_scale, !L_add. generalize (L (qa q)) (L (qb q)) (L (qc q)) tr. clear. intros [? ? ?] [? ? ?] [? ? ?] [? ? ?].
      unfold vscale, vadd; cbn. apply vec_ext; cbn; field.
  Qed.
  Lemma iso_quad_props q : quad_props (iso_quad q) =
    if Rltb (Rabs (norm (cross (vsub (qc q) (qa q)) (vsub (qd q) (qb q))))) degenerate_tol then (0, v0, v0)
    else let '(s, n, g) := quad_props q in (s, vscale sg (L n), iso g).
  Proof.
    unfold quad_props, iso_quad. cbn [qa qb qc qd]. rewrite !iso_sub, !cross_norm.
    destruct (Rltb _ _) eqn:T; [reflexivity|]. f_equal; [f_equal|].
    - rewrite L_cross, L_scale. generalize (L (cross (vsub (qc q) (qa q)) (vsub (qd q) (qb q)))) (/ norm (cross (vsub (qc q) (qa q)) (vsub (qd q) (qb q)))).
      clear; vring.
    - pose proof (quad_area_pos q T) as P. revert P.
      generalize (norm (cross (vsub (qb q) (qa q)) (vsub (qc q) (qa q))) * (1 / 2)) (norm (cross (vsub (qd q) (qa q)) (vsub (qc q) (qa q))) * (1 / 2)).
      intros x y P. unfold iso. rewrite !L_scale, !L_add, !L_scale, !L_add.
      generalize (L (qa q)) (L (qb q)) (L (qc q)) (L (qd q)) tr. clear - P. intros [? ? ?] [? ? ?] [? ? ?] [? ? ?] [? ? ?].
      unfold vscale, vadd; cbn. apply vec_ext; cbn; field; lra.
  Qed.
  Lemma iso_radius g q : radius (iso g) (iso_quad q) = radius g q.
  Proof. unfold radius, iso_quad. cbn [qa qb qc qd]. now rewrite !iso_sub, !L_norm. Qed.
  Lemma props_nondegenerate tri q : p_area (props_of tri q) <> 0 ->
    (if tri then Rltb (Rabs (norm (cross (vsub (qb q) (qa q)) (vsub (qc q) (qa q))))) degenerate_tol
     else Rltb (Rabs (norm (cross (vsub (qc q) (qa q)) (vsub (qd q) (qb q))))) degenerate_tol) = false.
  Proof.
    unfold props_of, tri_props, quad_props. destruct tri.
    - destruct (Rltb _ _); [now intros []|reflexivity].
    - destruct (Rltb _ _); [now intros []|reflexivity].
  Qed.
  Lemma iso_props tri q : p_area (props_of tri q) <> 0 ->
    moved iso (fun n => vscale sg (L n)) (props_of tri q) (props_of tri (iso_quad q)).
  Proof.
    intros N. apply props_nondegenerate in N. unfold props_of. destruct tri.
    - rewrite iso_tri, N. destruct (tri_props q) as [[s n] g]. unfold moved. cbn. rewrite iso_radius. auto.
    - rewrite iso_quad_props, N. destruct (quad_props q) as [[s n] g]. unfold moved. cbn. rewrite iso_radius. auto.
  Qed.
  Lemma iso_degenerate tri q : p_area (props_of tri q) = 0 -> p_area (props_of tri (iso_quad q)) = 0.
  Proof.
    unfold props_of. destruct tri.
    - rewrite iso_tri. unfold tri_props. destruct (Rltb _ _); [reflexivity|]. cbn. auto.
    - rewrite iso_quad_props. unfold quad_props. destruct (Rltb _ _); [reflexivity|]. cbn. auto.
  Qed.
End Isometry.

Lemma translation_props t tri q : p_area (props_of tri q) <> 0 ->
  moved (fun x => vadd x t) (fun n => n) (props_of tri q) (props_of tri (Q (vadd (qa q) t) (vadd (qb q) t) (vadd (qc q) t) (vadd (qd q) t))).
Proof.
  intros N. pose proof (iso_props (fun x => x) t 1 (fun _ _ => eq_refl) (fun _ _ => eq_refl) (fun _ _ => eq_refl)) as H.
  destruct (H ltac:(intros; vring) ltac:(ring) tri q N) as (A & B & C & D). split; [exact A|]. split; [|split; [exact C|exact D]].
  etransitivity; [exact B|]. generalize (p_normal (props_of tri q)). vring.
Qed.
Lemma rotation_props a th tri q : proper_axis a -> p_area (props_of tri q) <> 0 ->
  moved (rotate_point a th) (rotate_vector a th) (props_of tri q)
        (props_of tri (Q (rotate_point a th (qa q)) (rotate_point a th (qb q)) (rotate_point a th (qc q)) (rotate_point a th (qd q)))).
Proof.
  intros U N. set (t0 := vsub (ax_point a) (rotate_vector a th (ax_point a))).
  assert (E : forall x, rotate_point a th x = iso (rotate_vector a th) t0 x).
  { intros x. unfold rotate_point, iso, t0. rewrite rotate_vector_sub.
    generalize (rotate_vector a th x) (rotate_vector a th (ax_point a)) (ax_point a). vring. }
  pose proof (iso_props (rotate_vector a th) t0 1 (rotate_vector_add a th) (rotate_vector_scale a th)) as H.
  destruct (H ltac:(intros; now apply rotate_vector_dot)
              ltac:(intros; rewrite rotate_vector_cross by exact U; generalize (rotate_vector a th (cross u v)); vring)
              ltac:(ring) tri q N) as (A & B & C & D).
  unfold iso_quad in A, B, C, D. rewrite <- (E (p_center (props_of tri q))) in C. rewrite <- !E in A, B, C, D. split; [exact A|]. split; [|split; [exact C|exact D]].
  etransitivity; [exact B|]. generalize (rotate_vector a th (p_normal (props_of tri q))). vring.
Qed.
(** Mirroring reverses the order of the corners. *)
Lemma mirror_props p tri q : proper_plane p -> (tri = true -> qa q = qd q) ->
  (tri = true \/ planar_convex (qa q) (qb q) (qc q) (qd q)) -> p_area (props_of tri q) <> 0 ->
  moved (mirror_point p) (mirror_vector p) (props_of tri q)
        (props_of tri (Q (mirror_point p (qd q)) (mirror_point p (qc q)) (mirror_point p (qb q)) (mirror_point p (qa q)))).
Proof.
  intros U T Pc N. set (t0 := vscale (2 * pl_c p) (pl_normal p)).
  assert (E : forall x, mirror_point p x = iso (mirror_vector p) t0 x).
  { intros x. unfold mirror_point, mirror_vector, iso, t0. generalize (pl_c p) (pl_normal p). vring. }
  assert (La : forall u v, mirror_vector p (vadd u v) = vadd (mirror_vector p u) (mirror_vector p v)).
  { unfold mirror_vector. generalize (pl_normal p). vring. }
  assert (Ls : forall k u, mirror_vector p (vscale k u) = vscale k (mirror_vector p u)).
  { unfold mirror_vector. generalize (pl_normal p). vring. }
  pose proof (iso_props (mirror_vector p) t0 (-1) La Ls) as H.
  assert (Lc : forall u v, cross (mirror_vector p u) (mirror_vector p v) = vscale (-1) (mirror_vector p (cross u v))).
  { intros u v. now rewrite mirror_vector_cross. }
  destruct (H ltac:(intros; now apply mirror_vector_dot) Lc ltac:(ring) tri q N) as (A & B & C & D).
  clear H. unfold iso_quad in A, B, C, D. rewrite <- (E (p_center (props_of tri q))) in C. rewrite <- !E in A, B, C, D. destruct q as [a b c d]. cbn [qa qb qc qd] in *.
  set (a' := mirror_point p a) in *. set (b' := mirror_point p b) in *.
  set (c' := mirror_point p c) in *. set (d' := mirror_point p d) in *.
  set (pr := props_of tri (Q a b c d)) in *.
  assert (F : exists s n g, (if tri then tri_props (Q a' b' c' d') else quad_props (Q a' b' c' d')) = (s, n, g)
     /\ (if tri then tri_props (Q d' c' b' a') else quad_props (Q d' c' b' a')) = (s, vopp n, g)).
  { destruct tri.
    - assert (Ed : d' = a') by (unfold a', d'; now rewrite (T eq_refl)). rewrite Ed, (tri_props_reverse a' b' c').
      destruct (tri_props (Q a' b' c' a')) as [[s n] g]. now exists s, n, g.
    - destruct Pc as [Pc|Pc]; [discriminate|].
      assert (Pc' : planar_convex a' b' c' d').
      { destruct Pc as (u & k1 & k2 & k3 & k4 & Uu & P1 & P2 & P3 & P4 & E1 & E2 & E3 & E4).
        exists (vopp (mirror_vector p u)), k1, k2, k3, k4.
        assert (X : forall x y z t k, cross (vsub x y) (vsub z t) = vscale k u ->
           cross (vsub (mirror_point p x) (mirror_point p y)) (vsub (mirror_point p z) (mirror_point p t)) = vscale k (vopp (mirror_vector p u))).
        { intros x y z t k Ek. rewrite !mirror_point_sub, Lc, Ek, Ls. generalize (mirror_vector p u). vring. }
        split; [unfold unit_vector; rewrite norm_opp; transitivity (norm u); [apply norm_eq; now apply mirror_vector_dot|exact Uu]|].
        unfold a', b', c', d'. auto 12. }
      rewrite (planar_props_reverse _ _ _ _ Pc'). destruct (quad_props (Q a' b' c' d')) as [[s n] g]. now exists s, n, g. }
  destruct F as (s & n & g & F1 & F2). unfold props_of in A, B, C, D |- *. rewrite F1 in A, B, C, D. rewrite F2.
  cbn [p_area p_normal p_center p_radius] in *. unfold moved. cbn [p_area p_normal p_center p_radius].
  split; [exact A|]. split; [rewrite B; generalize (mirror_vector p (p_normal pr)); vring|]. split; [exact C|].
  rewrite (proj2 (radius_perm g a' b' c' d')). exact D.
Qed.

(** ** Meshes *)
Lemma map_points g vs f q : face_points vs f = Ok q ->
  face_points (map g vs) f = Ok (Q (g (qa q)) (g (qb q)) (g (qc q)) (g (qd q))).
Proof.
  rewrite !face_points_ok. cbn [qa qb qc qd]. intros (A & B & C & D).
  repeat split; now apply map_nth_error.
Qed.
Lemma face_points_tri vs f q : face_points vs f = Ok q -> is_tri f = true -> qa q = qd q.
Proof.
  rewrite face_points_ok. intros (A & _ & _ & D) T. apply Nat.eqb_eq in T. rewrite T in A. congruence.
Qed.
Lemma faces_props_ok m ps : faces_props m = Ok ps <-> length ps = length (m_faces m) /\
  forall k f, nth_error (m_faces m) k = Some f -> exists q, face_points (m_vertices m) f = Ok q
    /\ nth_error ps k = Some (props_of (is_tri f) q).
Proof.
  unfold faces_props. rewrite mapM_ok. split; intros [L H]; (split; [exact L|]); intros k f E; specialize (H k f E).
  - destruct H as (y & Hy & N). unfold face_props in Hy. destruct (face_points (m_vertices m) f) as [q|]; [|discriminate].
    cbn [bind] in Hy. apply Ok_inj' in Hy. subst y. now exists q.
  - destruct H as (q & Hq & N). exists (props_of (is_tri f) q). split; [|exact N]. unfold face_props. now rewrite Hq.
Qed.
Section Transformed.
  Variable g : vec -> vec.
  Lemma transformed_valid m : valid m -> valid (Mesh (map g (m_vertices m)) (m_faces m)).
  Proof. intros H f i Hf Hi. cbn in *. rewrite map_length. eapply H; eassumption. Qed.
  Lemma transformed_face_is m k a b c d : face_is m k a b c d ->
    face_is (Mesh (map g (m_vertices m)) (m_faces m)) k (g a) (g b) (g c) (g d).
  Proof.
    rewrite !face_is_points. intros (f & E & P). exists f. split; [exact E|]. cbn. now rewrite (map_points g _ _ _ P).
  Qed.
  Lemma transformed_props m ps (fl : bool) (rel : fprops -> fprops -> Prop) : valid m -> faces_props m = Ok ps ->
    (forall k f q, nth_error (m_faces m) k = Some f -> face_points (m_vertices m) f = Ok q ->
       rel (props_of (is_tri f) q)
           (props_of (is_tri f) (if fl then Q (g (qd q)) (g (qc q)) (g (qb q)) (g (qa q))
                                 else Q (g (qa q)) (g (qb q)) (g (qc q)) (g (qd q))))) ->
    exists ps', faces_props (if fl then flip_normals (Mesh (map g (m_vertices m)) (m_faces m))
                             else Mesh (map g (m_vertices m)) (m_faces m)) = Ok ps'
      /\ length ps' = length ps
      /\ forall k x, nth_error ps k = Some x -> exists y, nth_error ps' k = Some y /\ rel x y.
  Proof.
    intros Vm Hps H. set (m' := if fl then _ else _).
    assert (Vm' : valid m').
    { unfold m'. destruct fl; [apply flip_valid|]; now apply transformed_valid. }
    destruct (valid_faces_props m' Vm') as [ps' Hps']. exists ps'. split; [exact Hps'|].
    apply faces_props_ok in Hps. apply faces_props_ok in Hps'. destruct Hps as [L1 H1], Hps' as [L2 H2].
    assert (L : length (m_faces m') = length (m_faces m)) by (unfold m'; destruct fl; cbn; now rewrite ?map_length).
    split; [congruence|]. intros k x Hx.
    destruct (nth_error (m_faces m) k) as [f|] eqn:Ef.
    2:{ apply nth_error_None in Ef. assert (k < length ps)%nat by (apply nth_error_Some; congruence). lia. }
    destruct (H1 k f Ef) as (q & Pq & Nq). rewrite Nq in Hx. injection Hx as <-. specialize (H k f q Ef Pq).
    pose proof (map_points g _ _ _ Pq) as Pg.
    destruct fl.
    - assert (Ef' : nth_error (m_faces m') k = Some (flip_face f)) by (cbn; now apply map_nth_error).
      destruct (H2 k _ Ef') as (q' & Pq' & Nq'). eexists. split; [exact Nq'|].
      assert (q' = Q (g (qd q)) (g (qc q)) (g (qb q)) (g (qa q))) as ->.
      { apply face_points_ok in Pg. apply face_points_ok in Pq'. cbn in Pg, Pq'. destruct q'; cbn in *.
        destruct Pg as (? & ? & ? & ?), Pq' as (? & ? & ? & ?). f_equal; congruence. }
      replace (is_tri (flip_face f)) with (is_tri f); [exact H|]. unfold is_tri, flip_face. cbn. apply Nat.eqb_sym.
    - destruct (H2 k _ Ef) as (q' & Pq' & Nq'). eexists. split; [exact Nq'|].
      cbn in Pq'. rewrite Pg in Pq'. apply Ok_inj' in Pq'. subst q'. exact H.
  Qed.
End Transformed.

Lemma translate_mesh m t ps : valid m -> faces_props m = Ok ps ->
  exists ps', faces_props (translate m t) = Ok ps' /\ length ps' = length ps
    /\ forall k x, nth_error ps k = Some x -> exists y, nth_error ps' k = Some y
         /\ (p_area x <> 0 -> moved (fun p => vadd p t) (fun n => n) x y).
Proof.
  intros Vm Hps. apply (transformed_props (fun p => vadd p t) m ps false (fun x y => p_area x <> 0 -> moved (fun p => vadd p t) (fun n => n) x y) Vm Hps).
  intros k f q Ef Pq N. now apply translation_props.
Qed.
Lemma rotate_mesh m a th ps : valid m -> proper_axis a -> faces_props m = Ok ps ->
  exists ps', faces_props (rotate m a th) = Ok ps' /\ length ps' = length ps
    /\ forall k x, nth_error ps k = Some x -> exists y, nth_error ps' k = Some y
         /\ (p_area x <> 0 -> moved (rotate_point a th) (rotate_vector a th) x y).
Proof.
  intros Vm U Hps. apply (transformed_props (rotate_point a th) m ps false (fun x y => p_area x <> 0 -> moved (rotate_point a th) (rotate_vector a th) x y) Vm Hps).
  intros k f q Ef Pq N. now apply rotation_props.
Qed.
Lemma mirror_mesh m p ps : valid m -> flat m -> proper_plane p -> faces_props m = Ok ps ->
  exists ps', faces_props (mirror m p) = Ok ps' /\ length ps' = length ps
    /\ forall k x, nth_error ps k = Some x -> exists y, nth_error ps' k = Some y
         /\ (p_area x <> 0 -> moved (mirror_point p) (mirror_vector p) x y).
Proof.
  intros Vm Fm U Hps. apply (transformed_props (mirror_point p) m ps true (fun x y => p_area x <> 0 -> moved (mirror_point p) (mirror_vector p) x y) Vm Hps).
  intros k f q Ef Pq N. apply mirror_props; [exact U| |  |exact N].
  - now apply (face_points_tri _ _ _ Pq).
  - destruct (Fm k f (qa q) (qb q) (qc q) (qd q) Ef) as [E|E].
    + apply face_is_points. exists f. split; [exact Ef|]. now destruct q.
    + left. now apply Nat.eqb_eq.
    + now right.
Qed.
Lemma reverse_props tri q : (tri = true -> qa q = qd q) -> (tri = true \/ planar_convex (qa q) (qb q) (qc q) (qd q)) ->
  moved (fun p => p) vopp (props_of tri q) (props_of tri (Q (qd q) (qc q) (qb q) (qa q))).
Proof.
  intros T Pc. destruct q as [a b c d]. cbn [qa qb qc qd] in *. unfold props_of. destruct tri.
  - assert (Ed : d = a) by (symmetry; auto). subst d. rewrite (tri_props_reverse a b c). destruct (tri_props (Q a b c a)) as [[s n] g]. unfold moved. cbn [p_area p_normal p_center p_radius].
    rewrite (proj2 (radius_perm g a b c a)). auto.
  - destruct Pc as [Pc|Pc]; [discriminate|]. rewrite (planar_props_reverse _ _ _ _ Pc).
    destruct (quad_props (Q a b c d)) as [[s n] g]. unfold moved. cbn [p_area p_normal p_center p_radius]. rewrite (proj2 (radius_perm g a b c d)). auto.
Qed.
Lemma flip_mesh m ps : valid m -> flat m -> faces_props m = Ok ps ->
  exists ps', faces_props (flip_normals m) = Ok ps' /\ length ps' = length ps
    /\ forall k x, nth_error ps k = Some x -> exists y, nth_error ps' k = Some y /\ moved (fun p => p) vopp x y.
Proof.
  intros Vm Fm Hps.
  destruct (transformed_props (fun p => p) m ps true (moved (fun p => p) vopp) Vm Hps) as (ps' & A & B & C).
  - intros k f q Ef Pq. apply reverse_props; [now apply (face_points_tri _ _ _ Pq)|].
    destruct (Fm k f (qa q) (qb q) (qc q) (qd q) Ef) as [E|E].
    + apply face_is_points. exists f. split; [exact Ef|]. now destruct q.
    + left. now apply Nat.eqb_eq.
    + now right.
  - exists ps'. rewrite map_id in A. destruct m. auto.
Qed.

(** Healing keeps the properties of the flat faces. *)
Lemma heal_quad vs f q : face_points vs f = Ok q -> is_tri f = false -> planar_convex (qa q) (qb q) (qc q) (qd q) ->
  face_props vs (heal_face f) = face_props vs f.
Proof.
  assert (R : forall f q, face_points vs f = Ok q -> is_tri f = false -> planar_convex (qa q) (qb q) (qc q) (qd q) ->
     face_props vs (roll f) = face_props vs f /\ face_points vs (roll f) = Ok (Q (qd q) (qa q) (qb q) (qc q))
     /\ planar_convex (qd q) (qa q) (qb q) (qc q)).
  { clear. intros f q Pq T Pc. destruct q as [a b c d]. cbn [qa qb qc qd] in *.
    assert (Pr : face_points vs (roll f) = Ok (Q d a b c)).
    { apply face_points_ok in Pq. apply face_points_ok. cbn in *. tauto. }
    assert (Pc' : planar_convex d a b c) by (do 3 apply planar_next; exact Pc).
    split; [|now split].
    unfold face_props. rewrite Pq, Pr. cbn [bind]. f_equal.
    rewrite T. assert (E1 : props_of false (Q d a b c) = props_of false (Q a b c d)).
    { unfold props_of. rewrite <- (planar_props_next _ _ _ _ Pc'). destruct (quad_props (Q a b c d)) as [[s n] g].
      f_equal. symmetry. apply (proj1 (radius_perm g d a b c)). }
    rewrite <- E1. symmetry. apply props_of_one_face. cbn. apply (face_points_tri _ _ _ Pr). }
  assert (S1 : forall f q, face_points vs f = Ok q -> (is_tri f = true \/ planar_convex (qa q) (qb q) (qc q) (qd q)) ->
     face_props vs (roll_quad f) = face_props vs f /\ exists q', face_points vs (roll_quad f) = Ok q'
       /\ (is_tri (roll_quad f) = true \/ planar_convex (qa q') (qb q') (qc q') (qd q'))).
  { clear f q. intros f q Pq H. unfold roll_quad. destruct (is_tri f) eqn:T.
    - split; [reflexivity|]. exists q. auto.
    - destruct H as [H|H]; [discriminate|]. destruct (R f q Pq T H) as (A & B & C). split; [exact A|].
      eexists. split; [exact B|]. now right. }
  intros Pq _ Pc. unfold heal_face.
  destruct (S1 f q Pq (or_intror Pc)) as (A1 & q1 & B1 & C1).
  destruct (S1 _ q1 B1 C1) as (A2 & q2 & B2 & C2). destruct (S1 _ q2 B2 C2) as (A3 & _).
  now rewrite A3, A2, A1.
Qed.
Lemma heal_mesh m : valid m -> flat m -> faces_props (heal_triangles m) = faces_props m.
Proof.
  intros Vm Fm. unfold faces_props, heal_triangles. cbn. rewrite mapM_map_in. apply mapM_ext. intros f Hf.
  destruct (valid_points m f Vm Hf) as [q Pq]. destruct (is_tri f) eqn:T; [now rewrite heal_idempotent|].
  apply (heal_quad _ f q Pq T). apply In_nth_error in Hf. destruct Hf as [k Ek].
  destruct (Fm k f (qa q) (qb q) (qc q) (qd q) Ek) as [E|E].
  - apply face_is_points. exists f. split; [exact Ek|]. now destruct q.
  - unfold is_tri in T. apply Nat.eqb_neq in T. congruence.
  - exact E.
Qed.

(** A face whose vertices are not in a plane. *)
Definition warped : mesh := Mesh [V 0 0 0; V 1 0 0; V 1 1 1; V 0 1 0] [F 0 1 2 3].
Lemma sqrt_sum3 x y z t : x * x + y * y + z * z = t -> norm (V x y z) = sqrt t.
Proof. intros <-. unfold norm, dot. cbn. reflexivity. Qed.
Ltac norm_value t := unfold vsub, vadd, cross, vscale; cbn [vx vy vz]; apply (sqrt_sum3 _ _ _ t); ring.
Lemma warped_props : exists x y z, faces_props warped = Ok [x] /\ faces_props (heal_triangles warped) = Ok [y]
  /\ faces_props (flip_normals warped) = Ok [z]
  /\ p_area x = sqrt 2 /\ p_area y = (sqrt 3 + 1) / 2 /\ p_area z = (sqrt 3 + 1) / 2.
Proof.
  do 3 eexists. split; [reflexivity|]. split; [reflexivity|]. split; [reflexivity|].
  assert (D : forall n, degenerate_tol <= n -> Rltb (Rabs n) degenerate_tol = false).
  { intros n H. apply Rltb_false. pose proof degenerate_tol_pos. now rewrite Rabs_pos_eq by lra. }
  assert (S2 : 1 <= sqrt 2) by (rewrite <- sqrt_1 at 1; apply sqrt_le_1; lra).
  assert (S6 : degenerate_tol <= sqrt 6).
  { apply Rle_trans with (sqrt 1); [rewrite sqrt_1; unfold degenerate_tol; lra|apply sqrt_le_1; lra]. }
  split; [|split].
  - unfold props_of, quad_props. cbn [is_tri heal_face roll_quad roll flip_face fa fb fc fd Nat.eqb qa qb qc qd].
    replace (norm (cross (vsub (V 1 1 1) (V 0 0 0)) (vsub (V 0 1 0) (V 1 0 0)))) with (sqrt 6) by (symmetry; norm_value 6).
    rewrite D by exact S6. cbn [p_area].
    replace (norm (cross (vsub (V 1 0 0) (V 0 0 0)) (vsub (V 1 1 1) (V 0 0 0)))) with (sqrt 2) by (symmetry; norm_value 2).
    replace (norm (cross (vsub (V 0 1 0) (V 0 0 0)) (vsub (V 1 1 1) (V 0 0 0)))) with (sqrt 2) by (symmetry; norm_value 2).
    field.
  - unfold props_of, quad_props. cbn [is_tri heal_face roll_quad roll flip_face fa fb fc fd Nat.eqb qa qb qc qd].
    replace (norm (cross (vsub (V 0 1 0) (V 1 0 0)) (vsub (V 0 0 0) (V 1 1 1)))) with (sqrt 6) by (symmetry; norm_value 6).
    rewrite D by exact S6. cbn [p_area].
    replace (norm (cross (vsub (V 1 1 1) (V 1 0 0)) (vsub (V 0 1 0) (V 1 0 0)))) with (sqrt 3) by (symmetry; norm_value 3).
    replace (norm (cross (vsub (V 0 0 0) (V 1 0 0)) (vsub (V 0 1 0) (V 1 0 0)))) with (sqrt 1) by (symmetry; norm_value 1).
    rewrite sqrt_1. field.
  - unfold props_of, quad_props. cbn [is_tri heal_face roll_quad roll flip_face fa fb fc fd Nat.eqb qa qb qc qd].
    replace (norm (cross (vsub (V 1 0 0) (V 0 1 0)) (vsub (V 0 0 0) (V 1 1 1)))) with (sqrt 6) by (symmetry; norm_value 6).
    rewrite D by exact S6. cbn [p_area].
    replace (norm (cross (vsub (V 1 1 1) (V 0 1 0)) (vsub (V 1 0 0) (V 0 1 0)))) with (sqrt 3) by (symmetry; norm_value 3).
    replace (norm (cross (vsub (V 0 0 0) (V 0 1 0)) (vsub (V 1 0 0) (V 0 1 0)))) with (sqrt 1) by (symmetry; norm_value 1).
    rewrite sqrt_1. field.
Qed.
Lemma warped_areas_neq : (sqrt 3 + 1) / 2 <> sqrt 2.
Proof.
  intros H. assert (0 <= sqrt 2) by apply sqrt_pos. assert (0 <= sqrt 3) by apply sqrt_pos.
  pose proof (sqrt_sqrt 2 ltac:(lra)). pose proof (sqrt_sqrt 3 ltac:(lra)).
  assert (sqrt 3 = 2 * sqrt 2 - 1) by lra. assert (sqrt 2 = 3 / 2) by nra. nra.
Qed.

(** ** Unused vertices and degenerated faces *)
Lemma remove_unused_spec m : valid m -> exists m', remove_unused m = Ok m' /\ valid m' /\ all_used m'
  /\ nb_faces m' = nb_faces m
  /\ (forall k a b c d, face_is m k a b c d -> face_is m' k a b c d)
  /\ faces_props m' = faces_props m.
Proof.
  intros Vm. unfold remove_unused. set (used := used_vertices (nb_vertices m) (m_faces m)).
  destruct (Nat.ltb (length used) (nb_vertices m)) eqn:T.
  - assert (Hu : forall f i, In f (m_faces m) -> In i (face_ids f) -> (i < length (m_vertices m))%nat) by exact Vm.
    destruct (renumber_get (m_vertices m) (m_faces m)) as (vs' & Hm & Lv & Hv).
    unfold used, nb_vertices. rewrite Hm. cbn [bind]. eexists. split; [reflexivity|].
    split; [now apply renumber_valid|]. split; [now apply renumber_used|].
    split; [unfold nb_faces; cbn; now rewrite map_length|]. split.
    + intros k a b c d. rewrite !face_is_points. intros (f & E & P). cbn.
      eexists. split; [apply map_nth_error; exact E|]. rewrite <- P. apply renumber_points; auto. now apply nth_error_In in E.
    + unfold faces_props. cbn. rewrite mapM_map_in. apply mapM_ext. intros f Hf. now apply renumber_props.
  - exists m. split; [reflexivity|]. split; [exact Vm|]. split.
    + intros i Hi. apply Nat.ltb_ge in T.
      assert (In i used); [|apply used_vertices_In in H; destruct H as [_ (f & A & B)]; exists f; split; assumption].
      apply (NoDup_length_incl (l := used) (l' := seq 0 (nb_vertices m))).
      * apply used_vertices_NoDup.
      * now rewrite seq_length.
      * intros j Hj. apply used_vertices_In in Hj. apply in_seq. lia.
      * apply in_seq. unfold nb_vertices. lia.
    + auto 6.
Qed.
Lemma filter_combine_In {A B} (t : A * B -> bool) (l : list A) (r : list B) x :
  In x (map fst (filter t (combine l r))) -> In x l.
Proof. intros H. apply in_map_iff in H. destruct H as ([a b] & <- & H). apply filter_In in H. destruct H as [H _]. now apply in_combine_l in H. Qed.
Lemma remove_degenerated_spec m rtol ps : valid m -> 0 < rtol -> faces_props m = Ok ps ->
  exists m', remove_degenerated rtol m = Ok m' /\ valid m' /\ m_vertices m' = m_vertices m
    /\ (forall f, In f (m_faces m') <-> exists k x, nth_error (m_faces m) k = Some f /\ nth_error ps k = Some x
          /\ rtol * (Rsum (map p_area ps) / INR (length ps)) <= p_area x).
Proof.
  intros Vm Hr Hps. unfold remove_degenerated. destruct (Rltb 0 rtol) eqn:E; [|apply Rltb_false in E; lra].
  cbn [negb]. rewrite Hps. cbn [bind]. eexists. split; [reflexivity|]. split; [|split; [reflexivity|]].
  - intros f i Hf Hi. cbn in *. apply filter_combine_In in Hf. eapply Vm; eassumption.
  - intros f. cbn. rewrite in_map_iff. apply faces_props_ok in Hps. destruct Hps as [L Hps]. split.
    + intros ([f' x] & Ef & H). cbn in Ef. subst f'. apply filter_In in H. destruct H as [H T]. cbn in T.
      apply In_nth_error in H. destruct H as [k Hk]. exists k, x.
      rewrite negb_true_iff in T. apply Rltb_false in T.
      assert (G : forall (l : list face) (r : list fprops) k f x, nth_error (combine l r) k = Some (f, x) ->
          nth_error l k = Some f /\ nth_error r k = Some x).
      { clear. induction l as [|a l IH]; intros [|b r] [|k] f x; cbn; try discriminate; [now intros [= -> ->]|apply IH]. }
      destruct (G _ _ _ _ _ Hk) as [A B]. split; [exact A|]. split; [exact B|]. lra.
    + intros (k & x & A & B & T). exists (f, x). split; [reflexivity|]. apply filter_In. split.
      * assert (G : forall (l : list face) (r : list fprops) k f x, nth_error l k = Some f -> nth_error r k = Some x ->
          In (f, x) (combine l r)).
        { clear. induction l as [|a l IH]; intros [|b r] [|k] f x; cbn; try discriminate; [intros [= ->] [= ->]; now left|].
          intros H1 H2. right. now apply (IH _ k). }
        now apply (G _ _ k).
      * cbn. rewrite negb_true_iff. apply Rltb_false. lra.
Qed.
