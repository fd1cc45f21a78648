(** Proofs about the integrals of the Rankine source: the gradient is the derivative of the value. *)
From Coq Require Import Reals.
From Coquelicot Require Import Coquelicot.
From Coq Require Import List Bool Arith Lra Lia.
From Verif Require Import Model_Base Model_Geometry Model_Mesh Spec_Mesh Proofs_Geometry Proofs_Mesh Proofs_Mesh2 Proofs_Mesh3 Proofs_Integrals
  Model_Rankine Proofs_Rankine Spec_Rankine.
Import ListNotations.
Open Scope R_scope.

(** ** The triangle inequality, and its equality case *)
Lemma norm_sq u : norm u * norm u = dot u u.
Proof. unfold norm. apply sqrt_sqrt, dot_pos. Qed.
Lemma triangle_strict n u v : dot n (cross u v) <> 0 -> norm (vsub u v) < norm u + norm v.
Proof.
  intros H. pose proof (norm_pos u). pose proof (norm_pos v). pose proof (norm_pos (vsub u v)).
  destruct (Rlt_or_le (norm (vsub u v)) (norm u + norm v)) as [L|L]; [exact L|exfalso].
  assert (S2 : (norm u + norm v) * (norm u + norm v) <= norm (vsub u v) * norm (vsub u v)) by (apply Rmult_le_compat; lra).
  assert (E : norm (vsub u v) * norm (vsub u v) = norm u * norm u + norm v * norm v - 2 * dot u v) by (rewrite !norm_sq; unfold dot, vsub; cbn; ring).
  assert (B : norm u * norm v <= - dot u v) by lra.
  assert (B0 : 0 <= norm u * norm v) by (apply Rmult_le_pos; lra).
  assert (B2 : (norm u * norm v) * (norm u * norm v) <= (- dot u v) * (- dot u v)) by (apply Rmult_le_compat; lra).
  assert (La : dot (cross u v) (cross u v) = (norm u * norm u) * (norm v * norm v) - dot u v * dot u v) by (rewrite !norm_sq; unfold dot, cross; cbn; ring).
  assert (Z : dot (cross u v) (cross u v) = 0) by (pose proof (dot_pos (cross u v)); lra).
  apply H. destruct (cross u v) as [x y z]. unfold dot in Z |- *. cbn in *.
  assert (x = 0 /\ y = 0 /\ z = 0) as (-> & -> & ->) by (repeat split; nra). ring.
Qed.

(** ** Derivatives along a line *)
Section Line.
  Variables (M u : vec).
  Notation at_ t := (vadd M (vscale t u)).
  Lemma at_0 : at_ 0 = M.
  Proof. destruct M, u. unfold vadd, vscale. cbn. f_equal; ring. Qed.
  Lemma derive_dot c w : is_derive (fun t => dot (vsub (at_ t) c) w) 0 (dot u w).
  Proof. unfold dot, vsub, vadd, vscale. cbn [vx vy vz]. auto_derive; [exact I|ring]. Qed.
  Lemma derive_norm c : 0 < norm (vsub M c) -> is_derive (fun t => norm (vsub (at_ t) c)) 0 (dot (vscale (/ norm (vsub M c)) (vsub M c)) u).
  Proof.
    intros P. assert (D : 0 < dot (vsub M c) (vsub M c)).
    { rewrite <- norm_sq. now apply Rmult_lt_0_compat. }
    unfold norm in *. unfold dot, vsub, vadd, vscale in *. cbn [vx vy vz] in *. auto_derive.
    - replace ((vx M + 0 * vx u + - vx c) * (vx M + 0 * vx u + - vx c) + (vy M + 0 * vy u + - vy c) * (vy M + 0 * vy u + - vy c) + (vz M + 0 * vz u + - vz c) * (vz M + 0 * vz u + - vz c))
        with ((vx M - vx c) * (vx M - vx c) + (vy M - vy c) * (vy M - vy c) + (vz M - vz c) * (vz M - vz c)) by ring. repeat split; exact D.
    - replace ((vx M + 0 * vx u + - vx c) * (vx M + 0 * vx u + - vx c) + (vy M + 0 * vy u + - vy c) * (vy M + 0 * vy u + - vy c) + (vz M + 0 * vz u + - vz c) * (vz M + 0 * vz u + - vz c))
        with ((vx M - vx c) * (vx M - vx c) + (vy M - vy c) * (vy M - vy c) + (vz M - vz c) * (vz M - vz c)) by ring.
      field. lra.
  Qed.
  Lemma continuous_dot c w : continuous (fun t => dot (vsub (at_ t) c) w) 0.
  Proof. apply (ex_derive_continuous (fun t => dot (vsub (at_ t) c) w)). eexists. apply derive_dot. Qed.
  Lemma continuous_norm c : continuous (fun t => norm (vsub (at_ t) c)) 0.
  Proof.
    unfold norm. apply (continuous_comp (fun t => dot (vsub (at_ t) c) (vsub (at_ t) c)) sqrt); [|apply continuous_sqrt].
    apply (ex_derive_continuous (fun t => dot (vsub (at_ t) c) (vsub (at_ t) c))). unfold dot, vsub, vadd, vscale. cbn [vx vy vz]. auto_derive. exact I.
  Qed.
End Line.

(** An open condition that holds at 0 holds near 0. *)
Lemma near_lt (f : R -> R) (l : R) : continuous f 0 -> l < f 0 -> locally 0 (fun t => l < f t).
Proof. intros C L. exact (C (fun y => l < y) (open_gt l (f 0) L)). Qed.
Lemma near_gt (f : R -> R) (l : R) : continuous f 0 -> f 0 < l -> locally 0 (fun t => f t < l).
Proof. intros C L. exact (C (fun y => y < l) (open_lt l (f 0) L)). Qed.
Lemma continuous_abs (f : R -> R) : continuous f 0 -> continuous (fun t => Rabs (f t)) 0.
Proof. intros C. apply (continuous_comp f Rabs); [exact C|apply continuous_Rabs]. Qed.
Lemma derive_abs (f : R -> R) (l : R) : is_derive f 0 l -> f 0 <> 0 -> is_derive (fun t => Rabs (f t)) 0 (sign_of (f 0) * l).
Proof.
  intros D N. assert (C : continuous f 0) by (apply (ex_derive_continuous f); now exists l).
  unfold sign_of. destruct (Rltb (f 0) 0) eqn:E.
  - apply Rltb_true in E. apply (is_derive_ext_loc (fun t => - f t)).
    + generalize (near_gt f 0 C E). apply filter_imp. intros t Ht. now rewrite Rabs_left.
    + replace (-1 * l) with (opp l) by (cbn; ring). exact (is_derive_opp f 0 l D).
  - apply Rltb_false in E. assert (0 < f 0) by lra. apply (is_derive_ext_loc f).
    + generalize (near_lt f 0 C H). apply filter_imp. intros t Ht. now rewrite Rabs_right by lra.
    + now rewrite Rmult_1_l.
Qed.

Lemma derive_side (Ra Rb Y A : R -> R) ra rb y z dk : is_derive Ra 0 ra -> is_derive Rb 0 rb -> is_derive Y 0 y -> is_derive A 0 z ->
  0 < Rb 0 + Ra 0 + dk -> 0 < Rb 0 + Ra 0 - dk ->
  let r := Rb 0 + Ra 0 in let dr := rb + ra in
  let D := r * r - dk * dk + 2 * A 0 * r in let N := 2 * Y 0 * dk in
  0 < D ->
  is_derive (fun t => Y t * ln ((Rb t + Ra t + dk) / (Rb t + Ra t - dk))
                      - 2 * atan (2 * Y t * dk / ((Rb t + Ra t) * (Rb t + Ra t) - dk * dk + 2 * A t * (Rb t + Ra t))) * A t) 0
    (y * ln ((r + dk) / (r - dk)) - 2 * atan (N / D) * z + Y 0 * ((r - dk) - (r + dk)) / ((r + dk) * (r - dk)) * dr
     - 2 * A 0 / (N * N + D * D) * (D * (2 * dk * y) - N * (2 * (r + A 0) * dr + 2 * z * r))).
Proof.
  intros DRa DRb DY DA P1 P2 r dr D N PD.
  assert (Xa : ex_derive Ra 0) by now exists ra. assert (Xb : ex_derive Rb 0) by now exists rb. assert (XY : ex_derive Y 0) by now exists y. assert (XA : ex_derive A 0) by now exists z.
  apply is_derive_unique in DRa, DRb, DY, DA.
  auto_derive.
  - fold r. unfold D in PD. repeat split; try assumption; fold r in P1, P2; try lra.
    apply Rmult_lt_0_compat; [lra|]. apply Rinv_0_lt_compat. lra.
  - replace (Derive (fun x : R => Ra x) 0) with ra by (symmetry; exact DRa). replace (Derive (fun x : R => Rb x) 0) with rb by (symmetry; exact DRb).
    replace (Derive (fun x : R => Y x) 0) with y by (symmetry; exact DY). replace (Derive (fun x : R => A x) 0) with z by (symmetry; exact DA).
    fold r. fold r in P1, P2.
    replace (r * r + - (dk * dk) + 2 * A 0 * r) with D by (unfold D; ring). fold N.
    unfold Rdiv at 1 2. replace (r + - dk) with (r - dk) by ring.
    set (L := ln _). set (T := atan _). unfold dr. clearbody L T N.
    assert (ED : D = r * r - dk * dk + 2 * A 0 * r) by reflexivity. clearbody D. 
    assert (0 < N * N + D * D) by nra.
    field. repeat split; lra.
Qed.

(** ** One side of the face *)
Section Side.
  Variables (M center normal : vec) (radius : R) (a b u : vec).
  Notation at_ t := (vadd M (vscale t u)).
  Hypothesis Far : / 10000 * radius < Rabs (dot (vsub M center) normal).
  Hypothesis GZ0 : dot (vsub M center) normal <> 0.
  Hypothesis Long : 0 < norm (vsub b a).
  Definition smooth P := GY P normal a b * ALDEN P a b - 2 * atan (ANT P normal a b / DNT P center normal a b) * Rabs (GZ P center normal).
  Lemma smooth_derivative : 0 < RR M a -> 0 < RR M b -> 0 < RR M b + RR M a - DK a b ->
    is_derive (fun t => smooth (at_ t)) 0 (dot (side_nabla M center normal radius a b) u).
  Proof.
    intros Pa Pb P2. assert (Pk : 0 < DK a b) by exact Long.
    pose proof (derive_side (fun t => RR (at_ t) a) (fun t => RR (at_ t) b) (fun t => GY (at_ t) normal a b) (fun t => Rabs (GZ (at_ t) center normal))
      (dot (DRX M a) u) (dot (DRX M b) u) (dot u (GYX normal a b)) (sign_of (GZ (at_ 0) center normal) * dot u normal) (DK a b)) as D.
    cbv zeta beta in D. rewrite !at_0 in D.
    match type of D with _ -> _ -> _ -> _ -> _ -> _ -> _ -> is_derive _ 0 ?v => assert (Ev : v = dot (side_nabla M center normal radius a b) u) end.
    { unfold side_nabla, AT. rewrite (proj2 (Rleb_true _ _)) by (unfold GZ; lra). unfold ALDEN, ANT, ANTX, DNTX, ANLX. fold (ANL M a b) (DNL M a b) (DNT M center normal a b).
      set (L := ln _). set (T := atan _). set (sg := sign_of _). set (Dn := DNT _ _ _ _ _). set (X := GYX _ _ _). set (A := Rabs _). set (Y := GY _ _ _ _). set (Da := DRX M a). set (Db := DRX M b).
      unfold dot, vsub, vadd, vscale. cbn [vx vy vz]. unfold Rdiv. ring. }
    rewrite Ev in D. apply D; clear D Ev.
    - apply (derive_norm M u a Pa).
    - apply (derive_norm M u b Pb).
    - apply derive_dot.
    - pose proof (derive_abs (fun t => GZ (at_ t) center normal) (dot u normal) (derive_dot M u center normal)) as X. cbv beta in X. rewrite at_0 in X. exact (X GZ0).
    - lra.
    - exact P2.
    - assert (0 <= Rabs (GZ M center normal)) by apply Rabs_pos. assert (0 < (RR M b + RR M a - DK a b) * (RR M b + RR M a + DK a b)) by (apply Rmult_lt_0_compat; lra).
      assert (0 <= Rabs (GZ M center normal) * (RR M b + RR M a)) by (apply Rmult_le_pos; lra). lra.
  Qed.
  Lemma near_plane : locally 0 (fun t => / 10000 * radius < Rabs (GZ (at_ t) center normal)).
  Proof. apply near_lt; [apply continuous_abs, continuous_dot|]. rewrite at_0. exact Far. Qed.
  (** Near the line that bears the side, the value misses a term that is in the gradient. *)
  Lemma strip_derivative : 0 < RR M a -> 0 < RR M b -> 0 < RR M b + RR M a - DK a b -> GY M normal a b = 0 ->
    is_derive (fun t => side_G (at_ t) center normal radius a b) 0 (dot (side_nabla M center normal radius a b) u - dot u (GYX normal a b) * ALDEN M a b).
  Proof.
    intros Pa Pb P2 Y0. assert (Pk : 0 < DK a b) by exact Long.
    apply (is_derive_ext_loc (fun t => minus (smooth (at_ t)) (GY (at_ t) normal a b * ALDEN (at_ t) a b))).
    - assert (C2 : locally 0 (fun t => Rabs (GY (at_ t) normal a b) < / 100000)).
      { apply near_gt; [apply continuous_abs, continuous_dot|]. rewrite at_0, Y0, Rabs_R0. lra. }
      generalize (filter_and _ _ near_plane C2). apply filter_imp. intros t (H1 & H2). unfold side_G, AT, smooth, minus, plus, opp. cbn.
      rewrite (proj2 (Rltb_true _ _)) by lra. rewrite (proj2 (Rleb_true _ _)) by lra. ring.
    - apply (is_derive_minus (fun t => smooth (at_ t)) (fun t => GY (at_ t) normal a b * ALDEN (at_ t) a b)); [now apply smooth_derivative|].
      pose proof (derive_dot M u a (GYX normal a b)) as DY. pose proof (derive_norm M u a Pa) as Da. pose proof (derive_norm M u b Pb) as Db.
      unfold ALDEN, ANL, DNL. set (Y := fun t => GY (at_ t) normal a b). set (Ra := fun t => RR (at_ t) a). set (Rb := fun t => RR (at_ t) b).
      change (is_derive (fun t => Y t * ln ((Rb t + Ra t + DK a b) / (Rb t + Ra t - DK a b))) 0 (dot u (GYX normal a b) * ln ((RR M b + RR M a + DK a b) / (RR M b + RR M a - DK a b)))).
      assert (Ya : Y 0 = 0) by (unfold Y; now rewrite at_0). assert (Ra0 : Ra 0 = RR M a) by (unfold Ra; now rewrite at_0). assert (Rb0 : Rb 0 = RR M b) by (unfold Rb; now rewrite at_0).
      assert (XY : ex_derive Y 0) by (eexists; exact DY). assert (Xa : ex_derive Ra 0) by (eexists; exact Da). assert (Xb : ex_derive Rb 0) by (eexists; exact Db).
      apply is_derive_unique in DY. change (Derive Y 0 = dot u (GYX normal a b)) in DY.
      auto_derive.
      + rewrite Ra0, Rb0. repeat split; try assumption; try lra. apply Rmult_lt_0_compat; [lra|]. apply Rinv_0_lt_compat. lra.
      + replace (Derive (fun x : R => Y x) 0) with (dot u (GYX normal a b)) by (symmetry; exact DY). rewrite Ya, Ra0, Rb0. unfold Rdiv, Rminus. ring.
  Qed.
  Hypothesis Off : / 100000 < distance_to_line normal a b M.
  Lemma GY_distance P : Rabs (GY P normal a b) = distance_to_line normal a b P.
  Proof.
    unfold GY, GYX, PJ, distance_to_line. fold (DK a b). change (norm (vsub b a)) with (DK a b) in *.
    replace (dot (vsub P a) (cross normal (vscale (/ DK a b) (vsub b a)))) with (dot (vsub P a) (cross normal (vsub b a)) * / DK a b) by (unfold dot, cross, vscale; cbn; ring).
    rewrite Rabs_mult, (Rabs_right (/ DK a b)); [reflexivity|]. apply Rle_ge, Rlt_le, Rinv_0_lt_compat, Long.
  Qed.
  Lemma product_nonzero : dot normal (cross (vsub M a) (vsub M b)) <> 0.
  Proof.
    intros Z. unfold distance_to_line in Off. replace (dot (vsub M a) (cross normal (vsub b a))) with (dot normal (cross (vsub M a) (vsub M b))) in Off by (unfold dot, cross, vsub; cbn; ring).
    rewrite Z, Rabs_R0 in Off. unfold Rdiv in Off. rewrite Rmult_0_l in Off. lra.
  Qed.
  Lemma RR_a : 0 < RR M a.
  Proof.
    unfold RR. destruct (norm_pos (vsub M a)) as [L|E]; [exact L|exfalso]. apply product_nonzero.
    symmetry in E. pose proof (norm_sq (vsub M a)) as S2. rewrite E in S2. destruct (vsub M a) as [x y z]. unfold dot in *. cbn in *.
    assert (x = 0 /\ y = 0 /\ z = 0) as (-> & -> & ->) by (repeat split; nra). ring.
  Qed.
  Lemma RR_b : 0 < RR M b.
  Proof.
    unfold RR. destruct (norm_pos (vsub M b)) as [L|E]; [exact L|exfalso]. apply product_nonzero.
    symmetry in E. pose proof (norm_sq (vsub M b)) as S2. rewrite E in S2. destruct (vsub M b) as [x y z]. unfold dot in *. cbn in *.
    assert (x = 0 /\ y = 0 /\ z = 0) as (-> & -> & ->) by (repeat split; nra). ring.
  Qed.
  Lemma DNL_pos : 0 < RR M b + RR M a - DK a b.
  Proof.
    pose proof (triangle_strict normal _ _ product_nonzero) as T. unfold RR, DK. replace (vsub (vsub M a) (vsub M b)) with (vsub b a) in T by (unfold vsub; cbn; f_equal; ring). lra.
  Qed.
  Lemma side_derivative : is_derive (fun t => side_G (at_ t) center normal radius a b) 0 (dot (side_nabla M center normal radius a b) u).
  Proof.
    assert (E : locally 0 (fun t => smooth (at_ t) = side_G (at_ t) center normal radius a b)).
    { assert (C2 : locally 0 (fun t => / 100000 < Rabs (GY (at_ t) normal a b))).
      { apply near_lt; [apply continuous_abs, continuous_dot|]. rewrite at_0, GY_distance. exact Off. }
      generalize (filter_and _ _ near_plane C2). apply filter_imp. intros t (H1 & H2). unfold side_G, AT, smooth.
      rewrite (proj2 (Rltb_false _ _)) by lra. rewrite (proj2 (Rleb_true _ _)) by lra. ring. }
    apply (is_derive_ext_loc _ _ _ _ E). exact (smooth_derivative RR_a RR_b DNL_pos).
  Qed.
End Side.

Lemma derive_sum (fs : list ((R -> R) * R)) : Forall (fun f => is_derive (fst f) 0 (snd f)) fs ->
  is_derive (fun t => Rsum (map (fun f => fst f t) fs)) 0 (Rsum (map snd fs)).
Proof.
  induction 1 as [|f fs Hf H IH]; unfold Rsum in *; cbn [map fold_right]; [apply (is_derive_const (K := R_AbsRing) (V := R_NormedModule) 0)|].
  apply (is_derive_plus (fst f) (fun t => fold_right Rplus 0 (map (fun f => fst f t) fs))); [exact Hf|exact IH].
Qed.
Lemma dot_vsum l u : dot (vsum l) u = Rsum (map (fun v => dot v u) l).
Proof.
  induction l as [|v l IH]; [unfold vsum, Rsum, dot; cbn; ring|].
  change (vsum (v :: l)) with (vadd v (vsum l)). change (Rsum (map (fun v => dot v u) (v :: l))) with (dot v u + Rsum (map (fun v => dot v u) l)). rewrite <- IH. unfold dot, vadd. cbn. ring.
Qed.

Lemma radius_or f M : / 10000 * p_radius f < Rabs (dot (vsub M (p_center f)) (p_normal f)) -> 0 <= p_radius f -> dot (vsub M (p_center f)) (p_normal f) <> 0.
Proof. intros L P E. rewrite E, Rabs_R0 in L. lra. Qed.

Lemma exact_gradient M q f : 0 <= p_radius f -> off_face M q f -> gradient_at (fun P => fst (exact_rankine true P q f)) M (snd (exact_rankine true M q f)).
Proof.
  intros P0 (L & Sd) u. unfold exact_rankine, oriented, sum_sides. cbn [fst snd].
  rewrite dot_vsum, map_map.
  pose (fs := map (fun s => ((fun t => fst (side (vadd M (vscale t u)) (p_center f) (p_normal f) (p_radius f) s)), dot (snd (side M (p_center f) (p_normal f) (p_radius f) s)) u)) (sides q)).
  pose proof (derive_sum fs) as D. unfold fs in D. rewrite map_map in D. cbn [snd] in D.
  apply (is_derive_ext (fun t => Rsum (map (fun g => fst g t) fs))).
  { intros t. unfold fs. rewrite map_map. reflexivity. }
  apply D. clear D fs. apply Forall_forall. intros g Hg. apply in_map_iff in Hg. destruct Hg as ((a, b) & <- & Hs). cbn [fst snd].
  unfold side. destruct (Rleb (/ 1000 * p_radius f) (DK a b)) eqn:E.
  - cbn [fst snd]. apply Rleb_true in E. destruct (Sd a b Hs E) as (S1 & S2). apply side_derivative; try assumption. now apply radius_or.
  - cbn [fst snd]. replace (dot v0 u) with (@zero R_NormedModule) by (unfold dot, v0; cbn; ring). apply (is_derive_const (K := R_AbsRing) (V := R_NormedModule) 0).
Qed.
Lemma one_point_gradient M f : / 10000000 < norm (vsub M (p_center f)) -> gradient_at (fun P => fst (one_point_rankine true P f)) M (snd (one_point_rankine true M f)).
Proof.
  intros L u. set (c := p_center f) in *.
  assert (Sy : forall P, norm (vsub c P) = norm (vsub P c)) by (intros P; apply norm_eq; unfold dot, vsub; cbn; ring).
  assert (V : forall P, / 10000000 < norm (vsub P c) -> one_point_rankine true P f = (p_area f / norm (vsub P c), vscale (p_area f / norm (vsub P c) / (norm (vsub P c) * norm (vsub P c))) (vsub c P))).
  { intros P HP. unfold one_point_rankine. cbv zeta. fold c. rewrite Sy, (proj2 (Rltb_true _ _) HP). reflexivity. }
  rewrite (V M L). cbn [snd]. apply (is_derive_ext_loc (fun t => p_area f / norm (vsub (vadd M (vscale t u)) c))).
  - assert (C : locally 0 (fun t => / 10000000 < norm (vsub (vadd M (vscale t u)) c))) by (apply near_lt; [apply continuous_norm|rewrite at_0; exact L]).
    revert C. apply filter_imp. intros t Ht. now rewrite (V _ Ht).
  - assert (P : 0 < norm (vsub M c)) by lra. pose proof (derive_norm M u c P) as D.
    pose proof (is_derive_unique _ _ _ D) as U. assert (X : ex_derive (fun t => norm (vsub (vadd M (vscale t u)) c)) 0) by (eexists; exact D).
    set (n := fun t => norm (vsub (vadd M (vscale t u)) c)) in *. assert (N0 : n 0 = norm (vsub M c)) by (unfold n; now rewrite at_0).
    change (is_derive (fun t => p_area f / n t) 0 (dot (vscale (p_area f / norm (vsub M c) / (norm (vsub M c) * norm (vsub M c))) (vsub c M)) u)).
    auto_derive.
    + split; [exact X|]. split; [rewrite N0; lra|exact I].
    + replace (Derive (fun x : R => n x) 0) with (dot (vscale (/ norm (vsub M c)) (vsub M c)) u) by (symmetry; exact U). rewrite N0.
      set (d := norm _) in *. unfold dot, vscale, vsub. cbn [vx vy vz]. field. lra.
Qed.
Lemma rankine_gradient M q f : 0 <= p_radius f -> regular_point M q f -> gradient_at (fun P => fst (rankine true P q f)) M (snd (rankine true M q f)).
Proof.
  intros P0 [(L & L')|(L & O)] u.
  - assert (E : rankine true M q f = one_point_rankine true M f) by (unfold rankine; now rewrite (proj2 (Rltb_true _ _) L)). rewrite E.
    apply (is_derive_ext_loc (fun t => fst (one_point_rankine true (vadd M (vscale t u)) f))); [|exact (one_point_gradient M f L' u)].
    assert (C : locally 0 (fun t => 7 * p_radius f < norm (vsub (vadd M (vscale t u)) (p_center f)))) by (apply near_lt; [apply continuous_norm|rewrite at_0; exact L]).
    revert C. apply filter_imp. intros t Ht. unfold rankine. now rewrite (proj2 (Rltb_true _ _) Ht).
  - assert (E : rankine true M q f = exact_rankine true M q f) by (unfold rankine; rewrite (proj2 (Rltb_false _ _)) by lra; reflexivity). rewrite E.
    apply (is_derive_ext_loc (fun t => fst (exact_rankine true (vadd M (vscale t u)) q f))); [|exact (exact_gradient M q f P0 O u)].
    assert (C : locally 0 (fun t => norm (vsub (vadd M (vscale t u)) (p_center f)) < 7 * p_radius f)) by (apply near_gt; [apply continuous_norm|rewrite at_0; exact L]).
    revert C. apply filter_imp. intros t Ht. unfold rankine. rewrite (proj2 (Rltb_false _ _)) by lra. reflexivity.
Qed.
