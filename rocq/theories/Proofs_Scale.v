(** Proofs about the change of the unit of length: the integrals over a panel. *)
From Coq Require Import Reals.
From Coquelicot Require Import Complex.
From Coq Require Import List Bool Arith Lra Lia.
From Verif Require Import Model_Base Model_Geometry Model_Mesh Spec_Mesh Proofs_Geometry Proofs_Mesh Proofs_Mesh2 Proofs_Mesh3 Proofs_Integrals
  Model_Assembly Spec_Assembly Model_Rankine Model_Wave Proofs_Rankine Proofs_Wave Spec_Scale.
Import ListNotations.
Open Scope R_scope.

Section Scale.
  Variable l : R.
  Hypothesis L : 0 < l.
  Lemma ll : / l * l = 1.
  Proof. apply Rinv_l. lra. Qed.
  Lemma inv_scaled x y : / (l * x) * (l * y) = / x * y.
  Proof. rewrite Rinv_mult. replace (/ l * / x * (l * y)) with (/ l * l * (/ x * y)) by ring. rewrite ll. ring. Qed.
  Lemma ratio x y : l * x / (l * y) = x / y.
  Proof. unfold Rdiv. rewrite Rmult_comm, inv_scaled. ring. Qed.
  Lemma ratio2 x y : l * l * x / (l * l * y) = x / y.
  Proof. rewrite !Rmult_assoc, !ratio. reflexivity. Qed.
  Lemma ltb_scaled x y : Rltb (l * x) (l * y) = Rltb x y.
  Proof.
    destruct (Rltb x y) eqn:E.
    - apply Rltb_true in E. apply Rltb_true. now apply Rmult_lt_compat_l.
    - apply Rltb_false in E. apply Rltb_false. apply Rmult_le_compat_l; lra.
  Qed.
  Lemma leb_scaled x y : Rleb (l * x) (l * y) = Rleb x y.
  Proof.
    destruct (Rleb x y) eqn:E.
    - apply Rleb_true in E. apply Rleb_true. apply Rmult_le_compat_l; lra.
    - destruct (Rleb (l * x) (l * y)) eqn:E'; [|reflexivity]. apply Rleb_true in E'. assert (x <= y) by (apply Rmult_le_reg_l with l; lra). apply Rleb_true in H. congruence.
  Qed.
  Lemma sub_scaled u v : vsub (vscale l u) (vscale l v) = vscale l (vsub u v).
  Proof. unfold vsub, vscale. cbn. f_equal; ring. Qed.
  Lemma norm_scaled u : norm (vscale l u) = l * norm u.
  Proof.
    unfold norm. replace (dot (vscale l u) (vscale l u)) with (l * l * dot u u) by (unfold dot, vscale; cbn; ring).
    rewrite sqrt_mult by (try nra; apply dot_pos). rewrite sqrt_square by lra. reflexivity.
  Qed.
  Lemma abs_scaled x : Rabs (l * x) = l * Rabs x.
  Proof. rewrite Rabs_mult, (Rabs_right l) by lra. reflexivity. Qed.
  Lemma sign_scaled x : sign_of (l * x) = sign_of x.
  Proof. unfold sign_of. replace 0 with (l * 0) at 1 by ring. now rewrite ltb_scaled. Qed.

  Section Side.
    Variables (M center normal : vec) (radius : R) (a b : vec).
    Notation sc := (vscale l).
    Lemma GZ_scaled : GZ (sc M) (sc center) normal = l * GZ M center normal.
    Proof. unfold GZ. rewrite sub_scaled. unfold dot, vscale. cbn. ring. Qed.
    Lemma DK_scaled : DK (sc a) (sc b) = l * DK a b.
    Proof. unfold DK. now rewrite sub_scaled, norm_scaled. Qed.
    Lemma RR_scaled c : RR (sc M) (sc c) = l * RR M c.
    Proof. unfold RR. now rewrite sub_scaled, norm_scaled. Qed.
    Lemma unit_scaled x u : vscale (/ (l * x)) (sc u) = vscale (/ x) u.
    Proof. unfold vscale. cbn [vx vy vz]. now rewrite !inv_scaled. Qed.
    Lemma DRX_scaled c : DRX (sc M) (sc c) = DRX M c.
    Proof. unfold DRX. now rewrite RR_scaled, sub_scaled, unit_scaled. Qed.
    Lemma PJ_scaled : PJ (sc a) (sc b) = PJ a b.
    Proof. unfold PJ. now rewrite DK_scaled, sub_scaled, unit_scaled. Qed.
    Lemma GYX_scaled : GYX normal (sc a) (sc b) = GYX normal a b.
    Proof. unfold GYX. now rewrite PJ_scaled. Qed.
    Lemma GY_scaled : GY (sc M) normal (sc a) (sc b) = l * GY M normal a b.
    Proof. unfold GY. rewrite GYX_scaled, sub_scaled. unfold dot, vscale. cbn. ring. Qed.
    Lemma ANT_scaled : ANT (sc M) normal (sc a) (sc b) = l * l * ANT M normal a b.
    Proof. unfold ANT. rewrite GY_scaled, DK_scaled. ring. Qed.
    Lemma DNT_scaled : DNT (sc M) (sc center) normal (sc a) (sc b) = l * l * DNT M center normal a b.
    Proof. unfold DNT. rewrite !RR_scaled, DK_scaled, GZ_scaled, abs_scaled. ring. Qed.
    Lemma ANL_scaled : ANL (sc M) (sc a) (sc b) = l * ANL M a b.
    Proof. unfold ANL. rewrite !RR_scaled, DK_scaled. ring. Qed.
    Lemma DNL_scaled : DNL (sc M) (sc a) (sc b) = l * DNL M a b.
    Proof. unfold DNL. rewrite !RR_scaled, DK_scaled. ring. Qed.
    Lemma ALDEN_scaled : ALDEN (sc M) (sc a) (sc b) = ALDEN M a b.
    Proof. unfold ALDEN. now rewrite ANL_scaled, DNL_scaled, ratio. Qed.
    Lemma AT_scaled : AT (sc M) (sc center) normal (l * radius) (sc a) (sc b) = AT M center normal radius a b.
    Proof.
      unfold AT. rewrite GZ_scaled, abs_scaled, ANT_scaled, DNT_scaled, ratio2. replace (/ 10000 * (l * radius)) with (l * (/ 10000 * radius)) by ring. now rewrite leb_scaled.
    Qed.
    Lemma side_nabla_scaled : side_nabla (sc M) (sc center) normal (l * radius) (sc a) (sc b) = side_nabla M center normal radius a b.
    Proof.
      unfold side_nabla. rewrite ALDEN_scaled, GYX_scaled, AT_scaled.
      replace (ANLX (sc M) (sc a) (sc b)) with (ANLX M a b) by (unfold ANLX; now rewrite !DRX_scaled).
      replace (ANTX normal (sc a) (sc b)) with (sc (ANTX normal a b)) by (unfold ANTX; rewrite DK_scaled, GYX_scaled; unfold vscale; cbn; f_equal; ring).
      replace (DNTX (sc M) (sc center) normal (sc a) (sc b)) with (sc (DNTX M center normal a b)).
      2:{ unfold DNTX. replace (ANLX (sc M) (sc a) (sc b)) with (ANLX M a b) by (unfold ANLX; now rewrite !DRX_scaled). rewrite !RR_scaled, GZ_scaled, abs_scaled, sign_scaled.
          unfold vadd, vscale. cbn [vx vy vz]. f_equal; ring. }
      rewrite GZ_scaled, sign_scaled, abs_scaled, GY_scaled, DNL_scaled, ANL_scaled, ANT_scaled, DNT_scaled.
      assert (E1 : l * GY M normal a b * (l * DNL M a b - l * ANL M a b) / (l * ANL M a b * (l * DNL M a b)) = GY M normal a b * (DNL M a b - ANL M a b) / (ANL M a b * DNL M a b)).
      { rewrite <- (ratio2 (GY M normal a b * _)). f_equal; ring. }
      rewrite E1. clear E1.
      set (N := ANT _ _ _ _). set (D := DNT _ _ _ _ _). set (A := Rabs _). set (X := ANTX _ _ _). set (Y := DNTX _ _ _ _ _).
      assert (E2 : vscale (2 * (l * A) / (l * l * N * (l * l * N) + l * l * D * (l * l * D))) (vsub (vscale (l * l * D) (sc X)) (vscale (l * l * N) (sc Y)))
        = vscale (2 * A / (N * N + D * D)) (vsub (vscale D X) (vscale N Y))).
      { replace (l * l * N * (l * l * N) + l * l * D * (l * l * D)) with (l * (l * (l * (l * (N * N + D * D))))) by ring. unfold Rdiv. rewrite !Rinv_mult.
        unfold vscale, vsub. cbn [vx vy vz]. pose proof ll as H. set (i := / l) in *. set (j := / (N * N + D * D)).
        assert (H4 : i * l * (i * l) * (i * l) * (i * l) = 1) by (rewrite H; ring).
        f_equal; match goal with |- 2 * (l * A) * (i * (i * (i * (i * j)))) * ?u = ?r => transitivity ((i * l * (i * l) * (i * l) * (i * l)) * r); [ring|rewrite H4; ring] end. }
      rewrite E2. reflexivity.
    Qed.
    Lemma side_scaled : above_tolerance l (/ 100000) (Rabs (GY M normal a b)) ->
      side (sc M) (sc center) normal (l * radius) (sc a, sc b) = (l * fst (side M center normal radius (a, b)), snd (side M center normal radius (a, b))).
    Proof.
      intros (T1 & T2). unfold side. rewrite DK_scaled. replace (/ 1000 * (l * radius)) with (l * (/ 1000 * radius)) by ring. rewrite leb_scaled.
      destruct (Rleb _ _); cbn [fst snd]; [|f_equal; ring]. rewrite side_nabla_scaled. f_equal.
      unfold side_G. rewrite GY_scaled, ALDEN_scaled, AT_scaled, GZ_scaled, !abs_scaled, !(proj2 (Rltb_false _ _)) by lra. ring.
    Qed.
  End Side.

  Definition times_value (v : R * vec) : R * vec := (l * fst v, snd v).
  Notation sc := (vscale l).
  Lemma oriented_scaled b v : oriented b (times_value v) = times_value (oriented b v).
  Proof. now destruct b. Qed.
  Lemma exact_scaled b M q f : (forall a c, In (a, c) (sides q) -> above_tolerance l (/ 100000) (Rabs (GY M (p_normal f) a c))) ->
    exact_rankine b (sc M) (scaled_quad l q) (scaled_props l f) = times_value (exact_rankine b M q f).
  Proof.
    intros T. unfold exact_rankine. rewrite <- oriented_scaled. f_equal. unfold sum_sides, times_value. cbn [fst snd p_center p_normal p_radius scaled_props].
    replace (sides (scaled_quad l q)) with (map (fun s => (sc (fst s), sc (snd s))) (sides q)) by reflexivity. rewrite !map_map. 
    set (sd := fun s => side M (p_center f) (p_normal f) (p_radius f) s).
    assert (X : forall s, In s (sides q) -> side (sc M) (sc (p_center f)) (p_normal f) (l * p_radius f) (sc (fst s), sc (snd s)) = (l * fst (sd s), snd (sd s))).
    { intros (a, c) H. now apply side_scaled, T. }
    f_equal.
    - rewrite (map_ext_in _ (fun s => l * fst (sd s))) by (intros s H; now rewrite X). clear. unfold Rsum. induction (sides q) as [|s r IH]; cbn; [ring|]. rewrite IH. unfold sd. ring.
    - f_equal. apply map_ext_in. intros s H. now rewrite X.
  Qed.
  Lemma one_point_scaled b M f : / 10000000 < norm (vsub M (p_center f)) -> / 10000000 < l * norm (vsub M (p_center f)) ->
    one_point_rankine b (sc M) (scaled_props l f) = times_value (one_point_rankine b M f).
  Proof.
    intros T1 T2. unfold one_point_rankine. rewrite <- oriented_scaled. f_equal. cbn [p_center p_area scaled_props]. rewrite sub_scaled, norm_scaled.
    replace (norm (vsub (p_center f) M)) with (norm (vsub M (p_center f))) by (apply norm_eq; unfold dot, vsub; cbn; ring).
    rewrite !(proj2 (Rltb_true _ _)) by assumption. unfold times_value. cbn [fst snd]. set (d := norm _) in *.
    f_equal; [field; lra|]. unfold vscale, vsub. cbn [vx vy vz]. f_equal; field; lra.
  Qed.
  Lemma rankine_scaled b M q : clear_of l q M -> rankine b (sc M) (sp_corners (scaled_panel l q)) (sp_props (scaled_panel l q)) = times_value (rankine b M (sp_corners q) (sp_props q)).
  Proof.
    intros (D & T). unfold rankine. cbn [sp_corners sp_props scaled_panel p_center p_radius scaled_props]. rewrite sub_scaled, norm_scaled.
    replace (7 * (l * p_radius (sp_props q))) with (l * (7 * p_radius (sp_props q))) by ring. rewrite ltb_scaled.
    destruct (Rltb _ _) eqn:E.
    - apply Rltb_true in E. destruct D as [(D1 & D2)|D]; [|lra]. change (FProps _ _ _ _) with (scaled_props l (sp_props q)). now apply one_point_scaled.
    - change (FProps _ _ _ _) with (scaled_props l (sp_props q)). apply exact_scaled. intros a c H. specialize (T a c H). unfold GY, GYX, PJ, DK.
      replace (dot (vsub M a) (cross (p_normal (sp_props q)) (vscale (/ norm (vsub c a)) (vsub c a)))) with (dot (vsub M a) (cross (p_normal (sp_props q)) (vsub c a)) / norm (vsub c a)); [exact T|].
      unfold dot, cross, vscale. cbn. unfold Rdiv. ring.
  Qed.
  Lemma image_scaled c M : image_point (fst c, l * snd c) (sc M) = sc (image_point c M).
  Proof. unfold image_point, vscale. cbn. f_equal. ring. Qed.
  Lemma reflected_gradient_scaled b c v : reflected_gradient b (fst c, l * snd c) (times_value v) = times_value (reflected_gradient b c v).
  Proof. reflexivity. Qed.
  Lemma reflected_scaled b c M q : clear_of l q (image_point c M) ->
    reflected_of b (fst c, l * snd c) (sc M) (scaled_panel l q) = times_value (reflected_of b c M q).
  Proof.
    intros T. assert (F : forall c M q f, reflected_rankine b c M q f = reflected_gradient b c (rankine true (image_point c M) q f)).
    { intros. unfold reflected_rankine, rankine, one_point_reflected, exact_reflected. now destruct (Rltb _ _). }
    unfold reflected_of. rewrite !F, image_scaled, rankine_scaled by exact T. apply reflected_gradient_scaled.
  Qed.
  Lemma one_point_of_scaled b c M q : let d := norm (vsub (image_point c M) (p_center (sp_props q))) in / 10000000 < d -> / 10000000 < l * d ->
    one_point_of b (fst c, l * snd c) (sc M) (scaled_panel l q) = times_value (one_point_of b c M q).
  Proof.
    intros d T1 T2. unfold one_point_of, one_point_reflected. cbn [sp_props scaled_panel]. rewrite image_scaled, one_point_scaled by assumption. apply reflected_gradient_scaled.
  Qed.

  (** ** The wave part *)
  Variable elementary : R -> R -> integrals.
  Lemma distance_scaled x y : horizontal_distance (sc x) (sc y) = l * horizontal_distance x y.
  Proof. unfold horizontal_distance. rewrite <- norm_scaled. f_equal. unfold vscale. cbn. f_equal; ring. Qed.
  Lemma kl k x : k / l * (l * x) = k * x.
  Proof. unfold Rdiv. replace (k * / l * (l * x)) with (/ l * l * (k * x)) by ring. rewrite ll. ring. Qed.
  Definition shrink (v : C * gradient) : C * gradient := (Cmult (RtoC (/ l)) (fst v), g_scale (/ l * / l) (snd v)).
  Lemma wave_scaled s k x y : wave_infinite elementary s (k / l) (sc x) (sc y) = shrink (wave_infinite elementary s k x y).
  Proof.
    pose proof (wave_form elementary s k x y) as E. pose proof (wave_form elementary s (k / l) (sc x) (sc y)) as E'. cbv zeta in E, E'. rewrite E, E'. clear E E'.
    rewrite distance_scaled. replace (vz (sc x) + vz (sc y)) with (l * (vz x + vz y)) by (unfold vscale; cbn; ring). rewrite !kl, sub_scaled.
    set (r := k * horizontal_distance x y). set (z := k * (vz x + vz y)). unfold wave_values_of. cbv zeta. set (i := elementary r z). set (r1 := sqrt (r * r + z * z)). clearbody r z i r1.
    pose proof ll as H. unfold Rdiv. set (li := / l) in *. 
    assert (Hk : forall q, (if Rltb tiny (Rabs r) then k * li * (k * li) * / r else 0) * q = li * li * ((if Rltb tiny (Rabs r) then k * k * / r else 0) * q)) by (intros q; destruct (Rltb _ _); ring).
    assert (Hu : forall c, li * (li * li) * c * l = li * li * c) by (intros c; transitivity (li * li * c * (li * l)); [ring|rewrite H; ring]).
    set (kap' := if Rltb tiny (Rabs r) then k * li * (k * li) * / r else 0) in *. set (kap := if Rltb tiny (Rabs r) then k * k * / r else 0) in *.
    assert (Ek : kap' = li * li * kap) by (specialize (Hk 1); lra). rewrite Ek. clear Hk Ek kap'. clearbody kap.
    destruct s; unfold shrink; fold li; cbn [fst snd wv_G wv_re wv_im wv_dz]; (apply injective_projections; cbn [fst snd]; [apply injective_projections; cbn -[pow]; ring|]);
      unfold gradient_form, of_parts, g_scale; cbn [fst snd wv_re wv_im wv_dz]; unfold vscale; cbn [vx vy vz];
      (apply injective_projections; cbn [fst snd]; [apply injective_projections; cbn [fst snd]|]); apply injective_projections; cbn -[pow];
      match goal with |- ?a = ?b => (ring || (transitivity (li * l * b); [ring|rewrite H; ring])) end.
  Qed.

  Definition up (v : C * gradient) : C * gradient := (Cmult (RtoC l) (fst v), snd v).
  Definition scaled_points (ps : list (vec * R)) : list (vec * R) := map (fun pw => (sc (fst pw), l * l * snd pw)) ps.
  Lemma integrate_scaled s k x ps : integrate elementary s (k / l) (sc x) (scaled_points ps) = up (integrate elementary s k x ps).
  Proof.
    unfold integrate. assert (H0 : forall acc, fold_left (fun acc pw => let v := wave_infinite elementary s (k / l) (sc x) (fst pw) in
        (Cplus (fst acc) (Cmult (fst v) (RtoC (snd pw))), g_add (snd acc) (g_scale (snd pw) (snd v)))) (scaled_points ps) (up acc)
      = up (fold_left (fun acc pw => let v := wave_infinite elementary s k x (fst pw) in
        (Cplus (fst acc) (Cmult (fst v) (RtoC (snd pw))), g_add (snd acc) (g_scale (snd pw) (snd v)))) ps acc)).
    { induction ps as [|pw r IH]; intros acc; [reflexivity|]. cbn [scaled_points map fold_left fst snd]. fold (scaled_points r). rewrite <- IH. f_equal.
      rewrite wave_scaled. generalize (wave_infinite elementary s k x (fst pw)). intros [[v1 v2] [[[g1 g1'] [g2 g2']] [g3 g3']]]. destruct acc as [[a1 a2] [[[b1 b1'] [b2 b2']] [b3 b3']]].
      pose proof ll as H. unfold shrink, up, g_add, g_scale. cbn [fst snd]. set (li := / l) in *. 
      assert (HH : forall w g, l * l * w * (li * li * g) = w * g) by (intros w g; transitivity (li * l * (li * l) * (w * g)); [ring|rewrite H; ring]).
      assert (H1 : forall w g, li * g * (l * l * w) = l * (g * w)) by (intros w g; transitivity (li * l * (l * (g * w))); [ring|rewrite H; ring]).
      apply injective_projections; cbn [fst snd].
      - apply injective_projections; cbn -[pow]; [transitivity (l * a1 + li * v1 * (l * l * snd pw)); [ring|rewrite H1; ring]|transitivity (l * a2 + li * v2 * (l * l * snd pw)); [ring|rewrite H1; ring]].
      - (apply injective_projections; cbn [fst snd]; [apply injective_projections; cbn [fst snd]|]); apply injective_projections; cbn -[pow];
        match goal with |- ?b + (_ * (_ * ?g - _) - _) = _ => transitivity (b + l * l * snd pw * (li * li * g)); [ring|rewrite HH; ring]
                      | |- ?b + (_ * (_ * ?g + _) + _) = _ => transitivity (b + l * l * snd pw * (li * li * g)); [ring|rewrite HH; ring] end. }
    rewrite <- H0. f_equal. unfold up. cbn [fst snd]. f_equal. apply injective_projections; cbn; ring.
  Qed.
  Lemma singularity_scaled area k : free_surface_singularity (l * l * area) (k / l) = up (free_surface_singularity area k).
  Proof.
    unfold free_surface_singularity, up. cbn [fst snd]. pose proof ll as H.
    assert (E1 : k / l * (l * l * area) = l * (k * area)) by (unfold Rdiv; transitivity (/ l * l * (l * (k * area))); [ring|rewrite H; ring]).
    assert (E2 : k / l * (k / l) * (l * l * area) = k * k * area) by (unfold Rdiv; transitivity (/ l * l * (/ l * l) * (k * k * area)); [ring|rewrite H; ring]).
    assert (E3 : sqrt (fortran_pi * (l * l * area)) = l * sqrt (fortran_pi * area)).
    { replace (fortran_pi * (l * l * area)) with (l * l * (fortran_pi * area)) by ring. rewrite sqrt_mult_alt by nra. now rewrite sqrt_square by lra. }
    rewrite E1, E2, E3. set (u := ln _). set (w := sqrt _). clearbody u w.
    unfold Rdiv. set (li := / l) in *.
    apply injective_projections; cbn [fst snd]; [apply injective_projections; cbn -[pow]; ring|].
    apply f_equal. apply injective_projections; cbn -[pow]; match goal with |- _ = ?b => transitivity (li * l * b); [ring|rewrite H; ring] end.
  Qed.
  Lemma infinite_scaled s k first x c area ps : integral_infinite elementary s (k / l) first (sc x) (sc c) (l * l * area) (scaled_points ps) = up (integral_infinite elementary s k first x c area ps).
  Proof.
    unfold integral_infinite. rewrite distance_scaled, kl. replace (vz (sc x) + vz (sc c)) with (l * (vz x + vz c)) by (unfold vscale; cbn; ring). rewrite kl, singularity_scaled, integrate_scaled.
    destruct (_ && _); destruct first; reflexivity.
  Qed.
  Lemma bottom_scaled h x : sea_bottom_image (l * h) (sc x) = sc (sea_bottom_image h x).
  Proof. unfold sea_bottom_image, vscale. cbn. f_equal. ring. Qed.
  Lemma bottom_points_scaled h ps : image_of_points (l * h) (scaled_points ps) = scaled_points (image_of_points h ps).
  Proof. unfold image_of_points, scaled_points. rewrite !map_map. apply map_ext. intros pw. cbn [fst snd]. now rewrite bottom_scaled. Qed.
  Lemma add_scaled_up a v acc : add_scaled a (up v) (up acc) = up (add_scaled a v acc).
  Proof. unfold add_scaled, up. cbn [fst snd]. f_equal. ring. Qed.
  Lemma symmetric_up b v : symmetric_if b (up v) = up (symmetric_if b v).
  Proof. now destruct b. Qed.
  Lemma complex_up v : complex_of (times_value v) = up (complex_of v).
  Proof. unfold complex_of, times_value, up. cbn [fst snd]. f_equal. apply RtoC_mult. Qed.
  Lemma up_zero : (RtoC 0, g_zero) = up (RtoC 0, g_zero).
  Proof. unfold up. cbn [fst snd]. f_equal. ring. Qed.
  Lemma finite_scaled dec k h first x q : clear_images l (Fin h) dec q x ->
    integral_finite elementary dec (k / l) (l * h) first (sc x) (scaled_panel l q) = up (integral_finite elementary dec k h first x q).
  Proof.
    intros (T & _). unfold integral_finite. cbv zeta. cbn [sp_props sp_quad scaled_panel scaled_props p_center p_area]. fold (scaled_points (sp_quad q)).
    rewrite !bottom_scaled, !bottom_points_scaled, !infinite_scaled, !symmetric_up, up_zero, !add_scaled_up.
    replace (depth_coefficient (k / l) (l * h)) with (depth_coefficient k h) by (unfold depth_coefficient; now rewrite kl). rewrite <- up_zero.
    set (start := add_scaled _ (symmetric_if true _) _). clearbody start.
    assert (G : forall d acc, (forall e, In e d -> In e dec) -> fold_left (prony_term (l * h) first (sc x) (scaled_panel l q)) d (up acc) = up (fold_left (prony_term h first x q) d acc)).
    { induction d as [|(lam, a) d IH]; intros acc I; [reflexivity|]. cbn [fold_left]. rewrite <- IH by (intros e H; apply I; now right). f_equal.
      assert (J : In (lam, a) dec) by (apply I; now left).
      assert (T' : forall z, In z [vz x - h * lam + 2 * h; - vz x + h * lam - 4 * h; - vz x - h * lam; vz x + h * lam - 2 * h] -> clear_of l q (V (vx x) (vy x) z)).
      { intros z H. apply T. unfold heights. apply in_or_app. right. apply in_flat_map. exists (lam, a). split; [exact J|exact H]. }
      unfold prony_term.
      assert (Y : forall c1 c2 c2', c2' = l * c2 -> In (c1 * vz x + c2) [vz x - h * lam + 2 * h; - vz x + h * lam - 4 * h; - vz x - h * lam; vz x + h * lam - 2 * h] ->
        complex_of (reflected_rankine first (c1, c2') (sc x) (sp_corners (scaled_panel l q)) (sp_props (scaled_panel l q))) = up (complex_of (reflected_rankine first (c1, c2) x (sp_corners q) (sp_props q)))).
      { intros c1 c2 c2' -> H. rewrite <- complex_up. f_equal. change (reflected_of first (fst (c1, c2), l * snd (c1, c2)) (sc x) (scaled_panel l q) = times_value (reflected_of first (c1, c2) x q)).
        apply (reflected_scaled). apply (T' _ H). }
      rewrite (Y 1 (- h * lam + 2 * h) (- (l * h) * lam + 2 * (l * h))), (Y (-1) (h * lam - 4 * h) (l * h * lam - 4 * (l * h))), (Y (-1) (- h * lam) (- (l * h) * lam)), (Y 1 (h * lam - 2 * h) (l * h * lam - 2 * (l * h))), !add_scaled_up; try ring; try reflexivity; cbn [In];
      [right; right; right; left|right; right; left|right; left|left]; ring. }
    now apply G.
  Qed.
  Variable decomposition : R -> list (R * R).
  Definition terms (k h : ext) : list (R * R) := match k, h with Fin k, Fin h => decomposition (k * h) | _, _ => [] end.
  Lemma wave_part_scaled s d k h first x q : clear_images l h (terms k h) q x ->
    wave_part elementary decomposition s d (scaled_wavenumber l k) (scaled_depth l h) first (sc x) (scaled_panel l q) = up (wave_part elementary decomposition s d k h first x q).
  Proof.
    intros T. unfold wave_part. destruct k as [k| | |]; cbn [scaled_wavenumber]; try (destruct h; apply up_zero).
    destruct h as [h| | |]; cbn [scaled_depth]; [|apply infinite_scaled..]. rewrite kl. now apply finite_scaled.
  Qed.

  (** ** The entries of the matrices *)
  Section Entries.
    Variables (s : settings) (m1 : receiver) (ps2 : list source_panel) (cs : R * R * R) (h k : ext) (adj early : bool).
    Let a := arguments s m1 ps2 cs (points_of m1) (normals_of m1 ps2 adj) h k adj early.
    Let m1' := scaled_receiver l m1.
    Let ps2' := map (scaled_panel l) ps2.
    Let a' := arguments s m1' ps2' cs (points_of m1') (normals_of m1' ps2' adj) (scaled_depth l h) (scaled_wavenumber l k) adj early.
    Let w := wave_part elementary decomposition.
    Lemma points_scaled : points_of m1' = map sc (points_of m1).
    Proof. unfold m1'. destruct m1; [|reflexivity..]. cbn. now rewrite !map_map. Qed.
    Lemma normals_scaled : normals_of m1' ps2' adj = normals_of m1 ps2 adj.
    Proof. unfold normals_of, m1', ps2'. destruct adj; [destruct m1|]; cbn; rewrite ?map_map; reflexivity. Qed.
    Lemma own_scaled : is_own m1' = is_own m1.
    Proof. now destruct m1. Qed.
    Variables (i j : nat) (x : vec) (q : source_panel).
    Hypothesis Hx : nth_error (points_of m1) i = Some x.
    Hypothesis Hq : nth_error ps2 j = Some q.
    Hypothesis T : clear_images l h (terms k h) q x.
    Lemma p_i : points_1 a i = x. Proof. cbn. now apply nth_error_nth. Qed.
    Lemma p_i' : points_1 a' i = sc x.
    Proof. cbn. apply nth_error_nth. rewrite points_scaled, nth_error_map, Hx. reflexivity. Qed.
    Lemma q_j : panels_2 a j = q. Proof. cbn. now apply nth_error_nth. Qed.
    Lemma q_j' : panels_2 a' j = scaled_panel l q.
    Proof. cbn. apply nth_error_nth. unfold ps2'. rewrite nth_error_map, Hq. reflexivity. Qed.
    Lemma rankine_x : rankine_of adj (sc x) (scaled_panel l q) = times_value (rankine_of adj x q).
    Proof. apply rankine_scaled. replace x with (V (vx x) (vy x) (vz x)) by now destruct x. apply T. unfold heights. case h; cbn; auto. Qed.
    Lemma reflected_x c1 c2 c2' : c2' = l * c2 -> In (c1 * vz x + c2) (heights h (terms k h) (vz x)) ->
      reflected_of adj (c1, c2') (sc x) (scaled_panel l q) = times_value (reflected_of adj (c1, c2) x q).
    Proof. intros -> H. apply (reflected_scaled adj (c1, c2)). now apply T. Qed.
    Lemma one_point_x c1 c2 c2' : c2' = l * c2 -> In (c1 * vz x + c2) (point_heights h (vz x)) ->
      one_point_of adj (c1, c2') (sc x) (scaled_panel l q) = times_value (one_point_of adj (c1, c2) x q).
    Proof. intros -> H. destruct T as (_ & T'). destruct (T' _ H) as (D1 & D2). now apply (one_point_of_scaled adj (c1, c2)). Qed.
    Lemma first_image_x : first_image reflected_of one_point_of a' (sc x) (scaled_panel l q) = times_value (first_image reflected_of one_point_of a x q).
    Proof.
      unfold first_image. cbn [depth a a' arguments finite_depth adjoint]. case_eq h; [intros y Eh|intros Eh..]; cbn [scaled_depth].
      - destruct (gf_finite_depth s); [apply one_point_x; [ring|rewrite Eh; cbn; left; ring]|apply reflected_x; [ring|rewrite Eh; cbn; right; left; ring]].
      - apply reflected_x; [ring|rewrite Eh; cbn; right; left; ring].
      - apply reflected_x; [ring|rewrite Eh; cbn; right; left; ring].
      - apply reflected_x; [ring|rewrite Eh; cbn; right; left; ring].
    Qed.
    Lemma images_x : images reflected_of one_point_of a' (sc x) (scaled_panel l q) = map times_value (images reflected_of one_point_of a x q).
    Proof.
      unfold images. rewrite first_image_x. cbn [depth a a' arguments adjoint]. case_eq h; [intros y Eh|intros Eh..]; cbn [scaled_depth map]; [|reflexivity..].
      rewrite (reflected_x (-1) (-2 * y) (-2 * (l * y))), (one_point_x 1 (-2 * y) (-2 * (l * y))), (one_point_x 1 (2 * y) (2 * (l * y))), (one_point_x (-1) (-4 * y) (-4 * (l * y))); try ring; [reflexivity|..]; rewrite Eh; cbn;
      [right; right; right; left|right; right; left|right; left|right; right; left]; ring.
    Qed.
    Lemma waves_x : waves w a' (sc x) (scaled_panel l q) = up (waves w a x q).
    Proof. unfold waves, w. apply wave_part_scaled. exact T. Qed.
    Lemma sum_scaled vs : Rsum (map fst (map times_value vs)) = l * Rsum (map fst vs).
    Proof. unfold Rsum. induction vs as [|v r IH]; cbn; [ring|]. rewrite IH. ring. Qed.
    Lemma snd_scaled vs : map snd (map times_value vs) = map snd vs.
    Proof. rewrite map_map. reflexivity. Qed.
    Lemma S_scaled : S_entry rankine_of reflected_of one_point_of w a' i j = Cmult (RtoC l) (S_entry rankine_of reflected_of one_point_of w a i j).
    Proof.
      unfold S_entry. cbv zeta. rewrite p_i, p_i', q_j, q_j', images_x, waves_x. change (adjoint a') with adj. change (adjoint a) with adj. rewrite rankine_x, sum_scaled.
      change (c_source a') with (c_source a). change (c_images a') with (c_images a). change (c_wave a') with (c_wave a). unfold up, times_value. cbn [fst snd].
      generalize (fst (rankine_of adj x q)), (Rsum (map fst (images reflected_of one_point_of a x q))), (c_source a), (c_images a), (c_wave a), (waves w a x q), scale4pi.
      intros u v c1 c2 c3 [[w1 w2] g] t. apply injective_projections; cbn -[pow]; ring.
    Qed.
    Hypothesis J : i = j -> is_own m1 = true -> vz (p_center (sp_props q)) = 0 \/ above_tolerance l (/ 100000000) (Rabs (vz (p_center (sp_props q)))).
    Lemma jump_scaled : jump_entry a' i j = jump_entry a i j.
    Proof.
      unfold jump_entry. change (same_body a') with (is_own m1'). change (same_body a) with (is_own m1). rewrite own_scaled, q_j, q_j'.
      change (dot_normals a' (if adjoint a' then i else j)) with (nth (if adj then i else j) (normals_of m1' ps2' adj) v0). rewrite normals_scaled.
      change (dot_normals a (if adjoint a then i else j)) with (nth (if adj then i else j) (normals_of m1 ps2 adj) v0).
      destruct (Nat.eqb i j && is_own m1) eqn:E; [|reflexivity]. apply andb_prop in E. destruct E as (E1 & E2). apply Nat.eqb_eq in E1. f_equal.
      cbn [scaled_panel sp_props scaled_props p_center vscale vz]. rewrite abs_scaled. destruct (J E1 E2) as [Z|(A & B)].
      - rewrite Z, Rabs_R0, Rmult_0_r. reflexivity.
      - rewrite !(proj2 (Rltb_false _ _)) by assumption. reflexivity.
    Qed.
    Lemma extra_scaled : extra_entry reflected_of one_point_of a' (sc x) (scaled_panel l q) = extra_entry reflected_of one_point_of a x q.
    Proof.
      unfold extra_entry. change (singular a') with (gf_singularities s). change (singular a) with (gf_singularities s). change (wavenumber a') with (scaled_wavenumber l k). change (wavenumber a) with k.
      rewrite first_image_x. case (gf_singularities s); try reflexivity. case_eq k; [intros y Ek|reflexivity..]; cbn [scaled_wavenumber].
      unfold times_value. cbn [fst snd]. f_equal. f_equal. replace (2 * (y / l) * (l * fst (first_image reflected_of one_point_of a x q))) with (2 * (y / l * (l * fst (first_image reflected_of one_point_of a x q)))) by ring.
      rewrite kl. ring.
    Qed.
    Lemma gradient_scaled_entry : gradient_entry rankine_of reflected_of one_point_of w a' i j = gradient_entry rankine_of reflected_of one_point_of w a i j.
    Proof.
      unfold gradient_entry. cbv zeta. rewrite jump_scaled, p_i, p_i', q_j, q_j', images_x, waves_x, snd_scaled, extra_scaled. change (adjoint a') with adj. change (adjoint a) with adj. rewrite rankine_x. reflexivity.
    Qed.
    Lemma K_scaled : K_entry rankine_of reflected_of one_point_of w a' i j = K_entry rankine_of reflected_of one_point_of w a i j.
    Proof.
      unfold K_entry. rewrite gradient_scaled_entry. change (early_dot a') with early. change (early_dot a) with early.
      change (dot_normals a' (if adjoint a' then i else j)) with (nth (if adj then i else j) (normals_of m1' ps2' adj) v0). now rewrite normals_scaled.
    Qed.
  End Entries.
End Scale.
