(** Proofs about the Green function: the conditions on the sea bottom and on the free surface. *)
From Coq Require Import Reals.
From Coquelicot Require Import Complex.
From Coq Require Import List Bool Arith Lra Lia.
From Verif Require Import Model_Base Model_Geometry Model_Mesh Spec_Mesh Proofs_Geometry Proofs_Mesh Proofs_Mesh2 Proofs_Mesh3 Proofs_Integrals
  Model_Assembly Spec_Assembly Model_Rankine Model_Wave Proofs_Rankine Proofs_Wave.
Import ListNotations.
Open Scope R_scope.

Lemma reflected_first c M q f : reflected_rankine true c M q f
  = let g := rankine true (image_point c M) q f in (fst g, V (vx (snd g)) (vy (snd g)) (fst c * vz (snd g))).
Proof. unfold reflected_rankine, rankine, one_point_reflected, exact_reflected, reflected_gradient. now destruct (Rltb _ _). Qed.
Lemma one_point_first c M f : one_point_reflected true c M f
  = let g := one_point_rankine true (image_point c M) f in (fst g, V (vx (snd g)) (vy (snd g)) (fst c * vz (snd g))).
Proof. reflexivity. Qed.

Section Bottom.
  Variable elementary : R -> R -> integrals.
  Notation integral_finite := (integral_finite elementary).
  Variables (h : R) (x : vec) (q : source_panel).
  Hypothesis Z : vz x = - h.
  Lemma bottom_image : sea_bottom_image h x = x.
  Proof. unfold sea_bottom_image. rewrite Z. destruct x as [a b c]. cbn in *. f_equal. rewrite Z. ring. Qed.
  Lemma image_points c c' : - fst c * h + snd c = - fst c' * h + snd c' -> image_point c x = image_point c' x.
  Proof. intros E. unfold image_point. rewrite Z. f_equal. lra. Qed.
  Definition third (v : C * gradient) : C := snd (snd v).
  Lemma third_add k v acc : third (add_scaled k v acc) = Cplus (third acc) (Cmult (RtoC k) (third v)).
  Proof. reflexivity. Qed.
  Lemma third_reflected c : third (complex_of (reflected_rankine true c x (sp_corners q) (sp_props q)))
    = RtoC (fst c * vz (snd (rankine true (image_point c x) (sp_corners q) (sp_props q)))).
  Proof. rewrite reflected_first. reflexivity. Qed.
  Lemma prony_bottom acc la : third acc = RtoC 0 -> third (prony_term h true x q acc la) = RtoC 0.
  Proof.
    destruct la as [l a]. intros E. unfold prony_term. rewrite !third_add, !third_reflected, E. cbn [fst snd].
    rewrite (image_points (1, - h * l + 2 * h) (-1, - h * l)) by (cbn; ring).
    rewrite (image_points (-1, h * l - 4 * h) (1, h * l - 2 * h)) by (cbn; ring).
    apply injective_projections; cbn; field.
  Qed.
  Lemma finite_bottom d k : third (integral_finite d k h true x q) = RtoC 0.
  Proof.
    unfold Model_Wave.integral_finite. cbv zeta. rewrite bottom_image.
    match goal with |- third (fold_left _ d ?s) = _ => assert (E : third s = RtoC 0) end.
    { rewrite !third_add. cbn [symmetric_if negb]. unfold third, symmetric_of_vector. cbn [fst snd g_zero]. apply injective_projections; cbn; ring. }
    revert E. match goal with |- third ?s = _ -> _ => generalize s end. induction d as [|la d IH]; intros acc E; [exact E|]. cbn [fold_left]. apply IH. now apply prony_bottom.
  Qed.
End Bottom.

Section Entries.
  Variable elementary : R -> R -> integrals.
  Variable decomposition : R -> list (R * R).
  Notation w := (wave_part elementary decomposition).
  Notation S_entry := (S_entry rankine_of reflected_of one_point_of w).
  Notation gradient_entry := (gradient_entry rankine_of reflected_of one_point_of w).
  Notation first_image := (first_image reflected_of one_point_of).
  Notation images := (images reflected_of one_point_of).
  Notation extra_entry := (extra_entry reflected_of one_point_of).
  Variable a : inputs.
  Lemma vz_vsum l : vz (vsum l) = Rsum (map vz l).
  Proof. induction l as [|u l IH]; [reflexivity|]. change (vz u + vz (vsum l) = vz u + Rsum (map vz l)). now rewrite IH. Qed.
  Lemma third_entry i j : let p := points_1 a i in let q := panels_2 a j in
    snd (gradient_entry a i j) = Cplus (snd (jump_entry a i j)) (Cmult (RtoC scale4pi)
      (Cplus (RtoC (c_source a * vz (snd (rankine_of (adjoint a) p q)) + c_images a * Rsum (map (fun v => vz (snd v)) (images a p q))))
             (Cmult (RtoC (c_wave a)) (Cplus (snd (extra_entry a p q)) (snd (snd (waves w a p q))))))).
  Proof.
    cbv zeta. unfold Spec_Assembly.gradient_entry. unfold plus3 at 1, times3 at 1, plus3 at 1, real3, times3 at 1, plus3 at 1. cbn [snd fst]. unfold vadd, vscale. cbn [vz].
    rewrite vz_vsum, map_map. reflexivity.
  Qed.

  Section FiniteDepth.
    Variable h : R. Hypothesis Hh : depth a = Fin h.
    Hypothesis Ad : adjoint a = true.
    Variables (i j : nat).
    Hypothesis Z : vz (points_1 a i) = - h.
    Hypothesis Cs : c_source a = c_images a.
    Notation p := (points_1 a i). Notation q := (panels_2 a j).
    (** The image of the source by the free surface is computed at one point. *)
    Definition image_far : Prop := finite_depth a = LegacyDepth \/ 7 * p_radius (sp_props q) < norm (vsub (image_point (-1, 0) p) (p_center (sp_props q))).
    Lemma first_image_far : image_far -> first_image a p q = one_point_of true (-1, 0) p q.
    Proof.
      intros F. unfold Spec_Assembly.first_image. rewrite Hh, Ad. destruct F as [->|F]; [reflexivity|]. destruct (finite_depth a); [reflexivity|].
      unfold reflected_of, reflected_rankine, one_point_of. now rewrite (proj2 (Rltb_true _ _) F).
    Qed.
    Lemma bottom_sum : image_far -> vz (snd (rankine_of true p q)) + Rsum (map (fun v => vz (snd v)) (images a p q)) = 0.
    Proof.
      intros F. unfold Spec_Assembly.images. rewrite (first_image_far F), Hh, Ad. cbn [map]. unfold one_point_of, reflected_of. rewrite reflected_first, !one_point_first.
      cbn [fst snd vz]. rewrite (image_points h p Z (1, 2 * h) (-1, 0)) by (cbn; ring). rewrite (image_points h p Z (-1, -4 * h) (1, -2 * h)) by (cbn; ring).
      assert (E : image_point (-1, -2 * h) p = p).
      { unfold image_point. cbn [fst snd]. rewrite Z. destruct p as [u v t]. cbn in *. f_equal. rewrite Z. ring. }
      rewrite E. unfold rankine_of, Rsum. cbn [fold_right]. ring.
    Qed.
    Lemma bottom_entry : image_far -> snd (gradient_entry a i j) = Cplus (snd (jump_entry a i j)) (Cmult (RtoC (scale4pi * c_wave a)) (snd (extra_entry a p q))).
    Proof.
      intros F. rewrite third_entry. f_equal. rewrite Ad, Cs, <- Rmult_plus_distr_l, (bottom_sum F).
      replace (snd (snd (waves w a p q))) with (RtoC 0); [apply injective_projections; cbn; ring|].
      unfold waves, wave_part. rewrite Ad, Hh. destruct (wavenumber a) as [k| | |]; try reflexivity. symmetry. apply (finite_bottom elementary h p q Z).
    Qed.
  End FiniteDepth.

  (** ** The free surface, in infinite depth *)
  Section Surface.
    Hypothesis Hh : depth a = PInf.
    Hypothesis Ad : adjoint a = true.
    Variables (i j : nat) (k : R).
    Hypothesis Z : vz (points_1 a i) = 0.
    Hypothesis Hk : wavenumber a = Fin k.
    Notation p := (points_1 a i). Notation q := (panels_2 a j).
    Lemma surface_image : image_point (-1, 0) p = p.
    Proof. unfold image_point. cbn [fst snd]. rewrite Z. destruct p as [u v t]. cbn in *. f_equal. rewrite Z. ring. Qed.
    Lemma surface_first : first_image a p q = (fst (rankine_of true p q), V (vx (snd (rankine_of true p q))) (vy (snd (rankine_of true p q))) (-1 * vz (snd (rankine_of true p q)))).
    Proof.
      unfold Spec_Assembly.first_image. rewrite Hh, Ad. destruct (finite_depth a); unfold reflected_of; rewrite reflected_first, surface_image; reflexivity.
    Qed.
    Lemma surface_images : images a p q = [first_image a p q].
    Proof. unfold Spec_Assembly.images. now rewrite Hh. Qed.
    Definition Wv := waves w a p q.
    Lemma surface_third : snd (gradient_entry a i j) = Cplus (snd (jump_entry a i j)) (Cmult (RtoC scale4pi)
      (Cplus (RtoC ((c_source a - c_images a) * vz (snd (rankine_of true p q)))) (Cmult (RtoC (c_wave a)) (Cplus (snd (extra_entry a p q)) (snd (snd Wv)))))).
    Proof.
      rewrite third_entry, surface_images. cbn [map]. rewrite surface_first, Ad. cbn [snd fst vz]. f_equal. f_equal. f_equal. f_equal. unfold Rsum. cbn [fold_right]. ring.
    Qed.
    Lemma surface_S : S_entry a i j = Cmult (RtoC scale4pi) (Cplus (RtoC ((c_source a + c_images a) * fst (rankine_of true p q))) (Cmult (RtoC (c_wave a)) (fst Wv))).
    Proof.
      unfold Spec_Assembly.S_entry. rewrite surface_images. cbn [map]. rewrite surface_first, Ad. cbn [fst]. f_equal. f_equal. f_equal. unfold Rsum. cbn [fold_right]. ring.
    Qed.
    (** The singularity on the free surface is not used. *)
    Definition off_surface : Prop :=
      / 10000000000 <= Rabs (k * horizontal_distance p (p_center (sp_props q))) \/ / 10000000000 <= Rabs (k * (vz p + vz (p_center (sp_props q)))).
    Lemma surface_waves : off_surface -> Wv = integrate elementary (singular a) k p (sp_quad q).
    Proof.
      intros O. unfold Wv, waves, wave_part. rewrite Hk, Hh, Ad. unfold integral_infinite. cbv zeta.
      replace (Rltb (Rabs (k * horizontal_distance p (p_center (sp_props q)))) (/ 10000000000) && Rltb (Rabs (k * (vz p + vz (p_center (sp_props q))))) (/ 10000000000)) with false; [reflexivity|].
      symmetry. apply andb_false_iff. destruct O as [O|O]; [left|right]; apply Rltb_false; lra.
    Qed.
    (** What the vertical derivative of the wave part adds to the product by the wavenumber. *)
    Definition residue (s : singularities) (y : vec) : R :=
      let r := k * horizontal_distance p y in let z := k * (vz p + vz y) in let r1 := sqrt (r * r + z * z) in
      match s with LowFreq => k * (k * (2 / r1)) | LowFreqWithRankine => 0 | HighFreq => - (k * (2 * k * z / r1 ^ 3)) end.
    Lemma integrate_third s l : third (integrate elementary s k p l)
      = Cplus (Cmult (RtoC k) (fst (integrate elementary s k p l))) (RtoC (Rsum (map (fun pw => snd pw * residue s (fst pw)) l))).
    Proof.
      unfold integrate.
      assert (X : forall l acc e, third acc = Cplus (Cmult (RtoC k) (fst acc)) (RtoC e) ->
        let r := fold_left (fun acc pw => let v := wave_infinite elementary s k p (fst pw) in
          (Cplus (fst acc) (Cmult (fst v) (RtoC (snd pw))), g_add (snd acc) (g_scale (snd pw) (snd v)))) l acc in
        third r = Cplus (Cmult (RtoC k) (fst r)) (RtoC (e + Rsum (map (fun pw => snd pw * residue s (fst pw)) l)))).
      { clear. intros l. induction l as [|[y u] l IH]; intros acc e E; cbn zeta; cbn [fold_left map].
        - rewrite E. unfold Rsum. cbn [fold_right]. now rewrite Rplus_0_r.
        - change (Rsum (snd (y, u) * residue s (fst (y, u)) :: map (fun pw => snd pw * residue s (fst pw)) l)) with (u * residue s y + Rsum (map (fun pw => snd pw * residue s (fst pw)) l)).
          replace (e + (u * residue s y + Rsum (map (fun pw => snd pw * residue s (fst pw)) l))) with ((e + u * residue s y) + Rsum (map (fun pw => snd pw * residue s (fst pw)) l)) by ring.
          apply IH. cbn [fst snd third g_add g_scale]. unfold third in E. unfold third. cbn [snd g_add]. rewrite E.
          rewrite (wave_form elementary s k p y). cbn [fst snd]. unfold residue, wave_values_of, gradient_form. cbv zeta.
          destruct s; cbn [wv_G wv_dz wv_re wv_im fst snd of_parts g_scale]; apply injective_projections; cbn -[pow]; unfold Rdiv; ring. }
      specialize (X l (RtoC 0, g_zero) 0). cbv zeta in X. rewrite Rplus_0_l in X. apply X. unfold third. cbn. apply injective_projections; cbn; ring.
    Qed.
    Definition residues : R := Rsum (map (fun pw => snd pw * residue (singular a) (fst pw)) (sp_quad q)).
    Lemma surface_difference : off_surface ->
      Cminus (Cminus (snd (gradient_entry a i j)) (snd (jump_entry a i j))) (Cmult (RtoC k) (S_entry a i j))
      = Cmult (RtoC scale4pi) (Cplus (RtoC ((c_source a - c_images a) * vz (snd (rankine_of true p q)) - k * ((c_source a + c_images a) * fst (rankine_of true p q))
          + c_wave a * residues)) (Cmult (RtoC (c_wave a)) (snd (extra_entry a p q)))).
    Proof.
      intros O. rewrite surface_third, surface_S, (surface_waves O). change (snd (snd (integrate elementary (singular a) k p (sp_quad q)))) with (third (integrate elementary (singular a) k p (sp_quad q))).
      rewrite integrate_third. fold residues. destruct (snd (jump_entry a i j)) as [j1 j2], (snd (extra_entry a p q)) as [e1 e2].
      generalize residues. intros r. generalize (integrate elementary (singular a) k p (sp_quad q)). intros [[s1 s2] g]. apply injective_projections; cbn; ring.
    Qed.
    Lemma extra_surface : extra_entry a p q = match singular a with LowFreqWithRankine => (RtoC 0, RtoC 0, RtoC (2 * k * fst (rankine_of true p q))) | _ => zero3 end.
    Proof. unfold Spec_Assembly.extra_entry. rewrite Hk, surface_first. cbn [fst]. reflexivity. Qed.
    Lemma surface_with_rankine : off_surface -> singular a = LowFreqWithRankine -> c_source a = c_images a -> c_images a = c_wave a ->
      Cminus (snd (gradient_entry a i j)) (snd (jump_entry a i j)) = Cmult (RtoC k) (S_entry a i j).
    Proof.
      intros O Es C1 C2. pose proof (surface_difference O) as D. rewrite extra_surface, Es, C1, C2 in D. unfold residues in D. rewrite Es in D. cbn [snd residue] in D.
      assert (R0 : forall l : list (vec * R), Rsum (map (fun pw => snd pw * 0) l) = 0).
      { induction l as [|y l IH]; [reflexivity|]. change (snd y * 0 + Rsum (map (fun pw : vec * R => snd pw * 0) l) = 0). rewrite IH. ring. }
      cbv zeta in D. rewrite R0 in D. revert D. generalize (Cminus (snd (gradient_entry a i j)) (snd (jump_entry a i j))) (Cmult (RtoC k) (S_entry a i j)). intros [x1 x2] [y1 y2] D.
      injection D as D1 D2. apply injective_projections; cbn; [|lra]. ring_simplify in D1. lra.
    Qed.
    (** A single quadrature point, at the center, and a panel far enough to be seen as a point. *)
    Hypothesis Hq : sp_quad q = [(p_center (sp_props q), p_area (sp_props q))].
    Hypothesis Far : 7 * p_radius (sp_props q) < norm (vsub p (p_center (sp_props q))).
    Hypothesis Off : / 10000000 < norm (vsub p (p_center (sp_props q))).
    Hypothesis Kp : 0 < k.
    Notation d := (norm (vsub p (p_center (sp_props q)))).
    Lemma far_rankine : rankine_of true p q = (p_area (sp_props q) / d, vscale (p_area (sp_props q) / d / (d * d)) (vsub (p_center (sp_props q)) p)).
    Proof.
      unfold rankine_of, rankine. rewrite (proj2 (Rltb_true _ _) Far). unfold one_point_rankine. cbv zeta.
      replace (norm (vsub (p_center (sp_props q)) p)) with d by (apply norm_eq; vring'). now rewrite (proj2 (Rltb_true _ _) Off).
    Qed.
    Lemma distance_1 : let r := k * horizontal_distance p (p_center (sp_props q)) in let z := k * (vz p + vz (p_center (sp_props q))) in sqrt (r * r + z * z) = k * d.
    Proof.
      cbv zeta. unfold horizontal_distance, norm.
      set (c := p_center (sp_props q)). 
      replace (k * sqrt (dot (V (vx p - vx c) (vy p - vy c) 0) (V (vx p - vx c) (vy p - vy c) 0)) * (k * sqrt (dot (V (vx p - vx c) (vy p - vy c) 0) (V (vx p - vx c) (vy p - vy c) 0))))
        with (k * k * (sqrt (dot (V (vx p - vx c) (vy p - vy c) 0) (V (vx p - vx c) (vy p - vy c) 0)) * sqrt (dot (V (vx p - vx c) (vy p - vy c) 0) (V (vx p - vx c) (vy p - vy c) 0)))) by ring.
      rewrite sqrt_sqrt by apply dot_pos. rewrite Z.
      replace (k * k * dot (V (vx p - vx c) (vy p - vy c) 0) (V (vx p - vx c) (vy p - vy c) 0) + k * (0 + vz c) * (k * (0 + vz c)))
        with (k * k * dot (vsub p c) (vsub p c)) by (unfold dot, vsub; cbn; rewrite Z; ring).
      rewrite sqrt_mult by (try nra; apply dot_pos). rewrite sqrt_square by lra. reflexivity.
    Qed.
    Lemma surface_far : off_surface -> c_wave a = 1 -> c_source a = 1 ->
      (singular a = HighFreq /\ c_images a = -1) \/ (singular a = LowFreq /\ c_images a = 1) ->
      Cminus (snd (gradient_entry a i j)) (snd (jump_entry a i j)) = Cmult (RtoC k) (S_entry a i j).
    Proof.
      intros O Cw C1 Cases. pose proof (surface_difference O) as D. rewrite extra_surface, far_rankine, Cw, C1 in D.
      assert (Pd : 0 < d) by lra. pose proof distance_1 as D1. cbv zeta in D1.
      unfold residues in D. rewrite Hq in D. cbn [map fst snd] in D. unfold Rsum in D. cbn [fold_right] in D. unfold residue in D. cbv zeta in D. rewrite D1 in D.
      set (c := p_center (sp_props q)) in *. set (A := p_area (sp_props q)) in *. set (dd := norm (vsub p c)) in *. clearbody dd A.
      revert D. generalize (Cminus (snd (gradient_entry a i j)) (snd (jump_entry a i j))) (Cmult (RtoC k) (S_entry a i j)). intros [x1 x2] [y1 y2] D.
      destruct Cases as [(Es & Ei)|(Es & Ei)]; rewrite Es, Ei in D; cbn [fst snd zero3 vz vscale vsub] in D; rewrite Z in D.
      - replace ((1 - -1) * (A / dd / (dd * dd) * (vz c - 0)) - k * ((1 + -1) * (A / dd)) + 1 * (A * - (k * (2 * k * (k * (0 + vz c)) / (k * dd) ^ 3)) + 0)) with 0 in D by (field; lra).
        injection D as D2 D3. cbn in D2, D3. apply injective_projections; cbn; lra.
      - replace ((1 - 1) * (A / dd / (dd * dd) * (vz c - 0)) - k * ((1 + 1) * (A / dd)) + 1 * (A * (k * (k * (2 / (k * dd)))) + 0)) with 0 in D by (field; lra).
        injection D as D2 D3. cbn in D2, D3. apply injective_projections; cbn; lra.
    Qed.
  End Surface.
  Section Defect.
    Hypothesis Hh : depth a = PInf.
    Hypothesis Ad : adjoint a = true.
    Variables (i j : nat) (k : R).
    Hypothesis Z : vz (points_1 a i) = 0.
    Hypothesis Hk : wavenumber a = Fin k.
    Hypothesis Kp : 0 < k.
    Notation p := (points_1 a i). Notation q := (panels_2 a j).
    Lemma distance_to y : let r := k * horizontal_distance p y in let z := k * (vz p + vz y) in sqrt (r * r + z * z) = k * norm (vsub p y).
    Proof.
      cbv zeta. unfold horizontal_distance, norm.
      set (e := dot (V (vx p - vx y) (vy p - vy y) 0) (V (vx p - vx y) (vy p - vy y) 0)).
      replace (k * sqrt e * (k * sqrt e)) with (k * k * (sqrt e * sqrt e)) by ring. rewrite sqrt_sqrt by apply dot_pos. rewrite Z.
      replace (k * k * e + k * (0 + vz y) * (k * (0 + vz y))) with (k * k * dot (vsub p y) (vsub p y)) by (unfold e, dot, vsub; cbn; rewrite Z; ring).
      rewrite sqrt_mult by (try nra; apply dot_pos). rewrite sqrt_square by lra. reflexivity.
    Qed.
    Lemma low_residues : singular a = LowFreq -> (forall pw, In pw (sp_quad q) -> 0 < norm (vsub p (fst pw))) ->
      residues i j k = 2 * k * Rsum (map (fun pw => snd pw / norm (vsub p (fst pw))) (sp_quad q)).
    Proof.
      intros Es O. unfold residues. rewrite Es. induction (sp_quad q) as [|y l IH]; [unfold Rsum; cbn; ring|].
      cbn [map]. unfold Rsum in *. cbn [fold_right]. rewrite IH by (intros pw H; apply O; now right). unfold residue. cbv zeta. rewrite (distance_to (fst y)).
      specialize (O y (or_introl eq_refl)). field. lra.
    Qed.
    Lemma surface_defect : off_surface i j k -> singular a = LowFreq -> c_source a = 1 -> c_images a = 1 -> c_wave a = 1 ->
      (forall pw, In pw (sp_quad q) -> 0 < norm (vsub p (fst pw))) ->
      Cminus (Cminus (snd (gradient_entry a i j)) (snd (jump_entry a i j))) (Cmult (RtoC k) (S_entry a i j))
      = RtoC (scale4pi * (2 * k * (Rsum (map (fun pw => snd pw / norm (vsub p (fst pw))) (sp_quad q)) - fst (rankine_of true p q)))).
    Proof.
      intros O Es C1 C2 C3 Q. rewrite (surface_difference Hh Ad i j k Z Hk O), (extra_surface Hh Ad i j k Z Hk), Es, C1, C2, C3, (low_residues Es Q).
      apply injective_projections; cbn -[Rsum]; ring.
    Qed.
  End Defect.

  (** The limits of the frequency. *)
  Lemma surface_limits i j : depth a = PInf -> adjoint a = true -> vz (points_1 a i) = 0 -> c_wave a = 0 ->
    (c_images a = c_source a -> snd (gradient_entry a i j) = snd (jump_entry a i j)) /\ (c_images a = - c_source a -> S_entry a i j = RtoC 0).
  Proof.
    intros Hh Ad Z Cw. split; intros C.
    - rewrite (surface_third Hh Ad i j Z), Cw, C. destruct (snd (jump_entry a i j)) as [x y]. apply injective_projections; cbn; ring.
    - rewrite (surface_S Hh Ad i j Z), Cw, C. apply injective_projections; cbn; ring.
  Qed.
End Entries.
