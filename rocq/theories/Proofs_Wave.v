(** Proofs about the wave part: motions that keep the vertical. *)
From Coq Require Import Reals.
From Coquelicot Require Import Complex.
From Coq Require Import List Bool Lra Lia Permutation.
From Verif Require Import Model_Base Model_Geometry Model_Mesh Spec_Mesh Proofs_Geometry Proofs_Mesh Proofs_Mesh2 Proofs_Mesh3 Proofs_Integrals
  Model_Assembly Model_Rankine Model_Wave Proofs_Rankine.
Import ListNotations.
Open Scope R_scope.

Definition of_parts (u v : vec) : gradient := ((vx u, vx v), (vy u, vy v), (vz u, vz v)).
Definition re3 (g : gradient) : vec := V (fst (fst (fst g))) (fst (snd (fst g))) (fst (snd g)).
Definition im3 (g : gradient) : vec := V (snd (fst (fst g))) (snd (snd (fst g))) (snd (snd g)).
Lemma re3_of u v : re3 (of_parts u v) = u. Proof. now destruct u. Qed.
Lemma im3_of u v : im3 (of_parts u v) = v. Proof. now destruct v. Qed.
Lemma of_parts_eta g : of_parts (re3 g) (im3 g) = g.
Proof. now destruct g as [[[a a'] [b b']] [c c']]. Qed.
Lemma g_ext g g' : re3 g = re3 g' -> im3 g = im3 g' -> g = g'.
Proof. intros A B. rewrite <- (of_parts_eta g), A, B. apply of_parts_eta. Qed.
Lemma re3_add a b : re3 (g_add a b) = vadd (re3 a) (re3 b). Proof. reflexivity. Qed.
Lemma im3_add a b : im3 (g_add a b) = vadd (im3 a) (im3 b). Proof. reflexivity. Qed.
Lemma re3_scale k a : re3 (g_scale k a) = vscale k (re3 a).
Proof. unfold re3, g_scale, vscale. cbn. f_equal; ring. Qed.
Lemma im3_scale k a : im3 (g_scale k a) = vscale k (im3 a).
Proof. unfold im3, g_scale, vscale. cbn. f_equal; ring. Qed.
Lemma g_add_comm3 a b c : g_add (g_add a b) c = g_add (g_add a c) b.
Proof. apply g_ext; rewrite ?re3_add, ?im3_add; vring'. Qed.

(** The vector between two points gives the horizontal gradient. *)
Record wave_values := WaveValues { wv_G : C; wv_re : R; wv_im : R; wv_dz : C }.
Section Form.
  Variable elementary : R -> R -> integrals.
  Definition wave_values_of (s : singularities) (k r z : R) : wave_values :=
    let kappa := if Rltb tiny (Rabs r) then k * k / r else 0 in
    let r1 := sqrt (r * r + z * z) in
    let i := elementary r z in
    match s with
    | LowFreq => WaveValues (k * I1 i, k * I3 i) (k * kappa * I4 i) (k * kappa * I5 i) (k * (k * (I1 i + 2 / r1)), k * (k * I3 i))
    | LowFreqWithRankine => WaveValues (k * I1 i, k * I3 i) (k * kappa * I4 i) (k * kappa * I5 i) (k * (k * I1 i), k * (k * I3 i))
    | HighFreq => WaveValues (k * I2 i, k * I3 i) (k * (kappa * I4 i - 2 * kappa * r / r1 ^ 3)) (k * kappa * I5 i)
                    (k * (k * I2 i - 2 * k * z / r1 ^ 3), k * (k * I3 i))
    end.
  Definition gradient_form (w : wave_values) (u : vec) : gradient :=
    of_parts (V (wv_re w * vx u) (wv_re w * vy u) (fst (wv_dz w))) (V (wv_im w * vx u) (wv_im w * vy u) (snd (wv_dz w))).
  Lemma wave_form s k x y :
    let w := wave_values_of s k (k * horizontal_distance x y) (k * (vz x + vz y)) in
    wave_infinite elementary s k x y = (wv_G w, gradient_form w (vsub x y)).
  Proof.
    cbv zeta. unfold wave_infinite, wave_values_of. cbv zeta.
    set (r := k * horizontal_distance x y). set (z := k * (vz x + vz y)). set (i := elementary r z). clearbody r i. 
    generalize (sqrt (r * r + z * z)). intros r1. clearbody z.
    destruct s; cbn [wv_G]; (apply injective_projections; cbn [fst snd];
     [apply injective_projections; cbn; ring|]); (apply g_ext; unfold re3, im3, gradient_form, of_parts; cbn -[tiny pow Rltb];
     destruct (Rltb tiny (Rabs r)); f_equal; unfold Rdiv; ring).
  Qed.
End Form.

Section Motion.
  Variables (pt dir : vec -> vec) (keeps : bool).
  Hypothesis H : isometry pt dir keeps.
  Hypothesis Up : forall x, vz (pt x) = vz x.

  Lemma vz_dir u : vz (dir u) = vz u.
  Proof.
    replace u with (vsub u v0) at 1 by vring'. rewrite <- (iso_sub _ _ _ H). unfold vsub at 1. cbn [vz]. rewrite !Up. unfold v0. cbn. ring.
  Qed.
  Lemma dir_ez : dir (V 0 0 1) = V 0 0 1.
  Proof.
    pose proof (vz_dir (V 0 0 1)) as Z. pose proof (iso_dot _ _ _ H (V 0 0 1) (V 0 0 1)) as D. destruct (dir (V 0 0 1)) as [x y z]. cbn [vz] in Z. subst z.
    unfold dot in D. cbn in D. assert (x * x + y * y = 0) by lra. assert (x = 0) by nra. assert (y = 0) by nra. now subst.
  Qed.
  Lemma dir_lift u w : dir (V (vx u) (vy u) w) = V (vx (dir u)) (vy (dir u)) w.
  Proof.
    replace (V (vx u) (vy u) w) with (vadd u (vscale (w - vz u) (V 0 0 1))) by (unfold vadd, vscale; cbn; f_equal; ring).
    rewrite (iso_add _ _ _ H), (iso_scale _ _ _ H), dir_ez. unfold vadd, vscale. cbn [vx vy vz]. rewrite vz_dir. f_equal; ring.
  Qed.
  Lemma dir_lift2 k u w : dir (V (k * vx u) (k * vy u) w) = V (k * vx (dir u)) (k * vy (dir u)) w.
  Proof. change (dir (V (vx (vscale k u)) (vy (vscale k u)) w) = V (k * vx (dir u)) (k * vy (dir u)) w). rewrite dir_lift, (iso_scale _ _ _ H). reflexivity. Qed.
  Lemma pt_lift x w : pt (V (vx x) (vy x) w) = V (vx (pt x)) (vy (pt x)) w.
  Proof.
    assert (E : vsub (pt (V (vx x) (vy x) w)) (pt x) = V 0 0 (w - vz x)).
    { rewrite (iso_sub _ _ _ H). replace (vsub (V (vx x) (vy x) w) x) with (vscale (w - vz x) (V 0 0 1)) by (unfold vsub, vscale; cbn; f_equal; ring).
      rewrite (iso_scale _ _ _ H), dir_ez. unfold vscale. cbn. f_equal; ring. }
    replace (pt (V (vx x) (vy x) w)) with (vadd (vsub (pt (V (vx x) (vy x) w)) (pt x)) (pt x)) by vring'. rewrite E.
    unfold vadd. cbn. rewrite Up. f_equal; ring.
  Qed.
  Lemma image_point_moved c M : image_point c (pt M) = pt (image_point c M).
  Proof. unfold image_point. now rewrite pt_lift, Up. Qed.
  Lemma sea_bottom_moved h x : sea_bottom_image h (pt x) = pt (sea_bottom_image h x).
  Proof. unfold sea_bottom_image. now rewrite pt_lift, Up. Qed.
  Lemma horizontal_moved x y : horizontal_distance (pt x) (pt y) = horizontal_distance x y.
  Proof.
    unfold horizontal_distance. change (norm (V (vx (vsub (pt x) (pt y))) (vy (vsub (pt x) (pt y))) 0) = norm (V (vx (vsub x y)) (vy (vsub x y)) 0)).
    rewrite (iso_sub _ _ _ H), <- dir_lift. apply (dir_norm _ _ _ H).
  Qed.
  Notation moved_value := (moved_value dir).
  Lemma reflected_gradient_moved b c v : reflected_gradient b c (moved_value v) = moved_value (reflected_gradient b c v).
  Proof.
    unfold reflected_gradient, Proofs_Rankine.moved_value. cbn [fst snd]. f_equal. rewrite vz_dir. cbn [vx vy vz].
    destruct b; [now rewrite dir_lift|].
    pose proof (dir_lift2 (-1) (snd v) (if Rltb 0 (fst c) then - (fst c * vz (snd v)) else fst c * vz (snd v))) as E.
    replace (V (- vx (snd v)) (- vy (snd v)) (if Rltb 0 (fst c) then - (fst c * vz (snd v)) else fst c * vz (snd v)))
      with (V (-1 * vx (snd v)) (-1 * vy (snd v)) (if Rltb 0 (fst c) then - (fst c * vz (snd v)) else fst c * vz (snd v))) by (f_equal; ring).
    rewrite E. f_equal; ring.
  Qed.

  (** Complex gradients. *)
  Definition dir3 (g : gradient) : gradient := of_parts (dir (re3 g)) (dir (im3 g)).
  Lemma dir3_add a b : dir3 (g_add a b) = g_add (dir3 a) (dir3 b).
  Proof. unfold dir3. rewrite re3_add, im3_add, !(iso_add _ _ _ H). reflexivity. Qed.
  Lemma dir3_scale k a : dir3 (g_scale k a) = g_scale k (dir3 a).
  Proof.
    apply g_ext; unfold dir3; rewrite ?re3_scale, ?im3_scale, ?re3_of, ?im3_of, ?re3_scale, ?im3_scale; apply (iso_scale _ _ _ H).
  Qed.
  Lemma dir3_zero : dir3 g_zero = g_zero.
  Proof. unfold dir3, re3, im3, g_zero. cbn. change (V 0 0 0) with v0. rewrite (dir_v0 _ _ _ H). reflexivity. Qed.
  Lemma dir3_of v : dir3 (g_of v) = g_of (dir v).
  Proof.
    apply g_ext; unfold dir3; rewrite ?re3_of, ?im3_of; unfold re3, im3, g_of; cbn; [now destruct v, (dir _)|].
    change (V 0 0 0) with v0. apply (dir_v0 _ _ _ H).
  Qed.
  Definition moved3 (v : C * gradient) : C * gradient := (fst v, dir3 (snd v)).

  Lemma wave_infinite_moved elementary s k x y : wave_infinite elementary s k (pt x) (pt y) = moved3 (wave_infinite elementary s k x y).
  Proof.
    pose proof (wave_form elementary s k x y) as E. pose proof (wave_form elementary s k (pt x) (pt y)) as E'. cbv zeta in E, E'.
    rewrite E, E', horizontal_moved, !Up, (iso_sub _ _ _ H). generalize (wave_values_of elementary s k (k * horizontal_distance x y) (k * (vz x + vz y))).
    intros w. unfold moved3, dir3, gradient_form. cbn [fst snd]. rewrite re3_of, im3_of, !dir_lift2. reflexivity.
  Qed.

  Section Elementary.
  Variable elementary : R -> R -> integrals.
  Notation wave_infinite := (wave_infinite elementary). Notation integrate := (integrate elementary). Notation integral_infinite := (integral_infinite elementary).
  Lemma integrate_from_perm s k x l l' : Permutation l l' -> forall acc,
    fold_left (fun acc pw => let v := wave_infinite s k x (fst pw) in
      (Cplus (fst acc) (Cmult (fst v) (RtoC (snd pw))), g_add (snd acc) (g_scale (snd pw) (snd v)))) l acc
    = fold_left (fun acc pw => let v := wave_infinite s k x (fst pw) in
      (Cplus (fst acc) (Cmult (fst v) (RtoC (snd pw))), g_add (snd acc) (g_scale (snd pw) (snd v)))) l' acc.
  Proof.
    induction 1 as [|p l l' P IH|p q l|l1 l2 l3 P1 IH1 P2 IH2]; intros acc.
    - reflexivity.
    - apply IH.
    - cbn [fold_left fst snd]. f_equal. f_equal; [ring|apply g_add_comm3].
    - now rewrite IH1, IH2.
  Qed.
  Lemma integrate_perm s k x l l' : Permutation l l' -> integrate s k x l = integrate s k x l'.
  Proof. intros P. apply integrate_from_perm, P. Qed.
  Definition moved_points (l : list (vec * R)) : list (vec * R) := map (fun pw => (pt (fst pw), snd pw)) l.
  Lemma integrate_moved s k x l : integrate s k (pt x) (moved_points l) = moved3 (integrate s k x l).
  Proof.
    unfold Model_Wave.integrate, moved_points.
    replace (RtoC 0, g_zero) with (moved3 (RtoC 0, g_zero)) at 1 by (unfold moved3; cbn [fst snd]; now rewrite dir3_zero).
    generalize (RtoC 0, g_zero). induction l as [|p l IH]; intros acc; [reflexivity|]. cbn [map fold_left fst snd]. rewrite <- IH. f_equal.
    rewrite wave_infinite_moved. unfold moved3. cbn [fst snd]. now rewrite dir3_add, dir3_scale.
  Qed.
  Lemma dir3_flip g : (Copp (fst (fst (dir3 g))), Copp (snd (fst (dir3 g))), snd (dir3 g)) = dir3 (Copp (fst (fst g)), Copp (snd (fst g)), snd g).
  Proof.
    apply g_ext; unfold dir3; rewrite ?re3_of, ?im3_of.
    - transitivity (V (-1 * vx (dir (re3 g))) (-1 * vy (dir (re3 g))) (vz (re3 g))); [unfold re3 at 1, of_parts; cbn; rewrite vz_dir; f_equal; ring|].
      rewrite <- dir_lift2. f_equal. unfold re3. cbn. f_equal; ring.
    - transitivity (V (-1 * vx (dir (im3 g))) (-1 * vy (dir (im3 g))) (vz (im3 g))); [unfold im3 at 1, of_parts; cbn; rewrite vz_dir; f_equal; ring|].
      rewrite <- dir_lift2. f_equal. unfold im3. cbn. f_equal; ring.
  Qed.
  Lemma dir3_symmetric g : symmetric_of_vector (dir3 g) = dir3 (symmetric_of_vector g).
  Proof.
    unfold symmetric_of_vector. apply g_ext; unfold dir3; rewrite ?re3_of, ?im3_of.
    - transitivity (V (vx (dir (re3 g))) (vy (dir (re3 g))) (- vz (re3 g))); [unfold re3 at 1, of_parts; cbn; now rewrite vz_dir|].
      rewrite <- dir_lift. reflexivity.
    - transitivity (V (vx (dir (im3 g))) (vy (dir (im3 g))) (- vz (im3 g))); [unfold im3 at 1, of_parts; cbn; now rewrite vz_dir|].
      rewrite <- dir_lift. reflexivity.
  Qed.
  Lemma dir3_vertical z : dir3 (RtoC 0, RtoC 0, z) = (RtoC 0, RtoC 0, z).
  Proof.
    assert (E : forall t, dir (V 0 0 t) = V 0 0 t).
    { intros t. replace (V 0 0 t) with (vscale t (V 0 0 1)) by (unfold vscale; cbn; f_equal; ring). now rewrite (iso_scale _ _ _ H), dir_ez. }
    unfold dir3, re3, im3. cbn [fst snd RtoC]. rewrite !E. unfold of_parts. cbn. now destruct z.
  Qed.
  Lemma integral_infinite_moved s k b x c area l l' : Permutation l' (moved_points l) ->
    integral_infinite s k b (pt x) (pt c) area l' = moved3 (integral_infinite s k b x c area l).
  Proof.
    intros P. unfold Model_Wave.integral_infinite. cbv zeta. rewrite horizontal_moved, !Up, (integrate_perm s k (pt x) _ _ P), integrate_moved.
    set (v := if Rltb _ _ && _ then free_surface_singularity area k else integrate s k x l).
    assert (E : (if Rltb (Rabs (k * horizontal_distance x c)) (/ 10000000000) && Rltb (Rabs (k * (vz x + vz c))) (/ 10000000000) then
      free_surface_singularity area k else moved3 (integrate s k x l)) = moved3 v).
    { unfold v. destruct (_ && _); [|reflexivity]. unfold moved3. cbn [fst snd free_surface_singularity]. now rewrite dir3_vertical. }
    rewrite E. clearbody v. destruct b; [reflexivity|]. unfold moved3. cbn [fst snd]. now rewrite dir3_flip.
  Qed.
  Lemma add_scaled_moved k v acc : add_scaled k (moved3 v) (moved3 acc) = moved3 (add_scaled k v acc).
  Proof. unfold add_scaled, moved3. cbn [fst snd]. now rewrite dir3_add, dir3_scale. Qed.
  Lemma symmetric_if_moved b v : symmetric_if b (moved3 v) = moved3 (symmetric_if b v).
  Proof. destruct b; [|reflexivity]. unfold symmetric_if, moved3. cbn [fst snd]. now rewrite dir3_symmetric. Qed.
  Lemma complex_of_moved v : complex_of (moved_value v) = moved3 (complex_of v).
  Proof. unfold complex_of, moved3, Proofs_Rankine.moved_value. cbn [fst snd]. now rewrite dir3_of. Qed.
  Lemma image_of_points_moved h l l' : Permutation l' (moved_points l) -> Permutation (image_of_points h l') (moved_points (image_of_points h l)).
  Proof.
    intros P. apply (Permutation_map (fun pw : vec * R => (sea_bottom_image h (fst pw), snd pw))) in P. refine (perm_trans P _).
    unfold moved_points, image_of_points. rewrite !map_map. cbn [fst snd]. erewrite map_ext; [apply Permutation_refl|]. intros [p w]. cbn [fst snd]. now rewrite sea_bottom_moved.
  Qed.

  (** The image of a panel. *)
  Definition moved_source (q q' : source_panel) : Prop :=
    sp_corners q' = image_quad pt keeps (sp_corners q) /\ moved pt dir (sp_props q) (sp_props q') /\ Permutation (sp_quad q') (moved_points (sp_quad q)).
  Variables q q' : source_panel.
  Hypothesis Hq : moved_source q q'.
  Lemma one_point_reflected_moved b c M : one_point_reflected b c (pt M) (sp_props q') = moved_value (one_point_reflected b c M (sp_props q)).
  Proof.
    destruct Hq as (_ & Hf & _). unfold one_point_reflected. rewrite image_point_moved, (one_point_moved pt dir keeps H _ _ Hf). apply reflected_gradient_moved.
  Qed.
  Lemma exact_reflected_moved b c M :
    exact_reflected b c (pt M) (sp_corners q') (sp_props q') = moved_value (exact_reflected b c M (sp_corners q) (sp_props q)).
  Proof.
    destruct Hq as (-> & Hf & _). unfold exact_reflected. rewrite image_point_moved, (exact_moved pt dir keeps H _ _ Hf). apply reflected_gradient_moved.
  Qed.
  Lemma reflected_rankine_moved b c M :
    reflected_rankine b c (pt M) (sp_corners q') (sp_props q') = moved_value (reflected_rankine b c M (sp_corners q) (sp_props q)).
  Proof.
    unfold reflected_rankine. rewrite one_point_reflected_moved, exact_reflected_moved. destruct Hq as (_ & (_ & _ & E3 & E4) & _).
    rewrite image_point_moved, E3, E4, (iso_sub _ _ _ H), (dir_norm _ _ _ H). now destruct (Rltb _ _).
  Qed.
  Lemma prony_term_moved h b x acc la : prony_term h b (pt x) q' (moved3 acc) la = moved3 (prony_term h b x q acc la).
  Proof.
    destruct la as [l a]. unfold prony_term. rewrite !reflected_rankine_moved, !complex_of_moved, !add_scaled_moved. reflexivity.
  Qed.
  Lemma integral_finite_moved d k h b x : integral_finite elementary d k h b (pt x) q' = moved3 (integral_finite elementary d k h b x q).
  Proof.
    unfold integral_finite. cbv zeta. destruct Hq as (_ & (E1 & _ & E3 & _) & P). pose proof (image_of_points_moved h _ _ P) as P'.
    rewrite E1, E3, !sea_bottom_moved.
    rewrite !(integral_infinite_moved _ _ _ _ _ _ _ _ P), !(integral_infinite_moved _ _ _ _ _ _ _ _ P'), !symmetric_if_moved.
    replace (RtoC 0, g_zero) with (moved3 (RtoC 0, g_zero)) at 1 by (unfold moved3; cbn [fst snd]; now rewrite dir3_zero).
    rewrite !add_scaled_moved. match goal with |- fold_left _ _ (moved3 ?x) = _ => generalize x end.
    induction d as [|la d IH]; intros acc; [reflexivity|]. cbn [fold_left]. rewrite prony_term_moved. apply IH.
  Qed.
  Lemma wave_part_moved decomposition s d k h b x : wave_part elementary decomposition s d k h b (pt x) q' = moved3 (wave_part elementary decomposition s d k h b x q).
  Proof.
    destruct Hq as (_ & (E1 & _ & E3 & _) & P). unfold wave_part.
    assert (Z : (RtoC 0, g_zero) = moved3 (RtoC 0, g_zero)) by (unfold moved3; cbn [fst snd]; now rewrite dir3_zero).
    destruct k as [k| | |]; [|exact Z..]. rewrite E1, E3. destruct h as [h| | |]; [apply integral_finite_moved|..]; apply (integral_infinite_moved _ _ _ _ _ _ _ _ P).
  Qed.
  End Elementary.
End Motion.
