(** The value of an entry, continued. *)
From Coq Require Import Reals.
From Coquelicot Require Import Complex.
From Coq Require Import List Bool Arith Lia Lra.
From Verif Require Import Model_Base Model_Mesh Model_Assembly Spec_Assembly Proofs_Geometry Proofs_Problem Proofs_Integrals Proofs_Assembly.
Import ListNotations.
Open Scope nat_scope.

Definition is_compute (s : statement) : Prop := match s with Compute _ => True | _ => False end.
Lemma ofC_add x y : n3_add (n3_ofC x) (n3_ofC y) = n3_ofC (plus3 x y).
Proof. destruct x as [[x1 x2] x3], y as [[y1 y2] y3]. reflexivity. Qed.
Lemma ofC_scale k x : n3_scale k (n3_ofC x) = n3_ofC (times3 k x).
Proof. destruct x as [[x1 x2] x3]. reflexivity. Qed.
Lemma ofC_real v : n3_of v = n3_ofC (real3 v).
Proof. reflexivity. Qed.
Lemma ofC_zero : n3_zero = n3_ofC zero3.
Proof. reflexivity. Qed.
Lemma c3_eq (a b : C3) : fst (fst a) = fst (fst b) -> snd (fst a) = snd (fst b) -> snd a = snd b -> a = b.
Proof. destruct a as [[? ?] ?], b as [[? ?] ?]. cbn. congruence. Qed.

Lemma vsum_cons' v l : vsum (v :: l) = vadd v (vsum l).
Proof. reflexivity. Qed.

Lemma n3_some (x y z x' y' z' : C) : x = x' -> y = y' -> z = z' -> (Some x, Some y, Some z) = (Some x', Some y', Some z') :> num3.
Proof. congruence. Qed.

Section Entry.
  Variable rankine : bool -> vec -> source_panel -> R * vec.
  Variable reflected : bool -> (R * R) -> vec -> source_panel -> R * vec.
  Variable one_point : bool -> (R * R) -> vec -> source_panel -> R * vec.
  Variable wave_part : singularities -> depth_method -> ext -> ext -> bool -> vec -> source_panel -> C * (C * C * C).
  Variable a : inputs.
  Notation coef := (coef a).
  Notation iteration := (iteration rankine reflected one_point wave_part a).

  Definition computations (i j : nat) : list statement :=
    [Compute (set_G (RtoC 0)); Compute (set_nablaG n3_zero)] ++ diagonal_statements a i j ++ rankine_statements rankine a i j
    ++ reflected_statements reflected one_point a i j ++ wave_statements wave_part a i j.
  Definition K_value (i j : nat) (r : registers) : list num :=
    if early_dot a then [n3_dot (dot_normals a (if adjoint a then i else j)) (int_nablaG r)] else let '(x, y, z) := int_nablaG r in [x; y; z].
  Lemma iteration_split i j : iteration i j = computations i j ++ [WriteS i j int_G; WriteK i j (K_value i j)].
  Proof. unfold Model_Assembly.iteration, computations. rewrite <- !app_assoc. reflexivity. Qed.
  Lemma computations_compute i j : Forall is_compute (computations i j).
  Proof.
    unfold computations. repeat (apply Forall_app; split).
    - repeat constructor.
    - unfold diagonal_statements. destruct (_ && _); repeat constructor.
    - unfold rankine_statements. destruct (nonzero _); repeat constructor.
    - unfold reflected_statements. destruct (_ || _); [|constructor]. destruct (low_freq_rankine a), (negb _); cbn [app add_rankine]; repeat constructor.
    - unfold wave_statements. destruct (nonzero _); repeat constructor.
  Qed.
  Lemma nonzero_false x : nonzero x = false -> x = 0%R.
  Proof. unfold nonzero. intros H. apply negb_false_iff in H. now apply Reqb_true in H. Qed.
  Lemma coef0 : coef 0 = (c_source a * scale4pi)%R.
  Proof. unfold Model_Assembly.coef, c_source, scale4pi. destruct (coeffs3 a) as [[x y] z]. reflexivity. Qed.
  Lemma coef1 : coef 1 = (c_images a * scale4pi)%R.
  Proof. unfold Model_Assembly.coef, c_images, scale4pi. destruct (coeffs3 a) as [[x y] z]. reflexivity. Qed.
  Lemma coef2 : coef 2 = (c_wave a * scale4pi)%R.
  Proof. unfold Model_Assembly.coef, c_wave, scale4pi. destruct (coeffs3 a) as [[x y] z]. reflexivity. Qed.
  Lemma scale_nonzero : scale4pi <> 0%R.
  Proof. unfold scale4pi, fortran_pi. apply Rinv_neq_0_compat. lra. Qed.

  Lemma sumN_values (l : list (R * vec)) : sumN (map (fun y => n3_scale (coef 1) (n3_of (snd y))) l) = n3_ofC (times3 (coef 1) (real3 (vsum (map snd l)))).
  Proof.
    induction l as [|y l IH]; cbn [map sumN fold_right].
    - rewrite ofC_zero. f_equal. apply c3_eq; cbn; ring.
    - fold (sumN (map (fun y => n3_scale (coef 1) (n3_of (snd y))) l)). rewrite IH, ofC_real, ofC_scale, ofC_add. f_equal. rewrite vsum_cons'.
      apply c3_eq; cbn [times3 plus3 real3 fst snd vadd vx vy vz]; rewrite RtoC_plus; ring.
  Qed.
  Lemma images_head p q : exists l, images reflected one_point a p q = first_image reflected one_point a p q :: l.
  Proof. unfold images. destruct (depth a); eexists; reflexivity. Qed.

  (** The integral of the Green function. *)
  Lemma image_G i j : exists n, adds (reflected_statements reflected one_point a i j) (RtoC (coef 1 * Rsum (map fst (images reflected one_point a (points_1 a i) (panels_2 a j))))) n.
  Proof.
    destruct (nonzero (coef 1)) eqn:N1; [eexists; apply image_stage; now left|].
    destruct (low_freq_rankine a && nonzero (coef 2)) eqn:N2; [eexists; apply image_stage; now right|].
    exists n3_zero. unfold reflected_statements. rewrite N1, N2. cbn [orb]. rewrite (nonzero_false _ N1), Rmult_0_l. exact adds_nil.
  Qed.
  Lemma S_computed i j r : int_G (exec (computations i j) r) = S_entry rankine reflected one_point wave_part a i j.
  Proof.
    unfold computations. rewrite exec_app. destruct (image_G i j) as (n & HI).
    pose proof (adds_app _ _ _ _ _ _ (diagonal_stage a i j) (adds_app _ _ _ _ _ _ (source_stage rankine a i j) (adds_app _ _ _ _ _ _ HI (wave_stage wave_part a i j)))) as H.
    destruct (H (exec [Compute (set_G (RtoC 0)); Compute (set_nablaG n3_zero)] r)) as (E & _). rewrite E. clear.
    cbn [exec set_G set_nablaG int_G]. unfold S_entry. rewrite coef0, coef1, coef2. rewrite !RtoC_plus, !RtoC_mult. ring.
  Qed.

  (** The integral of its gradient. *)
  Lemma image_N i j : usable_wavenumber a -> adds (reflected_statements reflected one_point a i j) (RtoC (coef 1 * Rsum (map fst (images reflected one_point a (points_1 a i) (panels_2 a j)))))
    (n3_ofC (plus3 (times3 (coef 1) (real3 (vsum (map snd (images reflected one_point a (points_1 a i) (panels_2 a j)))))) (times3 (coef 2) (extra_entry reflected one_point a (points_1 a i) (panels_2 a j))))).
  Proof.
    intros U. set (p := points_1 a i) in *. set (q := panels_2 a j) in *. set (x := first_image reflected one_point a p q).
    assert (T : third a x = n3_ofC (times3 (coef 2) (extra_entry reflected one_point a p q))).
    { unfold third, extra_entry. fold x. destruct (singular a) eqn:Sg; try (rewrite ofC_zero; f_equal; apply c3_eq; cbn; ring).
      destruct U as [U|(k & U)]; [congruence|]. rewrite U. cbn [times3 n3_ofC fst snd]. rewrite !RtoC_mult. apply n3_some; ring. }
    destruct (images_head p q) as (l & Hl). fold x in Hl.
    assert (Case : nonzero (coef 1) = true \/ low_freq_rankine a && nonzero (coef 2) = true \/ (nonzero (coef 1) = false /\ low_freq_rankine a && nonzero (coef 2) = false))
      by (destruct (nonzero (coef 1)), (low_freq_rankine a && nonzero (coef 2)); auto).
    assert (Go : nonzero (coef 1) = true \/ low_freq_rankine a && nonzero (coef 2) = true -> adds (reflected_statements reflected one_point a i j) (RtoC (coef 1 * Rsum (map fst (images reflected one_point a p q))))
      (n3_ofC (plus3 (times3 (coef 1) (real3 (vsum (map snd (images reflected one_point a p q))))) (times3 (coef 2) (extra_entry reflected one_point a p q))))).
    { intros H. replace (n3_ofC _) with (n3_add (n3_add (n3_scale (coef 1) (n3_of (snd x))) (third a x)) (sumN (map (fun y => n3_scale (coef 1) (n3_of (snd y))) (tl (images reflected one_point a p q))))).
      - exact (image_stage reflected one_point a i j H).
      - rewrite sumN_values, T, Hl. cbn [tl]. rewrite ofC_real, ofC_scale, !ofC_add. f_equal. cbn [map]. rewrite vsum_cons'.
        apply c3_eq; cbn [times3 plus3 real3 fst snd vadd vx vy vz]; rewrite RtoC_plus; ring. }
    destruct Case as [H|[H|(N1 & N2)]]; [apply Go; now left|apply Go; now right|].
    unfold reflected_statements. rewrite N1, N2. cbn [orb]. rewrite (nonzero_false _ N1), Rmult_0_l.
    replace (n3_ofC _) with n3_zero; [exact adds_nil|]. rewrite ofC_zero. f_equal.
    unfold extra_entry, low_freq_rankine in *. destruct (singular a) eqn:Sg; try (apply c3_eq; cbn; ring).
    destruct (wavenumber a) as [k| | |]; try (apply c3_eq; cbn; ring). cbn [andb] in N2. rewrite (nonzero_false _ N2). apply c3_eq; cbn; ring.
  Qed.
  Lemma N_computed i j r : usable_wavenumber a -> int_nablaG (exec (computations i j) r) = n3_ofC (gradient_entry rankine reflected one_point wave_part a i j).
  Proof.
    intros U. unfold computations. rewrite exec_app.
    pose proof (adds_app _ _ _ _ _ _ (diagonal_stage a i j) (adds_app _ _ _ _ _ _ (source_stage rankine a i j) (adds_app _ _ _ _ _ _ (image_N i j U) (wave_stage wave_part a i j)))) as H.
    destruct (H (exec [Compute (set_G (RtoC 0)); Compute (set_nablaG n3_zero)] r)) as (_ & E). rewrite E. clear.
    cbn [exec set_G set_nablaG int_nablaG]. rewrite n3_add_zero, ofC_real, !ofC_scale, !ofC_add. f_equal. unfold gradient_entry. rewrite coef0, coef1, coef2.
    destruct (waves wave_part a (points_1 a i) (panels_2 a j)) as [g [[w1 w2] w3]].
    apply c3_eq; cbn [times3 plus3 real3 fst snd vadd vscale vx vy vz]; rewrite ?RtoC_plus, ?RtoC_mult; ring.
  Qed.
  Lemma K_computed i j r : usable_wavenumber a -> K_value i j (exec (computations i j) r) = map Some (K_entry rankine reflected one_point wave_part a i j).
  Proof.
    intros U. unfold K_value, K_entry. rewrite (N_computed i j r U). destruct (gradient_entry rankine reflected one_point wave_part a i j) as [[x y] z].
    destruct (early_dot a); reflexivity.
  Qed.
  (** An infinite wavenumber. *)
  Lemma nan_computed i j r : singular a = LowFreqWithRankine -> wavenumber a = PInf -> c_images a <> 0%R -> exists x, In x (K_value i j (exec (computations i j) r)) /\ x = None.
  Proof.
    intros Sg Wk Ci. unfold computations. rewrite exec_app.
    assert (N1 : nonzero (coef 1) = true). { unfold nonzero. rewrite coef1, Reqb_false; [reflexivity|]. intros K. apply Rmult_integral in K. destruct K as [K|K]; [contradiction|now apply scale_nonzero]. }
    pose proof (adds_app _ _ _ _ _ _ (diagonal_stage a i j) (adds_app _ _ _ _ _ _ (source_stage rankine a i j) (adds_app _ _ _ _ _ _ (image_stage reflected one_point a i j (or_introl N1)) (wave_stage wave_part a i j)))) as H.
    destruct (H (exec [Compute (set_G (RtoC 0)); Compute (set_nablaG n3_zero)] r)) as (_ & E).
    set (r' := exec (diagonal_statements a i j ++ _) _) in *. exists None. split; [|reflexivity]. unfold K_value. rewrite E. clear E.
    assert (T : exists u v, third a (first_image reflected one_point a (points_1 a i) (panels_2 a j)) = (u, v, None)) by (unfold third; rewrite Sg, Wk; eauto).
    destruct T as (u & v & ->).
    assert (L : forall y (z : num3), snd y = None -> snd (n3_add y z) = None) by (intros [[? ?] y3] [[? ?] [z3|]]; cbn; intros ->; reflexivity).
    assert (L' : forall y (z : num3), snd z = None -> snd (n3_add y z) = None) by (intros [[? ?] [y3|]] [[? ?] z3]; cbn; intros ->; reflexivity).
    match goal with |- In None (if _ then [n3_dot _ ?t] else _) => assert (Z : snd t = None); [|destruct t as [[t1 t2] t3]; cbn in Z; subst t3] end.
    - apply L', L', L', L, L, L'. reflexivity.
    - destruct (early_dot a); [left; unfold n3_dot; cbn [nscale]; destruct (nadd (nscale _ t1) (nscale _ t2)); reflexivity|right; right; now left].
  Qed.
End Entry.
