(** C90: the Green functions of HAMS. *)
From Coq Require Import Reals List Bool Arith Lia Lra.
From Coquelicot Require Import Coquelicot.
From Verif Require Import Model_Base Model_Mesh Model_Problem Model_Assembly Model_Hams Spec_Hams Proofs_Problem Proofs_Hams.
Import ListNotations.
Open Scope R_scope.

(** The list of [nk] roots holds the wavenumber, then the evanescent waves in increasing order: each is in its own interval, and none of those
    before the end of the list is missing. Partial: the depth is neither too small nor too large with respect to the wavelength. *)
Theorem dispersion_roots_partial : forall brentq nk k h, exact_search brentq -> 0 < k -> 0 < h -> INR nk * (/ 1000000000) <= k * h * tanh (k * h) <= 1000000000 ->
  exists rs, dispersion_relation_roots brentq nk k h = Ok (k :: rs) /\ length rs = (nk - 1)%nat
    /\ (forall i r, nth_error rs i = Some r -> evanescent k h r /\ PI / 2 + INR i * PI < r * h < PI + INR i * PI)
    /\ (forall r, evanescent k h r -> r * h < INR (nk - 1) * PI -> In r rs).
Proof. intros brentq nk k h S. exact (roots_found brentq S nk k h). Qed.
Print Assumptions dispersion_roots_partial.

(** For long waves in shallow water the search is refused. *)
Theorem dispersion_roots_refused : forall brentq nk k h, exact_search brentq -> 0 < k -> 0 < h -> (2 <= nk)%nat ->
  k * h * tanh (k * h) < INR (nk - 1) * (/ 5000000000) -> k * h * tanh (k * h) <= 1000000000 ->
  dispersion_relation_roots brentq nk k h = Err ValueError.
Proof. intros brentq nk k h S. exact (roots_missed brentq S nk k h). Qed.
Print Assumptions dispersion_roots_refused.
(** So the Green function cannot be evaluated for a wavenumber and a depth that are positive and finite. *)
Theorem hams_long_waves_refuted : forall brentq, exact_search brentq ->
  exists k h, 0 < k /\ 0 < h /\ evaluate_hams brentq (Fin 0) (Fin h) (Fin k) = Err ValueError.
Proof.
  intros brentq S. exists (/ 1000000000), 1. split; [lra|]. split; [lra|].
  assert (T := tanh_lt_1 (/ 1000000000 * 1)).
  unfold evaluate_hams, evaluate_fingreen. cbn [ext_eqb ext_ltb orb andb]. unfold Reqb. destruct (Req_EM_T 0 0); [|lra]. destruct (Req_EM_T (/ 1000000000) 0); [lra|]. cbn [orb andb].
  rewrite (dispersion_roots_refused brentq 200 _ 1 S); [reflexivity|lra|lra|lia| |].
  - replace (INR (200 - 1)) with 199 by (rewrite INR_IZR_INZ; reflexivity). nra.
  - nra.
Qed.
Print Assumptions hams_long_waves_refuted.

(** In infinite depth and without free surface, the coefficients of the images and of the wave part are those of the default Green function. *)
Theorem hams_deep_water : forall brentq s (no_free_surface : bool) k, gf_singularities s = LowFreq ->
  evaluate_hams brentq (if no_free_surface then PInf else Fin 0) PInf k
  = bind (choose_coeffs s no_free_surface PInf k) (fun c => Ok (CoreCall (fst c) k PInf None)).
Proof.
  intros brentq s b k E. unfold evaluate_hams, evaluate_liang, choose_coeffs. rewrite E. destruct b; cbn [ext_eqb ext_ltb andb bind fst]; [reflexivity|].
  unfold Reqb. destruct (Req_EM_T 0 0); [|lra]. cbn [andb]. destruct (ext_eqb k (Fin 0)); [reflexivity|]. destruct (ext_eqb k PInf); reflexivity.
Qed.
Print Assumptions hams_deep_water.
(** In finite depth, the case without free surface and the limit frequencies are refused, and the others have the coefficients of the default Green
    function, with 200 roots. *)
Theorem hams_finite_depth : forall brentq h, 0 < h ->
  (forall k, evaluate_hams brentq PInf (Fin h) k = Err NotImplementedError)
  /\ (forall s k, choose_coeffs s false (Fin h) k = Err NotImplementedError -> evaluate_hams brentq (Fin 0) (Fin h) k = Err NotImplementedError)
  /\ (forall s k, exact_search brentq -> 0 < k -> 200 * (/ 1000000000) <= k * h * tanh (k * h) <= 1000000000 -> exists cs l, choose_coeffs s false (Fin h) (Fin k) = Ok (cs, true)
      /\ evaluate_hams brentq (Fin 0) (Fin h) (Fin k) = Ok (CoreCall cs (Fin k) (Fin h) (Some l))
      /\ dispersion_relation_roots brentq 200 k h = Ok l /\ length l = announced_roots).
Proof.
  intros brentq h Hh. split; [|split].
  - intros k. reflexivity.
  - intros s k. unfold choose_coeffs, evaluate_hams, evaluate_fingreen. cbn [ext_eqb ext_ltb orb]. replace (Reqb 0 0) with true by (unfold Reqb; destruct (Req_EM_T 0 0); [reflexivity|lra]). cbn [andb].
    destruct (ext_eqb k (Fin 0) || ext_eqb k PInf); [reflexivity|discriminate].
  - intros s k S K B. destruct (dispersion_roots_partial brentq 200 k h S K Hh) as (rs & E & L & _).
    { replace (INR 200) with 200 by (rewrite INR_IZR_INZ; reflexivity). exact B. }
    exists (1, 1, 1), (k :: rs). unfold choose_coeffs, evaluate_hams, evaluate_fingreen. cbn [ext_eqb ext_ltb orb andb]. unfold Reqb. destruct (Req_EM_T 0 0); [|lra]. destruct (Req_EM_T k 0); [lra|]. cbn [orb andb].
    split; [reflexivity|]. rewrite E. split; [reflexivity|]. split; [reflexivity|]. cbn [length]. rewrite L. reflexivity.
Qed.
Print Assumptions hams_finite_depth.

(** With another number of roots, the size given to the Fortran routine is not the size of the array. *)
Theorem fingreen_size_refuted : forall brentq nk free_surface h k c l, nk <> announced_roots ->
  evaluate_fingreen brentq nk free_surface h k = Ok c -> k_roots c = Some l -> length l <> announced_roots.
Proof.
  intros brentq nk fs h k c l N E EL. unfold evaluate_fingreen in E. destruct (_ || _); [discriminate|]. cbv zeta in E. destruct (_ && (_ || _)); [discriminate|].
  destruct k as [k| | |]; try discriminate. destruct h as [h| | |]; try discriminate. destruct (dispersion_relation_roots brentq nk k h) as [l'|] eqn:ER; [|discriminate]. cbn [bind] in E.
  destruct (_ && _); [|discriminate]. injection E as <-. cbn in EL. injection EL as ->. rewrite (roots_size brentq nk k h l ER). unfold announced_roots in *. lia.
Qed.
Print Assumptions fingreen_size_refuted.

(** ** Examples *)
(** There is such a search: the upper bound of the points where the function has the sign of its first value. *)
Lemma search_exists : exists brentq, exact_search brentq.
Proof.
  assert (BD : forall f a b, a <= b -> bound (fun x => a <= x <= b /\ 0 <= f a * f x)) by (intros f a b _; exists b; intros x [[_ H] _]; exact H).
  assert (NE : forall f a b, a <= b -> exists x, a <= x <= b /\ 0 <= f a * f x) by (intros f a b H; exists a; split; [lra|apply Rle_0_sqr]).
  exists (fun f a b => if Rlt_dec 0 (f a * f b) then Err ValueError else if Req_EM_T (f a) 0 then Ok a else
    match Rle_dec a b with left H => Ok (proj1_sig (completeness _ (BD f a b H) (NE f a b H))) | right _ => Err ValueError end).
  intros f a b L C. split; [intros H; destruct (Rlt_dec 0 (f a * f b)); [reflexivity|contradiction]|]. intros H. destruct (Rlt_dec 0 (f a * f b)); [lra|].
  destruct (Req_EM_T (f a) 0) as [Z|Z]; [exists a; split; [reflexivity|]; split; [lra|exact Z]|]. destruct (Rle_dec a b) as [D|D]; [|lra].
  destruct (completeness _ (BD f a b D) (NE f a b D)) as [s [U M]]. cbn [proj1_sig]. exists s. split; [reflexivity|].
  assert (I : a <= s <= b) by (split; [apply U; split; [lra|apply Rle_0_sqr]|apply M; intros x [[_ Hx] _]; exact Hx]). split; [exact I|].
  assert (A0 : 0 < Rabs (f a)) by now apply Rabs_pos_lt.
  destruct (Req_dec (f s) 0) as [Q|Q]; [exact Q|]. exfalso. assert (P : 0 < Rabs (f s)) by now apply Rabs_pos_lt.
  destruct (proj1 (filterlim_locally f (f s)) (C s I) (mkposreal _ P)) as [d Hd].
  assert (SGN : forall y, Rabs (y - s) < d -> 0 < f s * f y).
  { intros y Hy. assert (X := Hd y Hy). unfold ball in X. cbn in X. unfold AbsRing_ball, abs, minus, plus, opp in X. cbn in X.
    destruct (Rcase_abs (f s)) as [N|N]; [rewrite (Rabs_left (f s)) in X by lra|rewrite (Rabs_right (f s)) in X by lra]; apply Rabs_def2 in X; nra. }
  assert (d0 := cond_pos d).
  destruct (Rlt_or_le 0 (f a * f s)) as [G|G].
  - assert (SB : s < b). { destruct (Req_dec s b) as [E|E]; [|lra]. exfalso. rewrite E in G. contradiction. }
    set (y := s + Rmin (d / 2) (b - s)). assert (Y : s < y <= b /\ y <= s + d / 2) by (unfold y; assert (M1 := Rmin_l (d / 2) (b - s)); assert (M2 := Rmin_r (d / 2) (b - s)); assert (0 < Rmin (d / 2) (b - s)) by (apply Rmin_pos; lra); lra).
    assert (K := SGN y ltac:(rewrite Rabs_right by lra; lra)). assert (y <= s); [|lra]. apply U. split; [lra|].
    assert (0 < (f a * f s) * (f s * f y)) by (apply Rmult_lt_0_compat; assumption). assert (0 < f s * f s) by nra. nra.
  - assert (G' : f a * f s < 0). { destruct G as [G|G]; [exact G|]. apply Rmult_integral in G. destruct G; contradiction. }
    assert (B : s <= s - d / 2); [|lra]. apply M. intros x [Ix Sx]. destruct (Rle_or_lt x (s - d / 2)) as [Le|Lt]; [exact Le|exfalso].
    assert (Us : x <= s) by (apply U; split; assumption). assert (K := SGN x ltac:(rewrite Rabs_left1 by lra; lra)).
    assert (0 < (- (f a * f s)) * (f s * f x)) by (apply Rmult_lt_0_compat; lra). assert (0 < f s * f s) by nra. nra.
Qed.
Lemma tanh_1 : 2 / 5 < tanh 1 < 1.
Proof.
  assert (E2 : 2 < exp 1) by (assert (H := exp_ineq1 1 ltac:(lra)); lra). assert (E3 := exp_le_3). assert (I : exp (- (1)) = / exp 1) by apply exp_Ropp.
  assert (I2 : / exp 1 < / 2) by (apply Rinv_lt_contravar; lra). assert (I0 : 0 < / exp 1) by (apply Rinv_0_lt_compat; lra). split; [|apply tanh_lt_1]. unfold tanh, sinh, cosh. rewrite I.
  apply Rmult_lt_reg_r with ((exp 1 + / exp 1) / 2); [lra|].
  set (q := / exp 1) in *. replace ((exp 1 - q) / 2 / ((exp 1 + q) / 2) * ((exp 1 + q) / 2)) with ((exp 1 - q) / 2) by (field; lra). lra.
Qed.
(** Three roots for a wavenumber and a depth of 1: two evanescent waves. *)
Example dispersion_roots_ex : exists brentq r1 r2, exact_search brentq /\ dispersion_relation_roots brentq 3 1 1 = Ok [1; r1; r2] /\ PI / 2 < r1 < PI /\ 3 * PI / 2 < r2 < 2 * PI.
Proof.
  destruct search_exists as (brentq & S). assert (T := tanh_1).
  destruct (dispersion_roots_partial brentq 3 1 1 S) as (rs & E & L & F & _); [lra|lra| |].
  { replace (1 * 1) with 1 by ring. replace (INR 3) with 3 by (cbn; ring). lra. }
  destruct rs as [|r1 [|r2 [|]]]; try discriminate. exists brentq, r1, r2. split; [exact S|]. split; [exact E|].
  destruct (F 0%nat r1 eq_refl) as [_ F1]. destruct (F 1%nat r2 eq_refl) as [_ F2]. cbn [INR] in F1, F2. lra.
Qed.
Example dispersion_roots_refused_ex : exists brentq, exact_search brentq /\ dispersion_relation_roots brentq 20 (/ 1000000000) 1 = Err ValueError.
Proof.
  destruct search_exists as (brentq & S). exists brentq. split; [exact S|].
  assert (T := tanh_lt_1 (/ 1000000000 * 1)). assert (T0 : 0 < tanh (/ 1000000000 * 1)) by (apply tanh_pos; lra).
  apply dispersion_roots_refused; [exact S|lra|lra|lia| |].
  - replace (INR (20 - 1)) with 19 by (rewrite INR_IZR_INZ; reflexivity). nra.
  - nra.
Qed.
Example hams_deep_water_ex : forall brentq, evaluate_hams brentq (Fin 0) PInf (Fin 2) = Ok (CoreCall (1, 1, 1) (Fin 2) PInf None).
Proof.
  intros brentq. unfold evaluate_hams, evaluate_liang. cbn [ext_eqb ext_ltb]. unfold Reqb. destruct (Req_EM_T 0 0); [|lra]. destruct (Req_EM_T 2 0); [lra|]. reflexivity.
Qed.
Example hams_finite_depth_ex : exists brentq l, exact_search brentq /\ evaluate_hams brentq (Fin 0) (Fin 1) (Fin 1) = Ok (CoreCall (1, 1, 1) (Fin 1) (Fin 1) (Some l)) /\ length l = announced_roots.
Proof.
  destruct search_exists as (brentq & S). assert (T := tanh_1). exists brentq.
  destruct (proj2 (proj2 (hams_finite_depth brentq 1 ltac:(lra))) (Settings LowFreq LegacyDepth true) 1 S ltac:(lra)) as (cs & l & C & E & _ & L); [replace (1 * 1) with 1 by ring; lra|].
  exists l. split; [exact S|]. split; [|exact L]. rewrite E. revert C. unfold choose_coeffs. cbn [ext_eqb orb]. destruct (_ || _); [discriminate|]. intros [= <-]. reflexivity.
Qed.
Example fingreen_size_ex : exists brentq c l, evaluate_fingreen brentq 3 (Fin 0) (Fin 1) (Fin 1) = Ok c /\ k_roots c = Some l /\ length l = 3%nat.
Proof.
  destruct dispersion_roots_ex as (brentq & r1 & r2 & _ & E & _). exists brentq. eexists. eexists. unfold evaluate_fingreen. cbn [ext_eqb ext_ltb orb]. unfold Reqb.
  destruct (Req_EM_T 0 0); [|lra]. destruct (Req_EM_T 1 0); [lra|]. cbn [andb orb]. rewrite E. cbn [bind]. split; [reflexivity|]. split; reflexivity.
Qed.
