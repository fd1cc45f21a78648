From Coq Require Import Reals List String Bool Lra Lia Arith.
From Coquelicot Require Import Coquelicot.
From Verif Require Import Model_Base Model_Problem Spec_Problem.
Import ListNotations.
Open Scope R_scope.

(** ** Hyperbolic tangent *)
Lemma cosh_pos x : 0 < cosh x.
Proof. unfold cosh. pose proof (exp_pos x). pose proof (exp_pos (- x)). lra. Qed.
Lemma tanh_pos x : 0 < x -> 0 < tanh x.
Proof.
  intros H. unfold tanh. apply Rdiv_lt_0_compat; [|apply cosh_pos].
  unfold sinh. pose proof (exp_increasing (- x) x ltac:(lra)). lra.
Qed.
Lemma tanh_incr x y : x < y -> tanh x < tanh y.
Proof.
  intros H. unfold tanh.
  apply (Rmult_lt_reg_r (cosh x * cosh y)); [apply Rmult_lt_0_compat; apply cosh_pos|].
  replace (sinh x / cosh x * (cosh x * cosh y)) with (sinh x * cosh y)
    by (field; pose proof (cosh_pos x); lra).
  replace (sinh y / cosh y * (cosh x * cosh y)) with (sinh y * cosh x)
    by (field; pose proof (cosh_pos y); lra).
  assert (E : sinh y * cosh x - sinh x * cosh y = sinh (y - x)).
  { unfold sinh, cosh. replace (- (y - x)) with (- y + x) by ring. replace (y - x) with (y + - x) by ring.
    rewrite !exp_plus. field. }
  assert (0 < sinh (y - x)).
  { unfold sinh. pose proof (exp_increasing (- (y - x)) (y - x) ltac:(lra)). lra. }
  lra.
Qed.
Lemma ktanh_incr d a b : 0 < d -> 0 < a -> a < b -> a * tanh (a * d) < b * tanh (b * d).
Proof.
  intros Hd Ha Hab.
  assert (0 < a * d) by (apply Rmult_lt_0_compat; lra).
  assert (a * d < b * d) by (apply Rmult_lt_compat_r; lra).
  pose proof (tanh_pos (a * d) ltac:(lra)). pose proof (tanh_incr (a * d) (b * d) ltac:(lra)).
  apply Rmult_gt_0_lt_compat; lra.
Qed.
Lemma ktanh_inj d a b : 0 < d -> 0 < a -> 0 < b ->
  a * tanh (a * d) = b * tanh (b * d) -> a = b.
Proof.
  intros Hd Ha Hb E. destruct (Rtotal_order a b) as [L|[E'|L]]; [|exact E'|].
  - pose proof (ktanh_incr d a b Hd Ha L). lra.
  - pose proof (ktanh_incr d b a Hd Hb L). lra.
Qed.

(** ** Uniqueness of the wave *)
Lemma pos_eq_of_mul a b c : 0 < a -> a * b = a * c -> b = c.
Proof. intros H E. apply (Rmult_eq_reg_l a); lra. Qed.
Lemma sq_inj a b : 0 < a -> 0 < b -> a * a = b * b -> a = b.
Proof. intros Ha Hb E. apply Rsqr_inj; unfold Rsqr; lra. Qed.

Lemma dispersion_k h g w k k' : 0 < g -> pos_depth h -> 0 < k -> 0 < k' ->
  dispersion h g w k -> dispersion h g w k' -> k = k'.
Proof.
  intros Hg [->|[d [-> Hd]]] Hk Hk' D D'; cbn in D, D'.
  - apply (pos_eq_of_mul g); lra.
  - apply (ktanh_inj d); auto. apply (pos_eq_of_mul g); lra.
Qed.
Lemma dispersion_w h g w w' k : 0 < w -> 0 < w' -> pos_depth h ->
  dispersion h g w k -> dispersion h g w' k -> w = w'.
Proof. intros Hw Hw' [->|[d [-> Hd]]] D D'; cbn in D, D'; apply sq_inj; lra. Qed.

Lemma same_wave_determined h g t w T k L w' T' k' L' : 0 < g -> pos_depth h ->
  same_wave h g w T k L -> same_wave h g w' T' k' L' ->
  component t w T k L = component t w' T' k' L' ->
  w = w' /\ T = T' /\ k = k' /\ L = L'.
Proof.
  intros Hg Hh [[P1 [P2 [P3 P4]]] E1 E2 D] [[P1' [P2' [P3' P4']]] E1' E2' D'] E.
  assert (HW : w = w' -> w = w' /\ T = T' /\ k = k' /\ L = L').
  { intros <-. assert (T = T') by (apply (pos_eq_of_mul w); lra).
    assert (k = k') by (exact (dispersion_k h g w k k' Hg Hh P3 P3' D D')). subst k'.
    assert (L = L') by (apply (pos_eq_of_mul k); lra). auto. }
  assert (HK : k = k' -> w = w' /\ T = T' /\ k = k' /\ L = L').
  { intros <-. apply HW. apply (dispersion_w h g w w' k); auto. }
  destruct t; cbn in E.
  - exact (HW E).
  - subst T'. apply HW. apply (pos_eq_of_mul T); lra.
  - exact (HK E).
  - subst L'. apply HK. apply (pos_eq_of_mul L); lra.
Qed.

(** ** Conversions *)
Lemma Reqb_false x y : x <> y -> Reqb x y = false.
Proof. unfold Reqb. destruct (Req_EM_T x y); tauto. Qed.
Lemma Reqb_refl x : Reqb x x = true.
Proof. unfold Reqb. destruct (Req_EM_T x x); tauto. Qed.
Lemma Reqb_true x y : Reqb x y = true -> x = y.
Proof. unfold Reqb. destruct (Req_EM_T x y); [auto|discriminate]. Qed.

Lemma np_div_fin a b : b <> 0 -> np_div (Fin a) (Fin b) = Fin (a / b).
Proof. intros H. cbn. destruct (Req_EM_T b 0); [contradiction|reflexivity]. Qed.
Lemma two_pi_pos : 0 < 2 * PI.
Proof. pose proof PI_RGT_0. lra. Qed.

Lemma frequencies_from_pos newton h g t x : exact_root_finder newton -> 0 < g -> pos_depth h -> 0 < x ->
  exists w T k L,
    frequencies_from newton h g t (Fin x)
      = Ok (Freqs (FVal (Fin w)) (FVal (Fin T)) (FVal (Fin k)) (FVal (Fin L)) t)
    /\ same_wave h g w T k L /\ component t w T k L = x.
Proof.
  intros HN Hg Hh Hx. pose proof two_pi_pos as HP. unfold frequencies_from. cbn [ext_eqb].
  rewrite (Reqb_false x 0) by lra. cbn [andb orb].
  assert (HO : forall w T, 0 < w -> 0 < T -> w * T = 2 * PI ->
    exists k, (if ext_eqb h PInf then Ok (np_div (ext_mul (Fin w) (Fin w)) (Fin g))
               else newton h (np_div (ext_mul (Fin w) (Fin w)) (Fin g))) = Ok (Fin k)
      /\ same_wave h g w T k (2 * PI / k)).
  { intros w T Hw HT E. assert (HWW : 0 < w * w) by (apply Rmult_lt_0_compat; auto).
    cbn [ext_mul]. rewrite np_div_fin by lra.
    assert (HY : 0 < w * w / g) by (apply Rdiv_lt_0_compat; auto).
    destruct Hh as [->|[d [-> Hd]]]; cbn [ext_eqb].
    - exists (w * w / g). split; [reflexivity|]. split.
      + repeat split; auto. apply Rdiv_lt_0_compat; auto.
      + exact E.
      + field; lra.
      + cbn. field. lra.
    - destruct (HN d (w * w / g) Hd HY) as [k [E1 [Hk E2]]]. exists k. split; [exact E1|]. split.
      + repeat split; auto. apply Rdiv_lt_0_compat; auto.
      + exact E.
      + field. lra.
      + cbn. rewrite Rmult_assoc, E2. field. lra. }
  assert (HK : forall k, 0 < k ->
    exists w, np_sqrt (ext_mul (ext_mul (Fin g) (Fin k)) (np_tanh (ext_mul (Fin k) h))) = Fin w
      /\ 0 < w /\ dispersion h g w k).
  { intros k Hk. assert (Hgk : 0 < g * k) by (apply Rmult_lt_0_compat; auto).
    destruct Hh as [->|[d [-> Hd]]].
    - cbn. unfold ext_mul_inf. destruct (Rlt_dec 0 k); [|lra]. cbn.
      destruct (Rlt_dec (g * k * 1) 0); [lra|]. exists (sqrt (g * k * 1)). split; [reflexivity|].
      split; [apply sqrt_lt_R0; lra|]. rewrite sqrt_sqrt; lra.
    - cbn. assert (0 < g * k * tanh (k * d)).
      { apply Rmult_lt_0_compat; [auto|]. apply tanh_pos. apply Rmult_lt_0_compat; auto. }
      destruct (Rlt_dec (g * k * tanh (k * d)) 0); [lra|].
      exists (sqrt (g * k * tanh (k * d))). split; [reflexivity|].
      split; [apply sqrt_lt_R0; lra|]. rewrite sqrt_sqrt; lra. }
  assert (Hq : 0 < 2 * PI / x) by (apply Rdiv_lt_0_compat; auto).
  unfold two_pi. rewrite (np_div_fin (2 * PI) x) by lra.
  destruct t; cbn [is_omega_k negb andb orb].
  - destruct (HO x (2 * PI / x) Hx Hq ltac:(field; lra)) as [k [E W]]. rewrite E. cbn [bind].
    rewrite np_div_fin by (destruct W as [[_ [_ [? _]]] _ _ _]; lra).
    exists x, (2 * PI / x), k, (2 * PI / k). split; [reflexivity|]. split; [exact W|reflexivity].
  - destruct (HO (2 * PI / x) x Hq Hx ltac:(field; lra)) as [k [E W]]. rewrite E. cbn [bind].
    rewrite np_div_fin by (destruct W as [[_ [_ [? _]]] _ _ _]; lra).
    exists (2 * PI / x), x, k, (2 * PI / k). split; [reflexivity|]. split; [exact W|reflexivity].
  - destruct (HK x Hx) as [w [E [Hw D]]]. rewrite E. rewrite np_div_fin by lra.
    exists w, (2 * PI / w), x, (2 * PI / x). split; [reflexivity|]. split; [|reflexivity].
    split; [|field; lra|field; lra|exact D]. repeat split; auto. apply Rdiv_lt_0_compat; auto.
  - destruct (HK (2 * PI / x) Hq) as [w [E [Hw D]]]. rewrite E. rewrite np_div_fin by lra.
    exists w, (2 * PI / w), (2 * PI / x), x. split; [reflexivity|]. split; [|reflexivity].
    split; [|field; lra|field; lra|exact D]. repeat split; auto. apply Rdiv_lt_0_compat; auto.
Qed.

Lemma get_frequencies_only newton h g t x :
  get_frequencies newton h g (only t Omega x) (only t Period x) (only t Wavenumber x) (only t Wavelength x)
  = frequencies_from newton h g t x.
Proof. destruct t; reflexivity. Qed.

Lemma frequencies_consistent newton h g t x :
  exact_root_finder newton -> 0 < g -> pos_depth h -> 0 < x ->
  exists w T k L,
    get_frequencies newton h g (only t Omega (Fin x)) (only t Period (Fin x))
                               (only t Wavenumber (Fin x)) (only t Wavelength (Fin x))
      = Ok (Freqs (FVal (Fin w)) (FVal (Fin T)) (FVal (Fin k)) (FVal (Fin L)) t)
    /\ same_wave h g w T k L /\ component t w T k L = x.
Proof. intros. rewrite get_frequencies_only. apply frequencies_from_pos; auto. Qed.

Lemma frequencies_round_trip newton h g t x f t' :
  exact_root_finder newton -> 0 < g -> pos_depth h -> 0 < x ->
  get_frequencies newton h g (only t Omega (Fin x)) (only t Period (Fin x))
                             (only t Wavenumber (Fin x)) (only t Wavelength (Fin x)) = Ok f ->
  let y := match t' with Omega => f_omega f | Period => f_period f
                       | Wavenumber => f_wavenumber f | Wavelength => f_wavelength f end in
  get_frequencies newton h g (only t' Omega (ffloat y)) (only t' Period (ffloat y))
                             (only t' Wavenumber (ffloat y)) (only t' Wavelength (ffloat y))
  = Ok (Freqs (f_omega f) (f_period f) (f_wavenumber f) (f_wavelength f) t').
Proof.
  intros HN Hg Hh Hx H y. destruct (frequencies_consistent newton h g t x HN Hg Hh Hx)
    as [w [T [k [L [E [W C]]]]]]. rewrite E in H. injection H as <-. cbn [f_omega f_period f_wavenumber f_wavelength] in *.
  assert (Hy : y = FVal (Fin (component t' w T k L))) by (unfold y; destruct t'; reflexivity).
  rewrite Hy. cbn [ffloat].
  assert (Hp : 0 < component t' w T k L) by (destruct W as [[? [? [? ?]]] _ _ _]; destruct t'; cbn; auto).
  destruct (frequencies_consistent newton h g t' _ HN Hg Hh Hp) as [w' [T' [k' [L' [E' [W' C']]]]]].
  rewrite E'. destruct (same_wave_determined h g t' _ _ _ _ _ _ _ _ Hg Hh W' W C') as [-> [-> [-> ->]]].
  reflexivity.
Qed.

Lemma frequencies_limits newton h g t :
  (let dual := match t with Omega | Wavenumber => Freqs FZero FInf FZero FInf t
                          | _ => Freqs FInf FZero FInf FZero t end in
   get_frequencies newton h g (only t Omega (Fin 0)) (only t Period (Fin 0))
                              (only t Wavenumber (Fin 0)) (only t Wavelength (Fin 0)) = Ok dual)
  /\ (let dual := match t with Omega | Wavenumber => Freqs FInf FZero FInf FZero t
                             | _ => Freqs FZero FInf FZero FInf t end in
   get_frequencies newton h g (only t Omega PInf) (only t Period PInf)
                              (only t Wavenumber PInf) (only t Wavelength PInf) = Ok dual).
Proof.
  rewrite !get_frequencies_only. unfold frequencies_from. cbn [ext_eqb]. rewrite Reqb_refl.
  destruct t; cbn; auto.
Qed.

Lemma frequencies_too_many newton h g o p k l :
  (1 < List.length (provided o p k l))%nat -> get_frequencies newton h g o p k l = Err ValueError.
Proof.
  unfold get_frequencies. destruct (provided o p k l) as [|[t x] [|? ?]]; cbn; intros; [lia|lia|reflexivity].
Qed.

(** ** Water depth *)
Lemma water_depth_cases fs wd sb d :
  get_water_depth fs wd sb d =
    match wd, sb with
    | None, None => Ok d
    | Some h, None => if ext_leb h (Fin 0) then Err ValueError else Ok h
    | None, Some b => Ok (ext_sub fs b)
    | Some _, Some _ => Err ValueError
    end.
Proof. reflexivity. Qed.

Lemma water_depth_meant i h : depth_meant i h <->
  get_water_depth (i_fs i) (i_water_depth i) (i_sea_bottom i) PInf = Ok h.
Proof.
  unfold get_water_depth. split.
  - intros [E1 E2|h' E1 E2 H|b E1 E2]; rewrite E1, E2; try rewrite H; reflexivity.
  - destruct (i_water_depth i) as [w|] eqn:E1, (i_sea_bottom i) as [b|] eqn:E2; try discriminate.
    + destruct (ext_leb w (Fin 0)) eqn:E; [discriminate|]. intros [= <-]. apply DM_depth; auto.
    + intros [= <-]. apply DM_bottom; auto.
    + intros [= <-]. apply DM_default; auto.
Qed.

Lemma water_depth_error fs wd sb d e :
  get_water_depth fs wd sb d = Err e <->
  e = ValueError /\ ((exists h, wd = Some h /\ sb = None /\ ext_leb h (Fin 0) = true)
                     \/ (exists h b, wd = Some h /\ sb = Some b)).
Proof.
  unfold get_water_depth. destruct wd as [w|], sb as [b|].
  - split; [intros [= <-]; split; [auto|right; eauto]|]. intros [-> _]. reflexivity.
  - destruct (ext_leb w (Fin 0)) eqn:E.
    + split; [intros [= <-]; split; [auto|left; eauto]|]. intros [-> _]. reflexivity.
    + split; [discriminate|]. intros [_ [[h [[= <-] [_ F]]]|[h [b [_ F]]]]]; congruence.
  - split; [discriminate|]. intros [_ [[h [F _]]|[h [b' [F _]]]]]; discriminate.
  - split; [discriminate|]. intros [_ [[h [F _]]|[h [b' [F _]]]]]; discriminate.
Qed.

Lemma freq_meant_get newton h g i t x : freq_meant i t x ->
  get_frequencies newton h g (i_omega i) (i_period i) (i_wavenumber i) (i_wavelength i)
  = frequencies_from newton h g t x.
Proof.
  intros [-> -> -> ->|t' x' -> -> -> -> _]; [reflexivity|]. apply get_frequencies_only.
Qed.

Lemma freq_meant_val i t x : freq_meant i t x -> x = PInf \/ exists r, x = Fin r /\ 0 <= r.
Proof. intros [_ _ _ _|t' x' _ _ _ _ H]; [right; exists 1; split; [auto|lra]|exact H]. Qed.

(** Limit frequencies and finite ones. *)
Lemma frequencies_from_limit newton h g t x : limit_freq x ->
  exists f, frequencies_from newton h g t x = Ok f /\ is_limit (ffloat (f_omega f)) = true
    /\ f_type f = t.
Proof.
  intros [->| ->]; unfold frequencies_from; cbn [ext_eqb]; rewrite ?Reqb_refl; destruct t; cbn;
    eexists; (split; [reflexivity|]); cbn; unfold is_limit; cbn; rewrite ?Reqb_refl; auto.
Qed.

Lemma frequencies_from_total newton h g t x : exact_root_finder newton -> 0 < g -> pos_depth h ->
  (x = PInf \/ exists r, x = Fin r /\ 0 <= r) ->
  exists f, frequencies_from newton h g t x = Ok f
    /\ (is_limit (ffloat (f_omega f)) = true <-> limit_freq x).
Proof.
  intros HN Hg Hh H.
  assert (L : limit_freq x \/ exists r, x = Fin r /\ 0 < r).
  { destruct H as [->|[r [-> Hr]]]; [left; right; auto|].
    destruct (Req_dec r 0) as [->|]; [left; left; auto|]. right. exists r. split; [auto|lra]. }
  destruct L as [L|[r [-> Hr]]].
  - destruct (frequencies_from_limit newton h g t x L) as [f [E [F _]]]. exists f. tauto.
  - destruct (frequencies_from_pos newton h g t r HN Hg Hh Hr) as [w [T [k [l [E [W _]]]]]].
    eexists. split; [exact E|]. cbn [f_omega ffloat]. destruct W as [[Hw _] _ _ _].
    unfold is_limit. cbn. rewrite Reqb_false by lra. split; [discriminate|].
    intros [F|F]; [injection F; lra|discriminate].
Qed.

Lemma check_dofs_ok b : check_dofs b = Ok tt <->
  forall name d, In (name, d) (b_dofs b) ->
    List.length d = nb_faces b /\ forall r, In r d -> List.length r = 3%nat.
Proof.
  unfold check_dofs. destruct (forallb _ (b_dofs b)) eqn:E.
  - split; [|reflexivity]. intros _ name d H. rewrite forallb_forall in E. specialize (E _ H). cbn in E.
    unfold dof_shape_ok in E. apply andb_prop in E. destruct E as [E1 E2]. apply Nat.eqb_eq in E1.
    split; [exact E1|]. intros r Hr. rewrite forallb_forall in E2. apply Nat.eqb_eq. auto.
  - split; [discriminate|]. intros H. exfalso.
    assert (E' : forallb (fun nd => dof_shape_ok (nb_faces b) (snd nd)) (b_dofs b) = true).
    { apply forallb_forall. intros [name d] Hi. cbn. destruct (H name d Hi) as [H1 H2].
      unfold dof_shape_ok. rewrite H1, Nat.eqb_refl. cbn. apply forallb_forall. intros r Hr.
      apply Nat.eqb_eq. auto. }
    congruence.
Qed.
Lemma check_dofs_err b e : check_dofs b = Err e -> e = ValueError.
Proof. unfold check_dofs. destruct forallb; congruence. Qed.

Lemma pos_depth_not_neg h : pos_depth h -> ext_ltb h (Fin 0) = false.
Proof.
  intros [->|[d [-> Hd]]]; cbn; [reflexivity|]. unfold Rltb. destruct (Rlt_dec d 0); [lra|reflexivity].
Qed.

Lemma encounter_total newton h g f U b : exact_root_finder newton -> 0 < g -> pos_depth h ->
  (U = 0 \/ exists w k, f_omega f = FVal (Fin w) /\ f_wavenumber f = FVal (Fin k)) ->
  exists e, encounter newton h g f U b = Ok e.
Proof.
  intros HN Hg Hh H. unfold encounter. destruct (Reqb U 0) eqn:E; [eauto|].
  destruct H as [->|[w [k [E1 E2]]]]; [rewrite Reqb_refl in E; discriminate|].
  unfold doppler. rewrite E1, E2. cbn.
  destruct (frequencies_from_total newton h g Omega (Fin (Rabs (w + - (k * U * cos b)))) HN Hg Hh)
    as [f' [E' _]].
  - right. eexists. split; [reflexivity|]. apply Rabs_pos.
  - unfold get_frequencies. cbn [provided app]. rewrite E'. cbn. eauto.
Qed.

Lemma Reqb_spec x y : reflect (x = y) (Reqb x y).
Proof. unfold Reqb. destruct (Req_EM_T x y); constructor; auto. Qed.

(** Acceptance of generic problems. *)
Lemma generic_accepts_iff newton immersed i h t x :
  exact_root_finder newton ->
  (forall b fs d, pos_depth d -> exists b', immersed b fs d = Ok b') ->
  0 < i_g i -> depth_meant i h -> pos_depth h -> freq_meant i t x ->
  ((exists p, generic_problem newton immersed i None = Ok p) <-> acceptable i h x).
Proof.
  intros HN HI Hg Hd Hh Hf. apply water_depth_meant in Hd.
  unfold generic_problem. rewrite Hd. cbn [bind]. rewrite (freq_meant_get _ _ _ _ _ _ Hf).
  pose proof (freq_meant_val _ _ _ Hf) as Hx.
  destruct (frequencies_from_total newton h (i_g i) t x HN Hg Hh Hx) as [f [Ef Lf]].
  rewrite Ef. cbn [bind]. unfold check_data. rewrite (pos_depth_not_neg h Hh). split.
  - intros [p Hp].
    destruct (ext_eqb (i_fs i) (Fin 0) || ext_eqb (i_fs i) PInf) eqn:E1; [|discriminate].
    cbn [negb] in Hp.
    destruct (ext_eqb (i_fs i) PInf && negb (ext_eqb h PInf)) eqn:E2; [discriminate|].
    destruct (is_limit (ffloat (f_omega f)) && negb (Reqb (i_speed i) 0)) eqn:E3; [discriminate|].
    constructor.
    + apply orb_prop in E1. destruct (i_fs i); cbn in E1; destruct E1 as [E1|E1]; try discriminate; auto.
      apply Reqb_true in E1. subst. auto.
    + intros F. rewrite F in E2. cbn in E2. destruct Hh as [->|[d [-> _]]]; [auto|discriminate].
    + intros F. apply Lf in F. rewrite F in E3. cbn in E3. destruct (Reqb_spec (i_speed i) 0); [auto|discriminate].
    + intros b Eb. rewrite Eb in Hp. cbn [check_body] in Hp. unfold usable_body.
      destruct (Nat.eqb (nb_faces b) 0) eqn:En; [discriminate|]. apply Nat.eqb_neq in En.
      split; [exact En|]. apply check_dofs_ok.
      destruct (check_dofs b) as [[]|e] eqn:Ec; [reflexivity|]. discriminate.
  - intros [A1 A2 A3 A4].
    assert (E1 : ext_eqb (i_fs i) (Fin 0) || ext_eqb (i_fs i) PInf = true).
    { destruct A1 as [-> | ->]; cbn; rewrite ?Reqb_refl; reflexivity. }
    rewrite E1. cbn [negb].
    assert (E2 : ext_eqb (i_fs i) PInf && negb (ext_eqb h PInf) = false).
    { destruct (i_fs i) as [r| | |]; cbn; auto. rewrite (A2 eq_refl). reflexivity. }
    rewrite E2.
    assert (E3 : is_limit (ffloat (f_omega f)) && negb (Reqb (i_speed i) 0) = false).
    { destruct (is_limit (ffloat (f_omega f))) eqn:E; [|reflexivity].
      rewrite (A3 (proj1 Lf eq_refl)), Reqb_refl. reflexivity. }
    rewrite E3.
    assert (E4 : exists ob, check_body immersed (i_fs i) h (i_body i) = Ok ob).
    { unfold check_body. destruct (i_body i) as [b|]; [|eauto]. destruct (A4 b eq_refl) as [B1 B2].
      apply Nat.eqb_neq in B1. rewrite B1. apply check_dofs_ok in B2. rewrite B2. cbn [bind].
      destruct (existsb (above_fs (i_fs i)) _ || _); [|eauto]. destruct (HI b (i_fs i) h Hh) as [b' ->]. cbn. eauto. }
    destruct E4 as [ob ->]. cbn [bind check_bc].
    destruct (encounter_total newton h (i_g i) f (i_speed i) (i_dir i) HN Hg Hh) as [e ->].
    + destruct (Req_dec (i_speed i) 0) as [->|HU]; [auto|]. right.
      assert (NL : ~ limit_freq x) by (intros F; auto).
      assert (Hr : exists r, x = Fin r /\ 0 < r).
      { destruct Hx as [->|[r [-> Hr]]]; [exfalso; apply NL; right; auto|].
        exists r. split; [auto|]. destruct (Req_dec r 0) as [->|]; [exfalso; apply NL; left; auto|lra]. }
      destruct Hr as [r [-> Hr]].
      destruct (frequencies_from_pos newton h (i_g i) t r HN Hg Hh Hr) as [w [T [k [l [E [W _]]]]]].
      rewrite Ef in E. injection E as ->. cbn. eauto.
    + cbn. eauto.
Qed.

(** Body of an accepted problem. *)
Lemma not_above_below fs h p : h <> NaN -> h <> NInf -> fs = Fin 0 \/ fs = PInf ->
  above_fs fs p = false -> below_sb h p = false -> in_domain fs h p.
Proof.
  intros H1 H2 Hfs A B. split.
  - destruct Hfs as [-> | ->]; [right|left; auto]. exists 0. split; [auto|].
    unfold above_fs in A. cbn in A. unfold Rleb in A. destruct (Rle_dec _ _) in A; [discriminate|]. lra.
  - destruct h as [d| | |]; try congruence; [right|left; auto]. exists d. split; [auto|].
    unfold below_sb in B. cbn in B. unfold Rleb in B. destruct (Rle_dec _ _) in B; [discriminate|]. lra.
Qed.
Lemma existsb_false_forall {A} (f : A -> bool) l : existsb f l = false -> forall x, In x l -> f x = false.
Proof.
  intros H x Hx. destruct (f x) eqn:E; [|reflexivity].
  assert (existsb f l = true) by (apply existsb_exists; eauto). congruence.
Qed.

Lemma problem_body_in_domain newton immersed i bc p b :
  (forall b fs h b', immersed b fs h = Ok b' -> List.Forall (in_domain fs h) (b_centers b')) ->
  generic_problem newton immersed i bc = Ok p -> p_depth p <> NaN ->
  p_body p = Some b -> List.Forall (in_domain (p_fs p) (p_depth p)) (b_centers b).
Proof.
  intros HI. unfold generic_problem. destruct get_water_depth as [h|]; [|discriminate]. cbn [bind].
  destruct get_frequencies as [f|]; [|discriminate]. cbn [bind].
  unfold check_data.
  destruct (ext_eqb (i_fs i) (Fin 0) || ext_eqb (i_fs i) PInf) eqn:E1; [|discriminate]. cbn [negb].
  destruct (ext_eqb (i_fs i) PInf && negb (ext_eqb h PInf)); [discriminate|].
  destruct (ext_ltb h (Fin 0)) eqn:E2; [discriminate|].
  destruct (is_limit _ && _); [discriminate|].
  destruct (check_body immersed (i_fs i) h (i_body i)) as [ob|] eqn:E3; [|discriminate]. cbn [bind].
  destruct (check_bc ob bc); [|discriminate]. cbn [bind]. destruct encounter; [|discriminate]. cbn [bind].
  intros [= <-]. cbn. intros Hn ->.
  assert (Hfs : i_fs i = Fin 0 \/ i_fs i = PInf).
  { apply orb_prop in E1. destruct (i_fs i); cbn in E1; destruct E1 as [E1|E1]; try discriminate; auto.
    apply Reqb_true in E1. subst. auto. }
  unfold check_body in E3. destruct (i_body i) as [b0|]; [|discriminate].
  destruct (Nat.eqb _ _); [discriminate|]. destruct (check_dofs b0); [|discriminate]. cbn [bind] in E3.
  destruct (existsb (above_fs _) _ || existsb _ _) eqn:E4.
  - destruct (immersed b0 (i_fs i) h) as [b1|] eqn:E5; [|discriminate]. cbn in E3. injection E3 as <-.
    eapply HI. exact E5.
  - injection E3 as <-. apply orb_false_elim in E4. destruct E4 as [E4 E5].
    apply List.Forall_forall. intros c Hc. apply not_above_below; auto.
    + intros ->. discriminate.
    + exact (existsb_false_forall _ _ E4 _ Hc).
    + exact (existsb_false_forall _ _ E5 _ Hc).
Qed.
