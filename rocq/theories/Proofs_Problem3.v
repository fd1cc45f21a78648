(** Witnesses and equality of problems. *)
From Coq Require Import Reals.
From Coquelicot Require Import Coquelicot.
From Coq Require Import List String Bool Lra Lia Arith Ascii.
From Verif Require Import Model_Base Model_Problem Spec_Problem Proofs_Problem Proofs_Problem2.
Import ListNotations.
Open Scope R_scope.

(** ** Depth *)
Lemma depth_positive_given newton immersed i bc p h :
  generic_problem newton immersed i bc = Ok p -> i_water_depth i = Some h -> h <> NaN -> pos_depth (p_depth p).
Proof.
  intros H Hh Hn. apply generic_inv in H. destruct H as [d [f [ob [e [dd [D [_ [_ [_ ->]]]]]]]]]. cbn.
  destruct D as [E1 E2|h' E1 E2 L|b E1 E2]; [congruence| |congruence].
  rewrite Hh in E1. injection E1 as ->. destruct h'; cbn in L; try discriminate; try congruence.
  - right. exists r. split; [auto|]. unfold Rleb in L. destruct (Rle_dec r 0); [discriminate|lra].
  - left. auto.
Qed.
Lemma depth_positive_default newton immersed i bc p :
  generic_problem newton immersed i bc = Ok p -> i_water_depth i = None -> i_sea_bottom i = None ->
  p_depth p = PInf.
Proof.
  intros H Hh Hn. apply generic_inv in H. destruct H as [d [f [ob [e [dd [D [_ [_ [_ ->]]]]]]]]]. cbn.
  destruct D as [E1 E2|h' E1 E2 L|b E1 E2]; congruence.
Qed.
Lemma depth_positive_bottom newton immersed i bc p s b c :
  (forall b fs h, ext_leb h (Fin 0) = true -> immersed b fs h = Err ValueError) ->
  generic_problem newton immersed i bc = Ok p -> i_water_depth i = None -> i_sea_bottom i = Some (Fin s) ->
  i_body i = Some b -> In c (b_centers b) -> vz c <= 0 -> pos_depth (p_depth p).
Proof.
  intros HI H Hh Hs Hb Hc Hz. apply generic_inv in H.
  destruct H as [d [f [ob [e [dd [D [_ [Ck [_ ->]]]]]]]]]. cbn.
  destruct D as [E1 E2|h' E1 E2 L|s' E1 E2]; [congruence|congruence|].
  rewrite Hs in E2. injection E2 as <-. unfold check_data in Ck.
  destruct (ext_eqb (i_fs i) (Fin 0) || ext_eqb (i_fs i) PInf) eqn:Ef; [|discriminate]. cbn [negb] in Ck.
  destruct (ext_eqb (i_fs i) PInf && _); [discriminate|].
  destruct (ext_ltb _ _) eqn:El; [discriminate|].
  destruct (is_limit _ && _); [discriminate|].
  destruct (i_fs i) as [a| | |]; cbn in Ef; try discriminate; [|left; reflexivity].
  rewrite orb_false_r in Ef. apply Reqb_true in Ef. subst a. right. eexists. split; [reflexivity|].
  destruct (Rlt_dec 0 (0 + - s)) as [|N]; [auto|]. exfalso.
  cbn in El. unfold Rltb in El. destruct (Rlt_dec (0 + - s) 0); [discriminate|].
  assert (s = 0) by lra. subst s. unfold check_body in Ck. rewrite Hb in Ck.
  destruct (Nat.eqb _ _); [discriminate|]. destruct (check_dofs b); [|discriminate]. cbn [bind] in Ck.
  assert (E : existsb (below_sb (ext_sub (Fin 0) (Fin 0))) (b_centers b) = true).
  { apply existsb_exists. exists c. split; [auto|]. unfold below_sb. cbn. unfold Rleb.
    destruct (Rle_dec _ _); [reflexivity|lra]. }
  rewrite E, orb_true_r in Ck. rewrite HI in Ck; [discriminate|]. cbn. unfold Rleb.
  destruct (Rle_dec _ _); [reflexivity|lra].
Qed.

Definition zero_depth_args : args :=
  {| i_body := None; i_fs := Fin 0; i_water_depth := None; i_sea_bottom := Some (Fin 0);
     i_omega := None; i_period := None; i_wavenumber := Some (Fin 1); i_wavelength := None;
     i_speed := 0; i_rho := 1000; i_g := 981 / 100; i_dir := 0 |}.
Lemma zero_depth_accepted newton immersed :
  exists p, generic_problem newton immersed zero_depth_args None = Ok p /\ p_depth p = Fin 0.
Proof.
  unfold generic_problem, zero_depth_args. cbn [i_fs i_water_depth i_sea_bottom get_water_depth bind i_omega
    i_period i_wavenumber i_wavelength i_g i_speed i_body i_rho i_dir].
  assert (E : ext_sub (Fin 0) (Fin 0) = Fin 0) by (cbn; f_equal; lra). rewrite E.
  unfold get_frequencies. cbn [provided app]. unfold frequencies_from. cbn [ext_eqb].
  rewrite (Reqb_false 1 0) by lra. cbn [andb orb is_omega_k bind].
  unfold check_data. cbn [ext_eqb]. rewrite !Reqb_refl. cbn [orb negb andb].
  assert (E0 : ext_ltb (Fin 0) (Fin 0) = false) by (apply ext_ltb_irrefl). rewrite E0.
  rewrite andb_false_r. cbn [check_body bind check_bc].
  unfold encounter. rewrite Reqb_refl. cbn [bind]. eexists. split; reflexivity.
Qed.

(** ** Example bodies *)
Definition row (x y z : R) : list C := [RtoC x; RtoC y; RtoC z].
Definition one_panel (id : nat) (name : string) (z : R) (lid : option nat) : body :=
  {| b_id := id; b_name := name; b_centers := [V 0 0 z]; b_normals := [V 1 0 0]; b_areas := [1];
     b_dofs := [("Surge"%string, [row 1 0 0])]; b_lid := lid |}.
(** Deep water, given pulsation and direction. *)
Definition deep_args (b : body) (om dir : R) : args :=
  {| i_body := Some b; i_fs := Fin 0; i_water_depth := None; i_sea_bottom := None;
     i_omega := Some (Fin om); i_period := None; i_wavenumber := None; i_wavelength := None;
     i_speed := 0; i_rho := 1000; i_g := 10; i_dir := dir |}.

Lemma deep_generic newton immersed id name lid om dir z : 0 < om -> z < 0 ->
  generic_problem newton immersed (deep_args (one_panel id name z lid) om dir) None =
  Ok {| p_body := Some (one_panel id name z lid); p_fs := Fin 0; p_depth := PInf;
        p_freqs := Freqs (FVal (Fin om)) (FVal (Fin (2 * PI / om))) (FVal (Fin (om * om / 10)))
                         (FVal (Fin (2 * PI / (om * om / 10)))) Omega;
        p_enc := Freqs (FVal (Fin om)) (FVal (Fin (2 * PI / om))) (FVal (Fin (om * om / 10)))
                         (FVal (Fin (2 * PI / (om * om / 10)))) Omega;
        p_speed := 0; p_rho := 1000; p_g := 10; p_dir := dir; p_enc_dir := dir; p_bc := None |}.
Proof.
  intros Hom Hz. unfold generic_problem, deep_args. cbn [i_fs i_water_depth i_sea_bottom get_water_depth bind i_omega
    i_period i_wavenumber i_wavelength i_g i_speed i_body i_rho i_dir].
  unfold get_frequencies. cbn [provided app]. unfold frequencies_from. cbn [ext_eqb].
  rewrite (Reqb_false om 0) by lra. cbn [andb orb is_omega_k negb].
  unfold two_pi. cbn [ext_mul]. rewrite !np_div_fin by lra. cbn [bind].
  assert (0 < om * om / 10) by (apply Rdiv_lt_0_compat; [apply Rmult_lt_0_compat; lra|lra]).
  rewrite np_div_fin by lra.
  unfold check_data. cbn [ext_eqb f_omega ffloat]. rewrite !Reqb_refl. cbn [orb negb andb ext_ltb].
  rewrite andb_false_r. unfold check_body. cbn [nb_faces b_centers one_panel List.length Nat.eqb].
  unfold check_dofs. cbn [b_dofs forallb snd one_panel].
  change (dof_shape_ok (nb_faces (one_panel id name z lid)) [row 1 0 0]) with true. cbn [andb bind].
  assert (A : existsb (above_fs (Fin 0)) [V 0 0 z] || existsb (below_sb PInf) [V 0 0 z] = false).
  { cbn [existsb]. unfold above_fs, below_sb. cbn [ext_add vz ext_leb ext_opp]. unfold Rleb.
    destruct (Rle_dec _ _) as [L|]; [|reflexivity]. exfalso.
    assert (0 < / 10 ^ 8) by (apply Rinv_0_lt_compat, pow_lt; lra). lra. }
  rewrite A. cbn [bind check_bc]. unfold encounter. rewrite Reqb_refl. reflexivity.
Qed.

(** ** Emptied by clipping *)
Lemma above_generic newton immersed b' :
  immersed (one_panel 0 "buoy" 1 None) (Fin 0) PInf = Ok b' ->
  exists p, generic_problem newton immersed (deep_args (one_panel 0 "buoy" 1 None) 1 0) None = Ok p
    /\ p_body p = Some b'.
Proof.
  intros HI. unfold generic_problem, deep_args. cbn [i_fs i_water_depth i_sea_bottom get_water_depth bind i_omega
    i_period i_wavenumber i_wavelength i_g i_speed i_body i_rho i_dir].
  unfold get_frequencies. cbn [provided app]. unfold frequencies_from. cbn [ext_eqb].
  rewrite (Reqb_false 1 0) by lra. cbn [andb orb is_omega_k negb bind].
  unfold check_data. cbn [ext_eqb f_omega ffloat]. rewrite !Reqb_refl. cbn [orb negb andb ext_ltb].
  rewrite andb_false_r. unfold check_body. cbn [nb_faces b_centers one_panel List.length Nat.eqb].
  unfold check_dofs. cbn [b_dofs forallb snd one_panel].
  change (dof_shape_ok (nb_faces (one_panel 0 "buoy" 1 None)) [row 1 0 0]) with true. cbn [andb bind].
  assert (A : existsb (above_fs (Fin 0)) [V 0 0 1] || existsb (below_sb PInf) [V 0 0 1] = true).
  { cbn [existsb]. unfold above_fs, below_sb. cbn [ext_add vz ext_leb ext_opp]. unfold Rleb.
    destruct (Rle_dec _ _) as [L|N]; [reflexivity|]. exfalso. apply N.
    assert (/ 10 ^ 8 <= 1). { rewrite <- Rinv_1. apply Rinv_le_contravar; [lra|]. apply pow_R1_Rle. lra. } lra. }
  rewrite A, HI. cbn [bind check_bc]. unfold encounter. rewrite Reqb_refl. cbn [bind]. eexists. split; reflexivity.
Qed.

(** ** Lid at a limit frequency *)
Definition limit_args (b : body) : args :=
  {| i_body := Some b; i_fs := Fin 0; i_water_depth := None; i_sea_bottom := None;
     i_omega := Some (Fin 0); i_period := None; i_wavenumber := None; i_wavelength := None;
     i_speed := 0; i_rho := 1000; i_g := 10; i_dir := 0 |}.
Lemma limit_generic newton immersed id name lid :
  exists p, generic_problem newton immersed (limit_args (one_panel id name (-1) lid)) None = Ok p
    /\ p_body p = Some (one_panel id name (-1) lid) /\ p_enc p = Freqs FZero FInf FZero FInf Omega /\ p_speed p = 0.
Proof.
  unfold generic_problem, limit_args. cbn [i_fs i_water_depth i_sea_bottom get_water_depth bind i_omega
    i_period i_wavenumber i_wavelength i_g i_speed i_body i_rho i_dir].
  unfold get_frequencies. cbn [provided app]. unfold frequencies_from. cbn [ext_eqb].
  rewrite Reqb_refl. cbn [andb orb is_omega_k negb bind].
  unfold check_data. cbn [ext_eqb f_omega ffloat]. rewrite !Reqb_refl. cbn [orb negb andb ext_ltb].
  rewrite andb_false_r. unfold check_body. cbn [nb_faces b_centers one_panel List.length Nat.eqb].
  unfold check_dofs. cbn [b_dofs forallb snd one_panel].
  change (dof_shape_ok (nb_faces (one_panel id name (-1) lid)) [row 1 0 0]) with true. cbn [andb bind].
  assert (A : existsb (above_fs (Fin 0)) [V 0 0 (-1)] || existsb (below_sb PInf) [V 0 0 (-1)] = false).
  { cbn [existsb]. unfold above_fs, below_sb. cbn [ext_add vz ext_leb ext_opp]. unfold Rleb.
    destruct (Rle_dec _ _) as [L|]; [|reflexivity]. exfalso.
    assert (0 < / 10 ^ 8) by (apply Rinv_0_lt_compat, pow_lt; lra). lra. }
  rewrite A. cbn [bind check_bc]. unfold encounter. rewrite Reqb_refl. cbn [bind]. eexists.
  split; [reflexivity|]. repeat split.
Qed.
Lemma limit_radiation newton immersed :
  radiation_problem newton immersed (limit_args (one_panel 0 "buoy" (-1) (Some 1%nat))) None = Err TypeError
  /\ exists p, radiation_problem newton immersed (limit_args (one_panel 0 "buoy" (-1) None)) None
               = Ok (p, Some "Surge"%string).
Proof.
  pose proof (limit_generic newton immersed 0 "buoy") as G.
  unfold radiation_problem. split.
  - destruct (G (Some 1%nat)) as [p [-> [E1 [E2 E3]]]]. cbn [bind]. rewrite E1, E2, E3, Reqb_refl. reflexivity.
  - destruct (G None) as [p [-> [E1 [E2 E3]]]]. cbn [bind]. rewrite E1, E2, E3, Reqb_refl.
    cbn. eexists. reflexivity.
Qed.

(** ** Equality ignores the wave direction *)
Lemma deep_diffraction newton immersed dir :
  exists p, diffraction_problem newton immersed (deep_args (one_panel 0 "buoy" (-1) None) 1 dir) = Ok p
    /\ floats_of p = [Fin 0; PInf; Fin 1; Fin (2 * PI / 1); Fin (1 * 1 / 10); Fin (2 * PI / (1 * 1 / 10)); Fin 0; Fin 1000]
    /\ p_body p = Some (one_panel 0 "buoy" (-1) None) /\ p_g p = 10 /\ p_dir p = dir
    /\ p_bc p = Some (BC [Copp (cdot (airy_velocity (Wave (1 * 1 / 10) 1 10 1000 PInf dir dir) (V 0 0 (-1))) (V 1 0 0))]).
Proof.
  unfold diffraction_problem. rewrite deep_generic by lra. cbn [bind p_freqs f_omega ffloat].
  unfold is_limit. cbn [ext_eqb]. rewrite (Reqb_false 1 0) by lra. cbn [orb p_body]. eexists. split; [reflexivity|].
  repeat split.
Qed.

Lemma eq_ignores_direction newton immersed :
  exists i j p q,
    diffraction_problem newton immersed i = Ok p /\ diffraction_problem newton immersed j = Ok q
    /\ problem_eqb (Tagged p None) (Tagged q None) = true /\ p_bc p <> p_bc q.
Proof.
  set (b := one_panel 0 "buoy" (-1) None).
  destruct (deep_diffraction newton immersed 0) as [p [Ep [Fp [Bp [Gp [_ Cp]]]]]].
  destruct (deep_diffraction newton immersed PI) as [q [Eq [Fq [Bq [Gq [_ Cq]]]]]].
  exists (deep_args b 1 0), (deep_args b 1 PI), p, q. split; [exact Ep|]. split; [exact Eq|]. split.
  - unfold problem_eqb. cbn [t_problem t_dof]. rewrite Fp, Fq, Bp, Bq, Gp, Gq.
    cbn [body_eqb one_panel b_id Nat.eqb list_eqb ext_eqb]. rewrite !Reqb_refl. reflexivity.
  - rewrite Cp, Cq. intros E. injection E as E1 E2. clear - E1.
    unfold cih in E1. cbn in E1. unfold wbar in E1. cbn in E1.
    replace (1 * 1 / 10 * (0 * cos 0 + 0 * sin 0)) with 0 in E1 by ring.
    replace (1 * 1 / 10 * (0 * cos PI + 0 * sin PI)) with 0 in E1 by ring.
    rewrite cos_0, sin_0, cos_PI, sin_PI in E1.
    pose proof (exp_pos (1 * 1 / 10 * -1)) as P. revert E1 P. generalize (exp (1 * 1 / 10 * -1)). intros x E P. nra.
Qed.

(** ** The order is not a weak order when two bodies have the same name *)
Lemma lt_not_weak newton immersed :
  exists i j k p q r,
    diffraction_problem newton immersed i = Ok p /\ diffraction_problem newton immersed j = Ok q
    /\ diffraction_problem newton immersed k = Ok r
    /\ problem_ltb p q = Ok false /\ problem_ltb q p = Ok false
    /\ problem_ltb q r = Ok false /\ problem_ltb r q = Ok false
    /\ problem_ltb p r = Ok true.
Proof.
  assert (D : forall id om, 0 < om -> exists p,
    diffraction_problem newton immersed (deep_args (one_panel id "buoy" (-1) None) om 0) = Ok p
    /\ p_body p = Some (one_panel id "buoy" (-1) None)
    /\ exists l, floats_of p = Fin 0 :: PInf :: Fin om :: l).
  { intros id om Hom. unfold diffraction_problem. rewrite deep_generic by lra. cbn [bind p_freqs f_omega ffloat].
    unfold is_limit. cbn [ext_eqb]. rewrite (Reqb_false om 0) by lra. cbn [orb p_body wave_of p_freqs f_omega f_wavenumber].
    eexists. split; [reflexivity|]. split; [reflexivity|]. eexists. reflexivity. }
  destruct (D 0%nat 1 ltac:(lra)) as [p [Ep [Bp [lp Fp]]]].
  destruct (D 1%nat 1 ltac:(lra)) as [q [Eq [Bq [lq Fq]]]].
  destruct (D 0%nat 2 ltac:(lra)) as [r [Er [Br [lr Fr]]]].
  do 3 eexists. exists p, q, r. split; [exact Ep|]. split; [exact Eq|]. split; [exact Er|].
  unfold problem_ltb. rewrite Bp, Bq, Br. cbn [one_panel b_id b_name Nat.eqb].
  rewrite string_ltb_irrefl. repeat (split; [reflexivity|]). f_equal. rewrite Fp, Fr.
  cbn [floats_ltb ext_eqb]. rewrite Reqb_refl, (Reqb_false 1 2) by lra. cbn. unfold Rltb.
  destruct (Rlt_dec 1 2); [reflexivity|lra].
Qed.

(** Equal radiation problems without forward speed. *)
Lemma list_eqb_ext l m : list_eqb ext_eqb l m = true -> l = m.
Proof.
  revert m. induction l as [|x l IH]; intros [|y m]; cbn; try discriminate; auto.
  intros H. apply andb_prop in H. destruct H as [H1 H2]. apply ext_eqb_eq in H1. f_equal; auto.
Qed.

Lemma generic_freq_shape newton immersed i bc p t x :
  exact_root_finder newton -> 0 < i_g i -> pos_depth (p_depth p) -> freq_meant i t x ->
  generic_problem newton immersed i bc = Ok p ->
  let f := f_omega (p_freqs p) in
  f = FZero \/ f = FInf \/ exists w, f = FVal (Fin w) /\ 0 < w.
Proof.
  intros HN Hg Hh Hf H. apply generic_inv in H. destruct H as [h [f [ob [e [d [_ [Ef [_ [_ ->]]]]]]]]].
  cbn [p_depth p_freqs] in *. rewrite (freq_meant_get _ _ _ _ _ _ Hf) in Ef.
  pose proof (freq_meant_val _ _ _ Hf) as Hx.
  assert (L : limit_freq x \/ exists r, x = Fin r /\ 0 < r).
  { destruct Hx as [->|[r [-> Hr]]]; [left; right; auto|].
    destruct (Req_dec r 0) as [->|]; [left; left; auto|]. right. exists r. split; [auto|lra]. }
  destruct L as [[->| ->]|[r [-> Hr]]].
  - unfold frequencies_from in Ef. cbn [ext_eqb] in Ef. rewrite Reqb_refl in Ef. destruct t; cbn in Ef; injection Ef as <-; cbn; auto.
  - destruct t; cbn in Ef; injection Ef as <-; cbn; auto.
  - destruct (frequencies_from_pos newton h (i_g i) t r HN Hg Hh Hr) as [w [T [k [l [E [[[W _] _ _ _] _]]]]]].
    rewrite Ef in E. injection E as ->. right. right. exists w. auto.
Qed.

Lemma ffloat_inj f f' : f = FZero \/ f = FInf \/ (exists w, f = FVal (Fin w) /\ 0 < w) ->
  f' = FZero \/ f' = FInf \/ (exists w, f' = FVal (Fin w) /\ 0 < w) -> ffloat f = ffloat f' -> f = f'.
Proof.
  intros [->|[->|[w [-> H]]]] [->|[->|[w' [-> H']]]]; cbn; intros E; try discriminate; try injection E as E;
    subst; auto; lra.
Qed.

Lemma radiation_inv newton immersed i o p dof : radiation_problem newton immersed i o = Ok (p, Some dof) ->
  exists q, generic_problem newton immersed i None = Ok q
    /\ ((p = q /\ p_body q = None /\ p_bc p = None)
        \/ exists b d dn c c' c'', p_body q = Some b /\ assoc dof (b_dofs b) = Some d /\ dof_dot_n d b = Ok dn
             /\ motion_bc (f_omega (p_enc q)) dn = Ok c
             /\ (if Reqb (p_speed q) 0 then Ok c
                 else bind (ddofdx_dot_n dof b) (fun l => add_bc c (map (Cmult (RtoC (p_speed q))) l))) = Ok c'
             /\ append_lid b c' = Ok c'' /\ p = with_bc q (Some c'')).
Proof.
  unfold radiation_problem. destruct generic_problem as [q|] eqn:Eq; [|discriminate]. cbn [bind].
  intros H. exists q. split; [reflexivity|].
  destruct (p_body q) as [b0|] eqn:Eb.
  2: { injection H as <- ->. left. split; [reflexivity|]. split; [first [exact Eb|reflexivity]|].
       apply generic_inv in Eq. destruct Eq as [? [? [? [? [? [_ [_ [_ [_ ->]]]]]]]]]. reflexivity. }
  right. destruct (b_dofs b0) as [|[first dd] ds] eqn:Ed; [discriminate|].
  set (dof0 := match o with None => first | Some d => d end) in *.
  destruct (assoc dof0 ((first, dd) :: ds)) as [d|] eqn:Ea; [|discriminate].
  destruct (dof_dot_n d b0) as [dn|] eqn:Edn; [|discriminate]. cbn [bind] in H.
  destruct (motion_bc _ dn) as [c|] eqn:Ec; [|discriminate]. cbn [bind] in H.
  destruct (if Reqb (p_speed q) 0 then _ else _) as [c'|] eqn:Ec'; [|discriminate]. cbn [bind] in H.
  destruct (append_lid b0 c') as [c''|] eqn:Ec''; [|discriminate]. cbn [bind] in H.
  injection H as <- Hd. rewrite Hd in *. exists b0, d, dn, c, c', c''. rewrite Ed. repeat split; auto.
Qed.

Lemma eq_radiation_no_speed newton immersed i j o o' p q d d' t x t' x' :
  exact_root_finder newton -> 0 < i_g i -> 0 < i_g j -> pos_depth (p_depth p) -> pos_depth (p_depth q) ->
  freq_meant i t x -> freq_meant j t' x' ->
  i_speed i = 0 -> i_speed j = 0 ->
  radiation_problem newton immersed i o = Ok (p, Some d) ->
  radiation_problem newton immersed j o' = Ok (q, Some d') ->
  (forall b c, p_body p = Some b -> p_body q = Some c -> b_id b = b_id c -> b = c) ->
  problem_eqb (Tagged p (Some (Some d))) (Tagged q (Some (Some d'))) = true ->
  p_body p = p_body q /\ p_fs p = p_fs q /\ p_depth p = p_depth q
  /\ f_omega (p_freqs p) = f_omega (p_freqs q) /\ p_rho p = p_rho q /\ p_g p = p_g q
  /\ d = d' /\ p_bc p = p_bc q.
Proof.
  intros HN Hg Hg' Hh Hh' Hf Hf' HU HU' Rp Rq HB E.
  unfold problem_eqb in E. cbn [t_problem t_dof] in E.
  apply andb_prop in E. destruct E as [E E4]. apply andb_prop in E. destruct E as [E E3].
  apply andb_prop in E. destruct E as [E1 E2].
  apply list_eqb_ext in E2. apply Reqb_true in E3. cbn in E4. apply String.eqb_eq in E4. subst d'.
  assert (EB : p_body p = p_body q).
  { destruct (p_body p) as [b|], (p_body q) as [c|]; cbn in E1; try discriminate; auto.
    apply Nat.eqb_eq in E1. f_equal. auto. }
  unfold floats_of in E2. injection E2 as F1 F2 F3 F4 F5 F6 F7 F8.
  destruct (radiation_inv _ _ _ _ _ _ Rp) as [p0 [Gp Ip]].
  destruct (radiation_inv _ _ _ _ _ _ Rq) as [q0 [Gq Iq]].
  destruct (encounter_no_speed _ _ _ _ _ Gp HU) as [Np _].
  destruct (encounter_no_speed _ _ _ _ _ Gq HU') as [Nq _].
  assert (Sp : p_speed p0 = 0).
  { apply generic_inv in Gp. destruct Gp as [? [? [? [? [? [_ [_ [_ [_ ->]]]]]]]]]. exact HU. }
  assert (Sq : p_speed q0 = 0).
  { apply generic_inv in Gq. destruct Gq as [? [? [? [? [? [_ [_ [_ [_ ->]]]]]]]]]. exact HU'. }
  assert (HW : f_omega (p_freqs p) = f_omega (p_freqs q)).
  { apply ffloat_inj; [| |exact F3].
    - assert (Ep : p_freqs p = p_freqs p0 /\ p_depth p = p_depth p0).
      { destruct Ip as [[-> _]|[b [dd [dn [c [c' [c'' [_ [_ [_ [_ [_ [_ ->]]]]]]]]]]]]]; auto. }
      destruct Ep as [Ep1 Ep2]. rewrite Ep1. rewrite Ep2 in Hh.
      exact (generic_freq_shape _ _ _ _ _ _ _ HN Hg Hh Hf Gp).
    - assert (Ep : p_freqs q = p_freqs q0 /\ p_depth q = p_depth q0).
      { destruct Iq as [[-> _]|[b [dd [dn [c [c' [c'' [_ [_ [_ [_ [_ [_ ->]]]]]]]]]]]]]; auto. }
      destruct Ep as [Ep1 Ep2]. rewrite Ep1. rewrite Ep2 in Hh'.
      exact (generic_freq_shape _ _ _ _ _ _ _ HN Hg' Hh' Hf' Gq). }
  repeat (split; [assumption|]). split; [reflexivity|].
  destruct Ip as [[-> [Bp Cp]]|[b [dd [dn [c [c' [c'' [A1 [A2 [A3 [A4 [A5 [A6 ->]]]]]]]]]]]]];
  destruct Iq as [[-> [Bq Cq]]|[b2 [dd2 [dn2 [c2 [c2' [c2'' [B1 [B2 [B3 [B4 [B5 [B6 ->]]]]]]]]]]]]].
  - congruence.
  - cbn in EB. congruence.
  - cbn in EB. congruence.
  - cbn [p_body with_bc p_freqs p_bc] in *. rewrite Sp, Reqb_refl in A5. rewrite Sq, Reqb_refl in B5.
    rewrite A1, B1 in EB. injection EB as <-. rewrite Np, HW in A4. rewrite Nq in B4.
    congruence.
Qed.

(** A moving body overtaking the waves: deep water, [omega = 2], [g = 4],
    following waves, speed 3. *)
Definition moving_args : args :=
  {| i_body := None; i_fs := Fin 0; i_water_depth := None; i_sea_bottom := None;
     i_omega := Some (Fin 2); i_period := None; i_wavenumber := None; i_wavelength := None;
     i_speed := 3; i_rho := 1000; i_g := 4; i_dir := 0 |}.
Lemma moving_generic newton immersed : exists p,
  generic_problem newton immersed moving_args None = Ok p
  /\ ffloat (f_omega (p_enc p)) = Fin 1 /\ p_enc_dir p = 0 + PI
  /\ f_omega (p_freqs p) = FVal (Fin 2) /\ f_wavenumber (p_freqs p) = FVal (Fin 1)
  /\ p_g p = 4 /\ p_rho p = 1000 /\ p_depth p = PInf /\ p_dir p = 0 /\ p_body p = None.
Proof.
  unfold generic_problem, moving_args.
  cbn [i_fs i_water_depth i_sea_bottom get_water_depth bind i_omega i_period i_wavenumber i_wavelength i_g i_speed i_body i_rho i_dir].
  unfold get_frequencies at 1. cbn [provided app]. unfold frequencies_from. cbn [ext_eqb is_omega_k andb orb negb ext_mul].
  rewrite (Reqb_false 2 0) by lra. unfold two_pi. rewrite (np_div_fin (2 * 2) 4), (np_div_fin (2 * PI) 2) by lra. cbn [andb orb bind].
  replace (2 * 2 / 4) with 1 by field. rewrite np_div_fin by lra. cbn [bind].
  unfold check_data. cbn [ext_eqb f_omega ffloat ext_ltb]. rewrite Reqb_refl. unfold is_limit. cbn [ext_eqb].
  rewrite (Reqb_false 2 0) by lra. cbn [orb negb andb check_body bind check_bc].
  unfold encounter. rewrite (Reqb_false 3 0) by lra. unfold doppler.
  cbn [f_omega f_wavenumber ffloat ext_mul ext_sub ext_opp ext_add np_abs]. rewrite cos_0.
  replace (2 + - (1 * 3 * 1)) with (-1) by ring.
  replace (Rabs (-1)) with 1 by (rewrite Rabs_left by lra; ring).
  unfold get_frequencies. cbn [provided app]. unfold frequencies_from. cbn [ext_eqb is_omega_k andb orb negb].
  rewrite (Reqb_false 1 0) by lra. cbn [andb orb bind ext_leb]. eexists. split; [reflexivity|]. cbn [p_enc fst f_omega ffloat p_enc_dir snd].
  split; [reflexivity|]. split; [|repeat split; reflexivity]. unfold Rleb. destruct (Rle_dec 0 (-1)); [lra|reflexivity].
Qed.

