(** Properties C04 to C08. *)
From Coq Require Import Reals.
From Coquelicot Require Import Complex.
From Coq Require Import List String Bool Lra.
From Verif Require Import Model_Base Model_Problem Spec_Problem
  Proofs_Problem Proofs_Problem2 Proofs_Problem3 Proofs_RootFinder.
Import ListNotations.
Open Scope R_scope.

(** ** C04: water depth *)
Theorem depth_resolution :
  forall i h, depth_meant i h <->
    get_water_depth (i_fs i) (i_water_depth i) (i_sea_bottom i) PInf = Ok h.
Proof. exact water_depth_meant. Qed.
Print Assumptions depth_resolution.
Theorem depth_errors :
  forall fs wd sb d e,
    get_water_depth fs wd sb d = Err e <->
    e = ValueError /\ ((exists h, wd = Some h /\ sb = None /\ ext_leb h (Fin 0) = true)
                       \/ (exists h b, wd = Some h /\ sb = Some b)).
Proof. exact water_depth_error. Qed.
Print Assumptions depth_errors.
(** Positivity when the depth is given as such, or not given. *)
Theorem depth_positive_partial :
  forall newton immersed i bc p h,
    generic_problem newton immersed i bc = Ok p -> i_water_depth i = Some h -> h <> NaN ->
    pos_depth (p_depth p).
Proof. exact depth_positive_given. Qed.
Print Assumptions depth_positive_partial.
Theorem depth_default_infinite :
  forall newton immersed i bc p,
    generic_problem newton immersed i bc = Ok p -> i_water_depth i = None -> i_sea_bottom i = None ->
    p_depth p = PInf.
Proof. exact depth_positive_default. Qed.
Print Assumptions depth_default_infinite.
(** With [sea_bottom], positivity needs a body with a panel at or under [z = 0]
    (the error comes from the automatic clipping). *)
Theorem depth_positive_sea_bottom_partial :
  forall newton immersed i bc p s b c,
    (forall b fs h, ext_leb h (Fin 0) = true -> immersed b fs h = Err ValueError) ->
    generic_problem newton immersed i bc = Ok p ->
    i_water_depth i = None -> i_sea_bottom i = Some (Fin s) ->
    i_body i = Some b -> In c (b_centers b) -> vz c <= 0 -> pos_depth (p_depth p).
Proof. exact depth_positive_bottom. Qed.
Print Assumptions depth_positive_sea_bottom_partial.
(** Without a body a problem of depth zero is accepted. *)
Theorem depth_positive_refuted :
  forall newton immersed, exists i p,
    generic_problem newton immersed i None = Ok p /\ ~ pos_depth (p_depth p).
Proof.
  intros newton immersed. destruct (zero_depth_accepted newton immersed) as [p [H E]].
  exists zero_depth_args, p. split; [exact H|]. rewrite E.
  intros [F|[d [[= <-] F]]]; [discriminate|exact (Rlt_irrefl 0 F)].
Qed.
Print Assumptions depth_positive_refuted.
Example depth_positive_ex : forall newton immersed, exists p,
  generic_problem newton immersed (deep_args (one_panel 0 "buoy" (-1) None) 1 0) None = Ok p
  /\ p_depth p = PInf.
Proof. intros. rewrite deep_generic by lra. eexists. split; reflexivity. Qed.

(** ** C05: frequencies *)
Theorem freq_consistent :
  forall newton h g t x,
    exact_root_finder newton -> 0 < g -> pos_depth h -> 0 < x ->
    exists w T k L,
      get_frequencies newton h g (only t Omega (Fin x)) (only t Period (Fin x))
                                 (only t Wavenumber (Fin x)) (only t Wavelength (Fin x))
        = Ok (Freqs (FVal (Fin w)) (FVal (Fin T)) (FVal (Fin k)) (FVal (Fin L)) t)
      /\ same_wave h g w T k L /\ component t w T k L = x.
Proof. exact frequencies_consistent. Qed.
Print Assumptions freq_consistent.
(** The wave is determined by any one of its four numbers... *)
Theorem freq_unique :
  forall h g t w T k L w' T' k' L', 0 < g -> pos_depth h ->
    same_wave h g w T k L -> same_wave h g w' T' k' L' ->
    component t w T k L = component t w' T' k' L' ->
    w = w' /\ T = T' /\ k = k' /\ L = L'.
Proof. exact same_wave_determined. Qed.
Print Assumptions freq_unique.
(** ... so feeding back any of the four stored numbers gives the same problem. *)
Theorem freq_round_trip :
  forall newton h g t x f t',
    exact_root_finder newton -> 0 < g -> pos_depth h -> 0 < x ->
    get_frequencies newton h g (only t Omega (Fin x)) (only t Period (Fin x))
                               (only t Wavenumber (Fin x)) (only t Wavelength (Fin x)) = Ok f ->
    let y := match t' with Omega => f_omega f | Period => f_period f
                         | Wavenumber => f_wavenumber f | Wavelength => f_wavelength f end in
    get_frequencies newton h g (only t' Omega (ffloat y)) (only t' Period (ffloat y))
                               (only t' Wavenumber (ffloat y)) (only t' Wavelength (ffloat y))
    = Ok (Freqs (f_omega f) (f_period f) (f_wavenumber f) (f_wavelength f) t').
Proof. exact frequencies_round_trip. Qed.
Print Assumptions freq_round_trip.
Theorem freq_limits :
  forall newton h g t,
    (let dual := match t with Omega | Wavenumber => Freqs FZero FInf FZero FInf t
                            | _ => Freqs FInf FZero FInf FZero t end in
     get_frequencies newton h g (only t Omega (Fin 0)) (only t Period (Fin 0))
                                (only t Wavenumber (Fin 0)) (only t Wavelength (Fin 0)) = Ok dual)
    /\ (let dual := match t with Omega | Wavenumber => Freqs FInf FZero FInf FZero t
                               | _ => Freqs FZero FInf FZero FInf t end in
     get_frequencies newton h g (only t Omega PInf) (only t Period PInf)
                                (only t Wavenumber PInf) (only t Wavelength PInf) = Ok dual).
Proof. exact frequencies_limits. Qed.
Print Assumptions freq_limits.
Theorem freq_at_most_one :
  forall newton h g o p k l,
    (1 < List.length (provided o p k l))%nat -> get_frequencies newton h g o p k l = Err ValueError.
Proof. exact frequencies_too_many. Qed.
Print Assumptions freq_at_most_one.
Theorem freq_default :
  forall newton h g, get_frequencies newton h g None None None None
    = get_frequencies newton h g (Some (Fin 1)) None None None.
Proof. exact (fun _ _ _ => eq_refl). Qed.
Print Assumptions freq_default.
(** Deep water, [omega = 2], [g = 4]: the wavenumber is 1. *)
Example freq_consistent_ex : forall newton, exists T L,
  get_frequencies newton PInf 4 (Some (Fin 2)) None None None
  = Ok (Freqs (FVal (Fin 2)) (FVal (Fin T)) (FVal (Fin 1)) (FVal (Fin L)) Omega) /\ L = 2 * PI.
Proof.
  intros newton. exists (2 * PI / 2), (2 * PI / 1). split; [|field].
  unfold get_frequencies. cbn [provided app]. unfold frequencies_from. cbn [ext_eqb is_omega_k andb orb negb ext_mul].
  rewrite (Reqb_false 2 0) by lra. unfold two_pi. rewrite (np_div_fin (2 * 2) 4), (np_div_fin (2 * PI) 2) by lra. cbn [andb orb bind].
  replace (2 * 2 / 4) with 1 by field. rewrite np_div_fin by lra. reflexivity.
Qed.

(** ** C06: encounter frequency *)
Theorem encounter_without_speed :
  forall newton immersed i bc p,
    generic_problem newton immersed i bc = Ok p -> i_speed i = 0 ->
    p_enc p = p_freqs p /\ p_enc_dir p = i_dir i.
Proof. exact encounter_no_speed. Qed.
Print Assumptions encounter_without_speed.
Theorem encounter_with_speed :
  forall newton immersed i bc p t x,
    exact_root_finder newton -> 0 < i_g i -> pos_depth (p_depth p) ->
    freq_meant i t x -> i_speed i <> 0 ->
    generic_problem newton immersed i bc = Ok p ->
    exists w T k L,
      p_freqs p = Freqs (FVal (Fin w)) (FVal (Fin T)) (FVal (Fin k)) (FVal (Fin L)) t
      /\ same_wave (p_depth p) (i_g i) w T k L
      /\ let s := w - k * i_speed i * cos (i_dir i) in
         (0 <= s -> p_enc_dir p = i_dir i)
         /\ (s < 0 -> p_enc_dir p = i_dir i + PI)
         /\ (s = 0 -> p_enc p = Freqs FZero FInf FZero FInf Omega)
         /\ (s <> 0 -> exists T' k' L',
               p_enc p = Freqs (FVal (Fin (Rabs s))) (FVal (Fin T')) (FVal (Fin k')) (FVal (Fin L')) Omega
               /\ same_wave (p_depth p) (i_g i) (Rabs s) T' k' L').
Proof. exact encounter_speed. Qed.
Print Assumptions encounter_with_speed.
(** Deep water, [omega = 2], [g = 4], following waves, speed 3: the Doppler shifted
    frequency is -1, so the direction is reversed. *)
Example encounter_ex : forall newton immersed, exists p,
  generic_problem newton immersed moving_args None = Ok p
  /\ ffloat (f_omega (p_enc p)) = Fin 1 /\ p_enc_dir p = 0 + PI.
Proof.
  intros newton immersed. destruct (moving_generic newton immersed) as [p [H [H1 [H2 _]]]].
  exists p. auto.
Qed.

(** ** C07: validation *)
Theorem problem_accepted_iff :
  forall newton immersed i h t x,
    exact_root_finder newton ->
    (forall b fs d, pos_depth d -> exists b', immersed b fs d = Ok b') ->
    0 < i_g i -> depth_meant i h -> pos_depth h -> freq_meant i t x ->
    ((exists p, generic_problem newton immersed i None = Ok p) <-> acceptable i h x).
Proof. exact generic_accepts_iff. Qed.
Print Assumptions problem_accepted_iff.
Theorem problem_body_immersed :
  forall newton immersed i bc p b,
    (forall b fs h b', immersed b fs h = Ok b' -> List.Forall (in_domain fs h) (b_centers b')) ->
    generic_problem newton immersed i bc = Ok p -> p_depth p <> NaN ->
    p_body p = Some b -> List.Forall (in_domain (p_fs p) (p_depth p)) (b_centers b).
Proof. exact problem_body_in_domain. Qed.
Print Assumptions problem_body_immersed.
(** C07: a boundary condition given by the user is accepted when the problem
    without it is, there is a body, and it has one dimension with one value per
    face of the hull and of the lid; it is stored unchanged. *)
Theorem problem_given_boundary_condition :
  forall newton immersed i a p,
    generic_problem newton immersed i (Some a) = Ok p <->
    exists q b, generic_problem newton immersed i None = Ok q /\ p_body q = Some b
      /\ a_shape a = [List.length (b_centers b) + match b_lid b with Some n => n | None => 0 end]%nat
      /\ p = with_bc q (Some (BC (a_values a))).
Proof. exact generic_given_bc. Qed.
Print Assumptions problem_given_boundary_condition.
Theorem problem_wrong_boundary_condition :
  forall newton immersed i a q b,
    generic_problem newton immersed i None = Ok q -> p_body q = Some b ->
    a_shape a <> [List.length (b_centers b) + match b_lid b with Some n => n | None => 0 end]%nat ->
    generic_problem newton immersed i (Some a) = Err ValueError.
Proof. exact generic_wrong_bc. Qed.
Print Assumptions problem_wrong_boundary_condition.
Theorem diffraction_boundary_condition :
  forall newton immersed i p b,
    diffraction_problem newton immersed i = Ok p -> p_body p = Some b ->
    List.length (b_normals b) = nb_faces b ->
    exists w l, wave_of p = Some w /\ p_bc p = Some (BC l)
      /\ List.length l = nb_faces_with_lid b
      /\ (forall n, (n < nb_faces b)%nat ->
            nth n l (RtoC 0) = Copp (cdot (airy_velocity w (nth n (b_centers b) v0)) (nth n (b_normals b) v0)))
      /\ (forall n, (nb_faces b <= n)%nat -> nth n l (RtoC 0) = RtoC 0).
Proof. exact diffraction_bc. Qed.
Print Assumptions diffraction_boundary_condition.
Theorem radiation_boundary_condition :
  forall newton immersed i o p dof b w,
    radiation_problem newton immersed i o = Ok (p, Some dof) -> p_body p = Some b ->
    List.length (b_normals b) = nb_faces b -> i_speed i = 0 ->
    f_omega (p_freqs p) = FVal (Fin w) ->
    (o = None \/ o = Some dof)
    /\ exists d l, assoc dof (b_dofs b) = Some d /\ p_bc p = Some (BC l)
      /\ List.length l = nb_faces_with_lid b
      /\ (forall n, (n < nb_faces b)%nat ->
            nth n l (RtoC 0) = (- Ci * RtoC w * cdot (row3 (nth n d [])) (nth n (b_normals b) v0))%C)
      /\ (forall n, (nb_faces b <= n)%nat -> nth n l (RtoC 0) = RtoC 0).
Proof. exact radiation_bc. Qed.
Print Assumptions radiation_boundary_condition.
(** What fails: a body that the automatic clipping empties is accepted. *)
Theorem problem_empty_body_refuted :
  forall newton immersed b',
    immersed (one_panel 0 "buoy" 1 None) (Fin 0) PInf = Ok b' -> nb_faces b' = 0%nat ->
    exists i p, generic_problem newton immersed i None = Ok p /\ p_body p = Some b' /\ nb_faces b' = 0%nat.
Proof.
  intros newton immersed b' H E. destruct (above_generic newton immersed b' H) as [p [H1 H2]].
  exact (ex_intro _ _ (ex_intro _ p (conj H1 (conj H2 E)))).
Qed.
Print Assumptions problem_empty_body_refuted.
(** What fails: adding a lid to a body makes radiation problems at limit
    frequencies raise a [TypeError]. *)
Theorem radiation_limit_with_lid_refuted :
  forall newton immersed,
    radiation_problem newton immersed (limit_args (one_panel 0 "buoy" (-1) (Some 1%nat))) None = Err TypeError
    /\ exists p, radiation_problem newton immersed (limit_args (one_panel 0 "buoy" (-1) None)) None
                 = Ok (p, Some "Surge"%string).
Proof. exact limit_radiation. Qed.
Print Assumptions radiation_limit_with_lid_refuted.
(** One face on the hull and two on the lid: three values are accepted, and not one. *)
Example problem_given_boundary_condition_ex : forall newton immersed,
  let i := deep_args (one_panel 0 "buoy" (-1) (Some 2%nat)) 1 0 in
  (exists p, generic_problem newton immersed i (Some (Array [3%nat] [RtoC 1; RtoC 2; RtoC 3])) = Ok p)
  /\ generic_problem newton immersed i (Some (Array [1%nat] [RtoC 1])) = Err ValueError.
Proof.
  intros newton immersed i. split.
  - eexists. apply problem_given_boundary_condition. eexists. eexists.
    split; [apply deep_generic; lra|]. split; [reflexivity|]. split; reflexivity.
  - eapply problem_wrong_boundary_condition; [apply deep_generic; lra|reflexivity|discriminate].
Qed.
Example problem_accepted_ex : forall newton immersed, exists p b,
  diffraction_problem newton immersed (deep_args (one_panel 0 "buoy" (-1) None) 1 0) = Ok p
  /\ p_body p = Some b /\ List.length (b_normals b) = nb_faces b.
Proof.
  intros. destruct (deep_diffraction newton immersed 0) as [p [H [_ [Hb _]]]].
  exists p. eexists. split; [exact H|]. split; [exact Hb|]. reflexivity.
Qed.

(** ** C08: equality and order *)
Theorem equal_problems_refuted :
  forall newton immersed, exists i j p q,
    diffraction_problem newton immersed i = Ok p /\ diffraction_problem newton immersed j = Ok q
    /\ problem_eqb (Tagged p None) (Tagged q None) = true /\ p_bc p <> p_bc q.
Proof. exact eq_ignores_direction. Qed.
Print Assumptions equal_problems_refuted.
Theorem equal_radiation_problems_partial :
  forall newton immersed i j o o' p q d d' t x t' x',
    exact_root_finder newton -> 0 < i_g i -> 0 < i_g j -> pos_depth (p_depth p) -> pos_depth (p_depth q) ->
    freq_meant i t x -> freq_meant j t' x' ->
    i_speed i = 0 -> i_speed j = 0 ->
    radiation_problem newton immersed i o = Ok (p, Some d) ->
    radiation_problem newton immersed j o' = Ok (q, Some d') ->
    (forall b c, p_body p = Some b -> p_body q = Some c -> b_id b = b_id c -> b = c) ->
    problem_eqb (Tagged p (Some (Some d))) (Tagged q (Some (Some d'))) = true ->
    p_body p = p_body q /\ p_fs p = p_fs q /\ p_depth p = p_depth q
    /\ f_omega (p_freqs p) = f_omega (p_freqs q) /\ p_rho p = p_rho q /\ p_g p = p_g q
    /\ d = d' /\ p_bc p = p_bc q.
Proof. exact eq_radiation_no_speed. Qed.
Print Assumptions equal_radiation_problems_partial.
Theorem order_refuted :
  forall newton immersed, exists i j k p q r,
    diffraction_problem newton immersed i = Ok p /\ diffraction_problem newton immersed j = Ok q
    /\ diffraction_problem newton immersed k = Ok r
    /\ problem_ltb p q = Ok false /\ problem_ltb q p = Ok false
    /\ problem_ltb q r = Ok false /\ problem_ltb r q = Ok false
    /\ problem_ltb p r = Ok true.
Proof. exact lt_not_weak. Qed.
Print Assumptions order_refuted.
(** It is a strict weak order on lists of problems in which bodies are determined
    by their names. *)
Theorem order_strict_weak_partial :
  forall ps, comparable ps -> forall p q r, In p ps -> In q ps -> In r ps ->
    problem_ltb p p = Ok false
    /\ (exists b, problem_ltb p q = Ok b)
    /\ (problem_ltb p q = Ok true -> problem_ltb q r = Ok true -> problem_ltb p r = Ok true)
    /\ (problem_ltb p q = Ok false -> problem_ltb q p = Ok false ->
        problem_ltb q r = Ok false -> problem_ltb r q = Ok false ->
        problem_ltb p r = Ok false /\ problem_ltb r p = Ok false).
Proof. exact lt_strict_weak. Qed.
Print Assumptions order_strict_weak_partial.
Example order_ex : forall newton immersed, exists p q,
  generic_problem newton immersed (deep_args (one_panel 0 "a" (-1) None) 1 0) None = Ok p
  /\ generic_problem newton immersed (deep_args (one_panel 1 "b" (-1) None) 1 0) None = Ok q
  /\ comparable [p; q] /\ problem_ltb p q = Ok true.
Proof.
  intros. rewrite !deep_generic by lra. do 2 eexists. split; [reflexivity|]. split; [reflexivity|]. split; [|reflexivity].
  split.
  - intros r [<-|[<-|[]]]; repeat constructor; cbn; discriminate.
  - right. split.
    + intros r [<-|[<-|[]]]; cbn; eauto.
    + intros r s b c [<-|[<-|[]]] [<-|[<-|[]]] [= <-] [= <-]; cbn; split; intros E; try reflexivity; discriminate.
Qed.

(** The hypothesis on the root finder can be met: an exact one exists. *)
Example exact_root_finder_ex : exists newton, exact_root_finder newton.
Proof. exact (ex_intro _ _ root_finder_exact). Qed.
