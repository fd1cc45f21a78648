(** Properties C09, C10 and C51. *)
From Coq Require Import Reals.
From Coquelicot Require Import Complex.
From Coq Require Import List String Bool ZArith Lra Permutation.
From Verif Require Import Model_Base Model_Symbolic Model_Cache Model_Problem Model_Results Model_Solver
  Spec_Solver Proofs_Problem Proofs_Problem3 Proofs_Solver Proofs_Solver2.
Import ListNotations.
Open Scope R_scope.

(** ** C09: one result per problem, failures isolated, any number of jobs *)
Theorem solve_all_each_alone_partial :
  forall st build linsolve gradient_x min_wavelength irregular (s0 : st) used
         direct keep bar env n_jobs l b,
    transparent st build linsolve s0 used -> ordinary used l -> progress bar env = Ok b ->
    n_jobs = 1%Z \/ (l <> [] /\ no_nan l) ->
    exists rs,
      snd (solve_all st build linsolve gradient_x min_wavelength irregular
             direct keep false true bar env n_jobs s0 l) = Ok rs
      /\ Permutation rs (map (fun p => result_or_failure p
           (snd (solve st build linsolve gradient_x min_wavelength irregular direct keep false s0 p))) l).
Proof.
  exact (fun st build linsolve gradient_x min_wavelength irregular s0 used direct keep bar env n l b T =>
    all_alone st build linsolve gradient_x min_wavelength irregular s0 used T direct keep bar env n l b).
Qed.
Print Assumptions solve_all_each_alone_partial.
(** The checks of the wavelengths only add warnings. *)
Theorem solve_all_checks_do_not_matter :
  forall st build linsolve gradient_x min_wavelength irregular (s0 : st) direct keep joblib bar env n_jobs l,
    (forall p, In p l -> exists b, p_body (pb_data p) = Some b
       /\ (exists x, min_wavelength b = Ok x) /\ (exists y, irregular b (p_g (pb_data p)) = Ok y)) ->
    solve_all st build linsolve gradient_x min_wavelength irregular direct keep true joblib bar env n_jobs s0 l
    = solve_all st build linsolve gradient_x min_wavelength irregular direct keep false joblib bar env n_jobs s0 l.
Proof.
  intros. unfold solve_all at 1. rewrite check_ok by assumption. reflexivity.
Qed.
Print Assumptions solve_all_checks_do_not_matter.
(** The hypothesis on the state holds for the cached engine with a stateless
    linear solver, when equal keys have equal matrices. *)
Theorem cached_engine_transparent :
  forall eqb f maxsize L (used : body -> Prop),
    (1 <= maxsize)%nat ->
    (forall k k', used (key_body k) -> used (key_body k') -> eqb k k' = true -> f k = f k') ->
    transparent _ (cached_build eqb f maxsize) (direct_linsolve L) [] used.
Proof. exact cached_transparent. Qed.
Print Assumptions cached_engine_transparent.

(** Problems of the base class make the whole call raise. *)
Theorem solve_all_generic_refuted :
  forall st build linsolve gradient_x min_wavelength irregular direct keep (s : st) p,
    pb_kind p = Generic ->
    exists s', solve_all st build linsolve gradient_x min_wavelength irregular
                 direct keep false true (Some false) None 1 s [p] = (s', Err AttributeError).
Proof. exact generic_always_raises. Qed.
Print Assumptions solve_all_generic_refuted.
(** With several jobs an empty list raises, with one job it does not. *)
Theorem solve_all_empty_refuted :
  forall st build linsolve gradient_x min_wavelength irregular direct keep check (s : st) n,
    n <> 1%Z ->
    solve_all st build linsolve gradient_x min_wavelength irregular
      direct keep check true (Some false) None n s [] = (s, Err KeyError)
    /\ solve_all st build linsolve gradient_x min_wavelength irregular
      direct keep check true (Some false) None 1 s [] = (s, Ok []).
Proof. exact empty_parallel. Qed.
Print Assumptions solve_all_empty_refuted.
(** A problem without body spoils the others. *)
Theorem solve_all_bodyless_refuted :
  forall st build linsolve gradient_x min_wavelength irregular direct keep (s : st) p q b,
    p_body (pb_data p) = None -> p_body (pb_data q) = Some b ->
    solve_all st build linsolve gradient_x min_wavelength irregular
      direct keep false true (Some false) None 1 s [p; q] = (s, Err AttributeError)
    /\ solve_all st build linsolve gradient_x min_wavelength irregular
      direct keep false true (Some false) None 1 s [q; p] = (s, Err TypeError).
Proof. exact bodyless_spoils. Qed.
Print Assumptions solve_all_bodyless_refuted.

(** An engine without cache that fails for one body, and an exact solver of
    1x1 systems. *)
Definition toy_build (s : unit) (k : Model_Solver.bkey) : unit * result (matrix * matrix) :=
  (s, if String.eqb (b_name (key_body k)) "bad" then Err RuntimeError else Ok ([[RtoC 1]], [[RtoC 2]])).
Definition toy_solve (s : unit) (m : matrix) (v : list C) : unit * result (list C) :=
  (s, match m, v with [[a]], [x] => Ok [Cdiv x a] | _, _ => Err ValueError end).
Definition toy_gradient (b : body) (fs h : ext) (k : freq) (v : list C) : result (list C) := Ok v.
Lemma toy_transparent used : transparent unit toy_build toy_solve tt used.
Proof. exists (fun _ => True). repeat split; destruct s; reflexivity. Qed.
(** The failure of the first problem leaves the second one alone. *)
Example solve_all_failure_ex : forall newton immersed gx mw ir, exists p q,
  radiation_problem newton immersed (deep_args (one_panel 0 "bad" (-1) None) 1 0) None = Ok (p, Some "Surge"%string)
  /\ radiation_problem newton immersed (deep_args (one_panel 1 "good" (-1) None) 2 0) None = Ok (q, Some "Surge"%string)
  /\ exists r, snd (solve_all unit toy_build toy_solve gx mw ir false true false true (Some false) None 2 tt
         [Pb Radiation p (Some "Surge"%string); Pb Radiation q (Some "Surge"%string)])
      = Ok [Pres (Pb Radiation p (Some "Surge"%string)) [("Surge"%string, ForceNaN)] None None None (Some RuntimeError); r]
      /\ r_exception r = None.
Proof.
  intros newton immersed gx mw ir.
  destruct (deep_radiation newton immersed 0 "bad" 1 ltac:(lra)) as [p [Ep [Bp [Cp [Dp [Fp [Sp _]]]]]]].
  destruct (deep_radiation newton immersed 1 "good" 2 ltac:(lra)) as [q [Eq [Bq [Cq [Dq [Fq [Sq _]]]]]]].
  exists p, q. split; [auto|]. split; [auto|].
  unfold solve_all. cbn [progress Z.eqb Pos.eqb snd group_for_parallel bind List.length group_by].
  unfold has_key, group_key. cbn [pb_data]. rewrite Bp, Bq, Dp, Dq, Fp, Fq. cbn [b_name one_panel ffloat].
  unfold gkey_eqb. cbn [fst snd String.eqb Ascii.eqb Bool.eqb andb filter negb list_eqb ext_eqb].
  rewrite !Reqb_refl. cbn [andb group_by group_key pb_data fst snd].
  unfold gkey_eqb, group_key. cbn [pb_data]. rewrite Bq, Dq, Fq. cbn [b_name one_panel ffloat].
  cbn [fst snd String.eqb Ascii.eqb Bool.eqb andb filter negb list_eqb ext_eqb].
  rewrite !Reqb_refl. cbn [andb].
  assert (EP : snd (solve_sequential unit toy_build toy_solve gx mw ir false true tt [Pb Radiation p (Some "Surge"%string)])
    = Ok [Pres (Pb Radiation p (Some "Surge"%string)) [("Surge"%string, ForceNaN)] None None None (Some RuntimeError)]).
  { unfold solve_sequential, sorted_problems. cbn [sort_from insert bind solve_list].
    unfold solve_catch, solve. cbn [pb_data]. rewrite Sp, Bp, Reqb_refl.
    unfold make_failed, influenced. cbn [pb_data]. rewrite Bp. reflexivity. }
  assert (EQ : exists r, snd (solve_sequential unit toy_build toy_solve gx mw ir false true tt [Pb Radiation q (Some "Surge"%string)])
    = Ok [r] /\ r_exception r = None).
  { unfold solve_sequential, sorted_problems. cbn [sort_from insert bind solve_list].
    unfold solve_catch, solve. cbn [pb_data]. rewrite Sq, Bq, Reqb_refl, Cq. cbn [negb]. rewrite Fq. eexists. split; reflexivity. }
  destruct EQ as [r [EQ Hr]]. exists r.
  cbn [pb_data]. rewrite ?Bq, ?Dq, ?Fq. cbn [b_name one_panel ffloat ext_eqb]. rewrite ?String.eqb_refl, ?Reqb_refl. cbn [andb].
  cbn [solve_groups]. rewrite EP. cbn [bind].
  rewrite EQ. cbn [bind]. split; [reflexivity|exact Hr].
Qed.
Example solve_all_ex : forall newton immersed, exists p q,
  radiation_problem newton immersed (deep_args (one_panel 0 "b" (-1) None) 1 0) None = Ok (p, Some "Surge"%string)
  /\ radiation_problem newton immersed (deep_args (one_panel 1 "a" (-1) None) 2 0) None = Ok (q, Some "Surge"%string)
  /\ let l := [Pb Radiation p (Some "Surge"%string); Pb Radiation q (Some "Surge"%string)] in
     transparent unit toy_build toy_solve tt (fun _ => True) /\ ordinary (fun _ => True) l /\ no_nan l
     /\ map pb_data l <> [] /\ progress None None = Ok true.
Proof.
  intros. destruct (deep_radiation newton immersed 0 "b" 1 ltac:(lra)) as [p [Ep [Bp [_ [Dp [Fp _]]]]]].
  destruct (deep_radiation newton immersed 1 "a" 2 ltac:(lra)) as [q [Eq [Bq [_ [Dq [Fq _]]]]]].
  exists p, q. split; [auto|]. split; [auto|]. cbv zeta. split; [apply toy_transparent|].
  split; [|split; [|split; [discriminate|reflexivity]]].
  - intros r [<-|[<-|[]]]; (split; [discriminate|]); cbn; eauto.
  - intros r [<-|[<-|[]]]; cbn; rewrite ?Dp, ?Dq, ?Fp, ?Fq; cbn; split; discriminate.
Qed.

(** ** C10: order of the results *)
Theorem solve_all_input_order_refuted :
  forall newton immersed gradient_x min_wavelength irregular, exists i j p q,
    radiation_problem newton immersed i None = Ok (p, Some "Surge"%string)
    /\ radiation_problem newton immersed j None = Ok (q, Some "Surge"%string)
    /\ let l := [Pb Radiation p (Some "Surge"%string); Pb Radiation q (Some "Surge"%string)] in
       exists rs, snd (solve_all unit toy_build toy_solve gradient_x min_wavelength irregular
                         false true false true (Some false) None 1 tt l) = Ok rs
         /\ map r_problem rs = rev l /\ rev l <> l.
Proof.
  intros newton immersed gx mw ir.
  destruct (deep_radiation newton immersed 0 "b" 1 ltac:(lra)) as [p [Ep [Bp _]]].
  destruct (deep_radiation newton immersed 1 "a" 2 ltac:(lra)) as [q [Eq [Bq _]]].
  do 2 eexists. exists p, q. split; [exact Ep|]. split; [exact Eq|]. cbv zeta.
  set (P := Pb Radiation p (Some "Surge"%string)). set (Q := Pb Radiation q (Some "Surge"%string)).
  assert (O : ordinary (fun _ => True) [P; Q]).
  { intros r [<-|[<-|[]]]; (split; [discriminate|]); cbn; eauto. }
  destruct (sequential_alone unit toy_build toy_solve gx mw ir tt (fun _ => True)
              (toy_transparent _) false true [P; Q] O) as [l' [El [_ Es]]].
  assert (l' = [Q; P]) as ->.
  { unfold sorted_problems in El. cbn [sort_from insert bind pb_data Q P] in El.
    rewrite (names_ordered q p (one_panel 1 "a" (-1) None) (one_panel 0 "b" (-1) None)) in El
      by (try reflexivity; auto; cbn; discriminate).
    cbn [bind sort_from] in El. injection El as <-. reflexivity. }
  eexists. split; [exact Es|]. split.
  - unfold alone. cbn [map]. rewrite !alone_problem. reflexivity.
  - cbn. intros E. apply (f_equal (map (fun x => p_body (pb_data x)))) in E. cbn in E. rewrite Bp, Bq in E. discriminate.
Qed.
Print Assumptions solve_all_input_order_refuted.
(** With one job, the results follow the sorted problems... *)
Theorem solve_all_sorted_order :
  forall st build linsolve gradient_x min_wavelength irregular (s0 : st) used direct keep l,
    transparent st build linsolve s0 used -> ordinary used l ->
    exists l', sorted_problems l = Ok l' /\ Permutation l l'
      /\ snd (solve_sequential st build linsolve gradient_x min_wavelength irregular direct keep s0 l)
         = Ok (map (fun p => result_or_failure p
             (snd (solve st build linsolve gradient_x min_wavelength irregular direct keep false s0 p))) l').
Proof.
  exact (fun st build linsolve gradient_x min_wavelength irregular s0 used direct keep l T =>
    sequential_alone st build linsolve gradient_x min_wavelength irregular s0 used T direct keep l).
Qed.
Print Assumptions solve_all_sorted_order.
(** ... hence the input order if no problem is smaller than an earlier one. *)
Theorem solve_all_input_order_partial :
  forall st build linsolve gradient_x min_wavelength irregular (s0 : st) used direct keep bar env l b,
    transparent st build linsolve s0 used -> ordinary used l -> progress bar env = Ok b ->
    ForallOrdPairs (fun q p => problem_ltb (pb_data p) (pb_data q) = Ok false) l ->
    snd (solve_all st build linsolve gradient_x min_wavelength irregular direct keep false true bar env 1 s0 l)
    = Ok (map (fun p => result_or_failure p
        (snd (solve st build linsolve gradient_x min_wavelength irregular direct keep false s0 p))) l).
Proof.
  exact (fun st build linsolve gradient_x min_wavelength irregular s0 used direct keep bar env l b T =>
    all_in_order st build linsolve gradient_x min_wavelength irregular s0 used T direct keep bar env l b).
Qed.
Print Assumptions solve_all_input_order_partial.
Example solve_all_input_order_ex : forall newton immersed, exists p q,
  radiation_problem newton immersed (deep_args (one_panel 0 "a" (-1) None) 1 0) None = Ok (p, Some "Surge"%string)
  /\ radiation_problem newton immersed (deep_args (one_panel 1 "b" (-1) None) 2 0) None = Ok (q, Some "Surge"%string)
  /\ ForallOrdPairs (fun q p => problem_ltb (pb_data p) (pb_data q) = Ok false)
       [Pb Radiation p (Some "Surge"%string); Pb Radiation q (Some "Surge"%string)].
Proof.
  intros. destruct (deep_radiation newton immersed 0 "a" 1 ltac:(lra)) as [p [Ep [Bp _]]].
  destruct (deep_radiation newton immersed 1 "b" 2 ltac:(lra)) as [q [Eq [Bq _]]].
  exists p, q. split; [auto|]. split; [auto|].
  repeat constructor. cbn [pb_data]. unfold problem_ltb. rewrite Bp, Bq. reflexivity.
Qed.

(** ** C51: what a result contains *)
(** Indirect method, no forward speed, finite frequency: the sources solve the
    linear system of the boundary condition, the potential is their image by
    [S], the pressure is [j omega rho phi] and the forces integrate it on the hull. *)
Theorem solve_indirect_equations :
  forall st build linsolve gradient_x min_wavelength irregular keep check (s s' : st) p r w l,
    solve st build linsolve gradient_x min_wavelength irregular false keep check s p = (s', Ok r) ->
    (forall s m v s' x, linsolve s m v = (s', Ok x) -> mat_vec m x = v) ->
    p_speed (pb_data p) = 0 -> f_omega (p_freqs (pb_data p)) = FVal (Fin w) ->
    p_bc (pb_data p) = Some (BC l) ->
    exists b S K x, p_body (pb_data p) = Some b
      /\ snd (build s (b, p_fs (pb_data p), p_depth (pb_data p),
                       f_wavenumber (p_freqs (pb_data p)), true)) = Ok (S, K)
      /\ mat_vec K x = l
      /\ let pressure := map (fun c => (Ci * RtoC w * RtoC (p_rho (pb_data p)) * c)%C) (mat_vec S x) in
         r_forces r = map (fun nd => (fst nd, Force (CFl
           (integrate_dof b (snd nd) (firstn (nb_faces b) pressure))))) (b_dofs b)
      /\ (keep = true -> r_sources r = Some (SV [] x) /\ r_potential r = Some (SV [] (mat_vec S x))
                         /\ r_pressure r = Some (SV [] pressure)).
Proof.
  intros until l. intros H HL HS HW HB. apply solve_indirect in H.
  destruct H as [b [bc [S [K [s1 [x [po [pr [E1 [E2 H]]]]]]]]]]. cbv zeta in H.
  rewrite HS, Reqb_refl in H.
  destruct H as [E3 [E4 [_ [-> [E6 [_ [_ [_ [E7 E8]]]]]]]]].
  rewrite HB in E2. injection E2 as <-. cbn [sv_of_bc sv_symbols sv_values] in *.
  rewrite HW in E6. cbn [sv_pressure sv_symbols sv_values] in E6. injection E6 as <-.
  exists b, S, K, x. split; [auto|]. split; [rewrite E3; reflexivity|].
  split; [apply (HL _ _ _ _ _ E4)|]. split; [|exact E8].
  rewrite E7. unfold forces_of, integrate_pressure. cbn [sv_symbols sv_values]. rewrite map_map. reflexivity.
Qed.
Print Assumptions solve_indirect_equations.
(** Direct method: the potential solves [D phi = S bc]. *)
Theorem solve_direct_equations :
  forall st build linsolve gradient_x min_wavelength irregular keep check (s s' : st) p r w l,
    solve st build linsolve gradient_x min_wavelength irregular true keep check s p = (s', Ok r) ->
    (forall s m v s' x, linsolve s m v = (s', Ok x) -> mat_vec m x = v) ->
    f_omega (p_freqs (pb_data p)) = FVal (Fin w) -> p_bc (pb_data p) = Some (BC l) ->
    exists b S D phi, p_body (pb_data p) = Some b /\ p_speed (pb_data p) = 0
      /\ snd (build s (b, p_fs (pb_data p), p_depth (pb_data p),
                       f_wavenumber (p_freqs (pb_data p)), false)) = Ok (S, D)
      /\ mat_vec D phi = mat_vec S l
      /\ let pressure := map (fun c => (Ci * RtoC w * RtoC (p_rho (pb_data p)) * c)%C) phi in
         r_forces r = map (fun nd => (fst nd, Force (CFl
           (integrate_dof b (snd nd) (firstn (nb_faces b) pressure))))) (b_dofs b)
      /\ (keep = true -> r_sources r = None /\ r_potential r = Some (SV [] phi)
                         /\ r_pressure r = Some (SV [] pressure)).
Proof.
  intros until l. intros H HL HW HB. apply solve_direct in H.
  destruct H as [b [bc [S [D [s1 [x [pr [E0 [E1 [E2 [E3 [E4 [_ [E6 [_ [_ [_ [E7 E8]]]]]]]]]]]]]]]]]].
  rewrite HB in E2. injection E2 as <-. cbn [sv_of_bc sv_symbols sv_values] in *.
  rewrite HW in E6. cbn [sv_pressure sv_symbols sv_values] in E6. injection E6 as <-.
  exists b, S, D, x. split; [auto|]. split; [auto|]. split; [rewrite E3; reflexivity|].
  split; [apply (HL _ _ _ _ _ E4)|]. split; [|exact E8].
  rewrite E7. unfold forces_of, integrate_pressure. cbn [sv_symbols sv_values]. rewrite map_map. reflexivity.
Qed.
Print Assumptions solve_direct_equations.
(** With forward speed the encounter frequency is used and the pressure gets
    the term [rho U dphi/dx]. *)
Theorem solve_speed_equations :
  forall st build linsolve gradient_x min_wavelength irregular keep check (s s' : st) p r w l,
    solve st build linsolve gradient_x min_wavelength irregular false keep check s p = (s', Ok r) ->
    (forall s m v s' x, linsolve s m v = (s', Ok x) -> mat_vec m x = v) ->
    p_speed (pb_data p) <> 0 -> f_omega (p_enc (pb_data p)) = FVal (Fin w) ->
    p_bc (pb_data p) = Some (BC l) ->
    exists b S K x gx, p_body (pb_data p) = Some b
      /\ snd (build s (b, p_fs (pb_data p), p_depth (pb_data p),
                       f_wavenumber (p_enc (pb_data p)), true)) = Ok (S, K)
      /\ mat_vec K x = l
      /\ gradient_x b (p_fs (pb_data p)) (p_depth (pb_data p)) (f_wavenumber (p_enc (pb_data p))) x = Ok gx
      /\ let pressure := map2 Cplus
            (map (fun c => (Ci * RtoC w * RtoC (p_rho (pb_data p)) * c)%C) (mat_vec S x))
            (map (fun c => (RtoC (p_rho (pb_data p)) * RtoC (p_speed (pb_data p)) * c)%C) gx) in
         r_forces r = map (fun nd => (fst nd, Force (CFl
           (integrate_dof b (snd nd) (firstn (nb_faces b) pressure))))) (b_dofs b)
      /\ (keep = true -> r_sources r = Some (SV [] x) /\ r_potential r = Some (SV [] (mat_vec S x))
                         /\ r_pressure r = Some (SV [] pressure)).
Proof.
  intros until l. intros H HL HS HW HB. apply solve_indirect in H.
  destruct H as [b [bc [S [K [s1 [x [po [pr [E1 [E2 H]]]]]]]]]]. cbv zeta in H.
  rewrite (Reqb_false _ _ HS) in H.
  destruct H as [E3 [E4 [_ [-> [[pr0 [gx [E6 [E9 ->]]]] [_ [_ [_ [E7 E8]]]]]]]]].
  rewrite HB in E2. injection E2 as <-. cbn [sv_of_bc sv_symbols sv_values] in *.
  rewrite HW in E6. cbn [sv_pressure sv_symbols sv_values] in E6. injection E6 as <-.
  unfold add_speed_term in *. cbn [concrete sv_symbols sv_values] in *.
  exists b, S, K, x, gx. split; [auto|]. split; [rewrite E3; reflexivity|].
  split; [apply (HL _ _ _ _ _ E4)|]. split; [auto|]. split; [|exact E8].
  rewrite E7. unfold forces_of, integrate_pressure. cbn [sv_symbols sv_values]. rewrite map_map. reflexivity.
Qed.
Print Assumptions solve_speed_equations.
(** When the encounter frequency is zero only that term is left. *)
Theorem solve_speed_zero_encounter :
  forall st build linsolve gradient_x min_wavelength irregular keep check (s s' : st) p r l,
    solve st build linsolve gradient_x min_wavelength irregular false keep check s p = (s', Ok r) ->
    (forall s m v s' x, linsolve s m v = (s', Ok x) -> mat_vec m x = v) ->
    p_speed (pb_data p) <> 0 -> f_omega (p_enc (pb_data p)) = FZero ->
    p_bc (pb_data p) = Some (BC l) ->
    exists b S K x gx, p_body (pb_data p) = Some b
      /\ snd (build s (b, p_fs (pb_data p), p_depth (pb_data p),
                       f_wavenumber (p_enc (pb_data p)), true)) = Ok (S, K)
      /\ mat_vec K x = l
      /\ gradient_x b (p_fs (pb_data p)) (p_depth (pb_data p)) (f_wavenumber (p_enc (pb_data p))) x = Ok gx
      /\ let pressure := map2 (fun _ g => (RtoC (p_rho (pb_data p)) * RtoC (p_speed (pb_data p)) * g)%C) (mat_vec S x) gx in
         r_forces r = map (fun nd => (fst nd, Force (CFl
           (integrate_dof b (snd nd) (firstn (nb_faces b) pressure))))) (b_dofs b).
Proof.
  intros until l. intros H HL HS HW HB. apply solve_indirect in H.
  destruct H as [b [bc [S [K [s1 [x [po [pr [E1 [E2 H]]]]]]]]]]. cbv zeta in H.
  rewrite (Reqb_false _ _ HS) in H.
  destruct H as [E3 [E4 [_ [-> [[pr0 [gx [E6 [E9 ->]]]] [_ [_ [_ [E7 _]]]]]]]]].
  rewrite HB in E2. injection E2 as <-. cbn [sv_of_bc sv_symbols sv_values] in *.
  rewrite HW in E6. cbn [sv_pressure sv_symbols sv_values limit_symbol app] in E6. injection E6 as <-.
  exists b, S, K, x, gx. split; [auto|]. split; [rewrite E3; reflexivity|].
  split; [apply (HL _ _ _ _ _ E4)|]. split; [auto|]. cbv zeta.
  rewrite E7. unfold forces_of, integrate_pressure, add_speed_term, concrete. cbn [sv_symbols sv_values]. rewrite map_map. cbn [fst snd cnum_of fold_right].
  apply map_ext. intros nd. do 3 f_equal. f_equal. f_equal. rewrite map_map. generalize (mat_vec S x) as v. clear. intros v. revert gx.
  induction v as [|c v IH]; intros [|g gx]; cbn; try reflexivity. now rewrite IH, Cplus_0_l.
Qed.
Print Assumptions solve_speed_zero_encounter.
(** The direct method refuses forward speed; a missing body is an error. *)
Theorem solve_errors :
  forall st build linsolve gradient_x min_wavelength irregular keep (s : st) p,
    (p_speed (pb_data p) <> 0 ->
     solve st build linsolve gradient_x min_wavelength irregular true keep false s p = (s, Err NotImplementedError))
    /\ (p_body (pb_data p) = None ->
     solve st build linsolve gradient_x min_wavelength irregular false keep false s p = (s, Err AttributeError)).
Proof.
  intros. unfold solve. split; intros H.
  - rewrite (Reqb_false _ _ H). reflexivity.
  - rewrite H. reflexivity.
Qed.
Print Assumptions solve_errors.
Example solve_ex : forall newton immersed gx mw ir, exists p r,
  radiation_problem newton immersed (deep_args (one_panel 0 "a" (-1) None) 1 0) None = Ok (p, Some "Surge"%string)
  /\ solve unit toy_build toy_solve gx mw ir false true false tt (Pb Radiation p (Some "Surge"%string)) = (tt, Ok r).
Proof.
  intros. unfold radiation_problem. rewrite deep_generic by lra. cbn [bind p_body].
  cbn [one_panel b_dofs assoc String.eqb Ascii.eqb Bool.eqb].
  unfold dof_dot_n. cbn [one_panel b_normals List.length dof_shape_ok row forallb Nat.eqb andb bind map2].
  cbn [p_enc f_omega motion_bc bind p_speed]. rewrite Reqb_refl. cbn [bind append_lid b_lid].
  do 2 eexists. split; [reflexivity|]. unfold solve. cbn [pb_data with_bc p_speed p_body p_bc andb].
  rewrite Reqb_refl. cbn [negb andb]. reflexivity.
Qed.
(** A body as fast as the waves behind it: deep water, [omega = 1], [g = 4], speed 4. *)
Example solve_speed_zero_encounter_ex : forall newton immersed mw ir, exists p r l,
  diffraction_problem newton immersed
    {| i_body := Some (one_panel 0 "a" (-1) None); i_fs := Fin 0; i_water_depth := None; i_sea_bottom := None;
       i_omega := Some (Fin 1); i_period := None; i_wavenumber := None; i_wavelength := None;
       i_speed := 4; i_rho := 1000; i_g := 4; i_dir := 0 |} = Ok p
  /\ p_speed p <> 0 /\ f_omega (p_enc p) = FZero /\ p_bc p = Some (BC l)
  /\ solve unit toy_build toy_solve (fun _ _ _ _ x => Ok x) mw ir false true false tt (Pb Diffraction p None) = (tt, Ok r).
Proof.
  intros. unfold diffraction_problem, generic_problem.
  cbn [i_fs i_water_depth i_sea_bottom get_water_depth bind i_omega i_period i_wavenumber i_wavelength i_g i_speed i_body i_rho i_dir].
  unfold get_frequencies at 1. cbn [provided app]. unfold frequencies_from. cbn [ext_eqb is_omega_k andb orb negb ext_mul].
  rewrite (Reqb_false 1 0) by lra. unfold two_pi. rewrite (np_div_fin (1 * 1) 4), (np_div_fin (2 * PI) 1) by lra. cbn [andb orb bind].
  rewrite np_div_fin by lra. cbn [bind].
  unfold check_data. cbn [ext_eqb f_omega ffloat ext_ltb]. rewrite Reqb_refl. unfold is_limit. cbn [ext_eqb].
  rewrite !(Reqb_false 1 0) by lra. cbn [orb negb andb]. unfold check_body. cbn [nb_faces b_centers one_panel List.length Nat.eqb].
  unfold check_dofs. cbn [b_dofs forallb snd one_panel].
  change (dof_shape_ok (nb_faces (one_panel 0 "a" (-1) None)) [row 1 0 0]) with true. cbn [andb bind].
  assert (A : existsb (above_fs (Fin 0)) [V 0 0 (-1)] || existsb (below_sb PInf) [V 0 0 (-1)] = false).
  { cbn [existsb]. unfold above_fs, below_sb. cbn [ext_add vz ext_leb ext_opp]. unfold Rleb.
    destruct (Rle_dec _ _) as [L|]; [|reflexivity]. exfalso.
    assert (0 < / 10 ^ 8) by (apply Rinv_0_lt_compat, pow_lt; lra). lra. }
  rewrite A. cbn [bind check_bc].
  unfold encounter. rewrite (Reqb_false 4 0) by lra. unfold doppler.
  cbn [f_omega f_wavenumber ffloat ext_mul ext_sub ext_opp ext_add np_abs]. rewrite cos_0.
  replace (1 + - (1 * 1 / 4 * 4 * 1)) with 0 by field. rewrite Rabs_R0.
  unfold get_frequencies. cbn [provided app]. unfold frequencies_from. cbn [ext_eqb is_omega_k andb orb negb].
  rewrite !Reqb_refl. cbn [andb orb bind ext_leb p_freqs f_omega ffloat is_limit]. unfold is_limit. cbn [ext_eqb]. rewrite (Reqb_false 1 0) by lra.
  cbn [orb p_body]. unfold wave_of. cbn [p_freqs f_omega f_wavenumber].
  eexists _, _, _. split; [reflexivity|]. cbn [with_bc p_speed p_enc fst f_omega p_bc append_lid b_lid one_panel bind].
  split; [lra|]. split; [reflexivity|]. split; [reflexivity|].
  unfold solve. cbn [pb_data with_bc p_speed p_body p_bc andb]. rewrite (Reqb_false 4 0) by lra. reflexivity.
Qed.
