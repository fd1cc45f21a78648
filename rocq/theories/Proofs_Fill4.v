(** [fill_dataset] succeeds. *)
From Coq Require Import Reals.
From Coquelicot Require Import Complex.
From Coq Require Import String Ascii List Bool ZArith Lra Lia Permutation.
From Verif Require Import Model_Base Model_Mesh Model_Symbolic Model_Problem Spec_Problem Model_Results Model_Solver Spec_Solver Proofs_Problem Proofs_Problem3
  Proofs_Solver Proofs_Solver2 Model_TestMatrix Spec_TestMatrix Proofs_TestMatrix Model_Dataset Spec_Dataset Proofs_Dataset Proofs_Dataset2 Proofs_Dataset3
  Proofs_Bemio Model_Fill Spec_Fill Proofs_Fill Proofs_Fill2 Proofs_Fill3.
Import ListNotations.
Open Scope R_scope.

Section Read.
  Variable newton : ext -> ext -> result ext.
  Variable immersed : body -> ext -> ext -> result body.
  Notation built := (built_as newton immersed).
  Variable st : Type.
  Variable build : st -> bkey -> st * result (matrix * matrix).
  Variable linsolve : st -> matrix -> list C -> st * result (list C).
  Variable gradient_x : body -> ext -> ext -> freq -> list C -> result (list C).
  Variable min_wavelength : body -> result ext.
  Variable irregular : body -> R -> result ext.
  Notation solve := (solve st build linsolve gradient_x min_wavelength irregular).
  Notation alone := (alone st build linsolve gradient_x min_wavelength irregular).

  Lemma generic_encounter i p : generic_problem newton immersed i None = Ok p -> p_speed p = 0 -> p_enc p = p_freqs p.
  Proof.
    unfold generic_problem. intros H E.
    match type of H with bind ?X _ = _ => destruct X as [d|]; cbn [bind] in H; [|discriminate] end.
    match type of H with bind ?X _ = _ => destruct X as [f|]; cbn [bind] in H; [|discriminate] end.
    match type of H with bind ?X _ = _ => destruct X as [ob|]; cbn [bind] in H; [|discriminate] end.
    match type of H with bind ?X _ = _ => destruct X as [ed|] eqn:Ee; cbn [bind] in H; [|discriminate] end.
    injection H as <-. cbn [p_speed p_enc p_freqs] in *. unfold encounter in Ee. rewrite E, Reqb_refl in Ee. now injection Ee as <-.
  Qed.
  Lemma built_generic_all q p : built q p -> exists p0, generic_problem newton immersed (call q) None = Ok p0 /\ p_body (pb_data p) = p_body p0
    /\ p_enc (pb_data p) = p_enc p0 /\ p_freqs (pb_data p) = p_freqs p0 /\ p_speed (pb_data p) = p_speed p0.
  Proof.
    unfold built_as. destruct (q_dof q) as [dof|]; intros (d & Hd & ->); cbn [pb_data].
    - unfold radiation_problem in Hd. destruct (generic_problem newton immersed (call q) None) as [p0|]; cbn [bind] in Hd; [|discriminate].
      exists p0. split; [reflexivity|]. destruct (p_body p0) as [b|] eqn:Eb; [|now injection Hd as <-].
      destruct (b_dofs b) as [|[first z] l] eqn:El; [discriminate|]. cbv zeta beta iota in Hd.
      destruct (assoc dof _) as [d'|]; [|discriminate].
      destruct (dof_dot_n d' b); cbn [bind] in Hd; [|discriminate].
      destruct (motion_bc _ _); cbn [bind] in Hd; [|discriminate].
      match type of Hd with bind ?X _ = _ => destruct X; cbn [bind] in Hd; [|discriminate] end.
      destruct (append_lid _ _); cbn [bind] in Hd; [|discriminate].
      injection Hd as <-. repeat split. exact Eb.
    - unfold diffraction_problem in Hd. destruct (generic_problem newton immersed (call q) None) as [p0|]; cbn [bind] in Hd; [|discriminate].
      exists p0. split; [reflexivity|]. destruct (is_limit _); [discriminate|]. destruct (p_body p0) as [b|] eqn:Eb; [|injection Hd as <-; rewrite Eb; auto].
      destruct (wave_of p0); [|discriminate]. injection Hd as <-. repeat split. exact Eb.
  Qed.
  Lemma built_encounter q p : built q p -> p_speed (pb_data p) = 0 -> p_enc (pb_data p) = p_freqs (pb_data p).
  Proof.
    intros B E. destruct (built_generic_all q p B) as (p0 & G & _ & E1 & E2 & E3). rewrite E1, E2. apply (generic_encounter _ _ G). congruence.
  Qed.

  (** The forces of a solved problem. *)
  Lemma alone_forces direct keep s p b : p_body (pb_data p) = Some b ->
    r_forces (alone s direct keep p) = map (fun n => (n, ForceNaN)) (map fst (b_dofs b))
    \/ exists pr, r_forces (alone s direct keep p) = forces_of b pr /\
       exists bc pr0, p_bc (pb_data p) = Some bc /\
       ((p_speed (pb_data p) = 0 /\ sv_symbols pr = sv_symbols pr0 /\ exists v, sv_pressure (f_omega (p_freqs (pb_data p))) (p_rho (pb_data p)) (SV (sv_symbols (sv_of_bc bc)) v) = Some pr0)
        \/ (sv_symbols pr = sv_symbols (concrete pr0) /\ exists v, sv_pressure (f_omega (p_enc (pb_data p))) (p_rho (pb_data p)) (SV (sv_symbols (sv_of_bc bc)) v) = Some pr0)).
  Proof.
    intros Eb. unfold Proofs_Fill2.alone. destruct (solve direct keep false s p) as [s' [r|e]] eqn:E; cbn [snd result_or_failure].
    - right. destruct direct.
      + destruct (solve_direct _ _ _ _ _ _ _ _ _ _ _ _ E) as (b' & bc & MS & D & s1 & x & pr & E0 & E1 & E2 & _ & _ & _ & E3 & _ & _ & _ & E4 & _).
        replace b' with b in * by congruence. exists pr. split; [assumption|]. exists bc, pr. split; [assumption|]. left. eauto.
      + destruct (solve_indirect _ _ _ _ _ _ _ _ _ _ _ _ E) as (b' & bc & MS & K & s1 & x & po & pr & E1 & E2 & E3).
        cbv zeta in E3. destruct E3 as (_ & _ & _ & -> & E3 & _ & _ & _ & E4 & _). replace b' with b in * by congruence.
        exists pr. split; [assumption|]. destruct (Reqb (p_speed (pb_data p)) 0) eqn:Er.
        * apply Reqb_true in Er. exists bc, pr. split; [assumption|]. left. eauto.
        * destruct E3 as (pr0 & gx & E3 & _ & ->). exists bc, pr0. split; [assumption|]. right. split; [reflexivity|]. eauto.
    - left. cbn [r_forces]. unfold influenced. now rewrite Eb.
  Qed.

  (** Every result can be written in the dataset. *)
  Lemma read_total direct keep s q p : built q p -> f_omega (p_enc (pb_data p)) <> FVal (Fin 0) -> exists x, read_result (alone s direct keep p) = Ok x.
  Proof.
    intros B N. destruct (built_body newton immersed q p B) as [b Eb].
    destruct (alone_forces direct keep s p b Eb) as [F|(pr & F & bc & pr0 & Ebc & D)].
    - unfold read_result. assert (RP : r_problem (alone s direct keep p) = p) by apply alone_problem. rewrite RP, F, Eb. cbv zeta.
      destruct (pb_kind p) eqn:K.
      + unfold built_as in B. destruct (q_dof q); destruct B as (d & _ & ->); discriminate.
      + unfold froude_krylov_force. rewrite Eb. destruct (built_wave newton immersed q p) as [w Ew]; [|assumption|].
        * unfold built_as in B. destruct (q_dof q); [|reflexivity]. destruct B as (d & _ & ->). discriminate.
        * rewrite Ew. cbn [bind]. rewrite known_nan. eauto.
      + destruct (q_dof q) as [dof|] eqn:Ed.
        * destruct (built_radiation_bc newton immersed q p dof Ed B) as (c & om & _ & Eom & C). rewrite Eom in *.
          assert (G : match om with FVal (Fin x) => x <> 0 | FVal _ => False | _ => True end).
          { destruct om as [| |[x| | |]]; try easy. intros ->. now apply N. }
          destruct (nan_total om (p_speed (pb_data p)) G) as [[x1 X1] [x2 X2]].
          destruct (mapM_forces (mass_entry om) (map (fun n => (n, ForceNaN)) (map fst (b_dofs b)))) as [l1 L1].
          { intros n f Hf. apply in_map_iff in Hf. destruct Hf as (m & Hf & _). replace f with ForceNaN by congruence. eauto. }
          destruct (mapM_forces (damping_entry om (p_speed (pb_data p))) (map (fun n => (n, ForceNaN)) (map fst (b_dofs b)))) as [l2 L2].
          { intros n f Hf. apply in_map_iff in Hf. destruct Hf as (m & Hf & _). replace f with ForceNaN by congruence. eauto. }
          rewrite L1. cbn [bind]. rewrite L2. cbn [bind]. rewrite known_nan. eauto.
        * unfold built_as in B. rewrite Ed in B. destruct B as (d & _ & ->). discriminate.
    - unfold read_result. assert (RP : r_problem (alone s direct keep p) = p) by apply alone_problem. rewrite RP, F, Eb. cbv zeta.
      destruct (pb_kind p) eqn:K.
      + unfold built_as in B. destruct (q_dof q); destruct B as (d & _ & ->); discriminate.
      + unfold froude_krylov_force. rewrite Eb. destruct (built_wave newton immersed q p) as [w Ew]; [|assumption|].
        * unfold built_as in B. destruct (q_dof q); [|reflexivity]. destruct B as (d & _ & ->). discriminate.
        * rewrite Ew. cbn [bind]. rewrite known_all. eauto.
      + destruct (q_dof q) as [dof|] eqn:Ed.
        * destruct (built_radiation_bc newton immersed q p dof Ed B) as (c & om & Ec & Eom & C). rewrite Eom in *.
          replace bc with c in * by congruence.
          assert (G : symbols_ok om (sv_symbols pr)).
          { assert (D' : exists v, sv_pressure om (p_rho (pb_data p)) (SV (sv_symbols (sv_of_bc c)) v) = Some pr0 /\ (sv_symbols pr = sv_symbols pr0 \/ sv_symbols pr = sv_symbols (concrete pr0))).
            { destruct D as [(E0 & E1 & v & E2)|(E1 & v & E2)]; exists v; [|tauto].
              rewrite <- (built_encounter q p B E0), Eom in E2. tauto. }
            clear D. destruct D' as (v & E2 & E1). unfold symbols_ok.
            destruct om as [| |[x| | |]]; cbn [sv_pressure limit_symbol app] in E2; try discriminate; injection E2 as <-; cbn [sv_symbols] in *.
            - cbn [limit_symbol app] in *. unfold concrete in E1. cbn [sv_symbols] in E1.
              destruct C as [C|C]; rewrite C in E1; tauto.
            - cbn [limit_symbol app] in *. unfold concrete in E1. cbn [sv_symbols] in E1.
              destruct C as [C|C]; rewrite C in E1; tauto.
            - split; [intros ->; now apply N|]. rewrite C in E1. unfold concrete in E1. cbn [sv_symbols] in E1. tauto. }
          destruct (mapM_forces (mass_entry om) (forces_of b pr)) as [l1 L1].
          { intros n f Hf. unfold forces_of in Hf. apply in_map_iff in Hf. destruct Hf as ([m y] & Hf & _). injection Hf as _ <-. now apply mass_total. }
          destruct (mapM_forces (damping_entry om (p_speed (pb_data p))) (forces_of b pr)) as [l2 L2].
          { intros n f Hf. unfold forces_of in Hf. apply in_map_iff in Hf. destruct Hf as ([m y] & Hf & _). injection Hf as _ <-. now apply damping_total. }
          rewrite L1. cbn [bind]. rewrite L2. cbn [bind]. rewrite known_all. eauto.
        * unfold built_as in B. rewrite Ed in B. destruct B as (d & _ & ->). discriminate.
  Qed.
End Read.

Section Success.
  Variable newton : ext -> ext -> result ext.
  Variable immersed : body -> ext -> ext -> result body.
  Hypothesis names : keeps_names immersed.
  Variable st : Type.
  Variable build : st -> bkey -> st * result (matrix * matrix).
  Variable linsolve : st -> matrix -> list C -> st * result (list C).
  Variable gradient_x : body -> ext -> ext -> freq -> list C -> result (list C).
  Variable min_wavelength : body -> result ext.
  Variable irregular : body -> R -> result ext.
  Variable arrange : column -> list value -> list value.
  Hypothesis arranged : forall c l, Permutation l (arrange c l).
  Variable s0 : st.
  Variable used : body -> Prop.
  Hypothesis clear : transparent st build linsolve s0 used.
  Variable m : test_matrix.
  Variable bodies : list body.
  Notation built := (built_as newton immersed).
  Hypothesis known : forall q p b, wanted m bodies q -> built q p -> p_body (pb_data p) = Some b -> used b.
  Notation all := (solve_all st build linsolve gradient_x min_wavelength irregular).
  Notation alone := (alone st build linsolve gradient_x min_wavelength irregular s0).
  Variables (direct check joblib : bool) (env : option string) (n_jobs : Z) (kwargs : list string) (thetas : option (list R)).
  Notation fill := (fill_dataset newton immersed st build linsolve gradient_x min_wavelength irregular arrange direct check joblib env n_jobs kwargs s0 m thetas bodies).
  Hypothesis numbers : n_jobs <> 1%Z -> joblib = true /\ forall q p, wanted m bodies q -> built q p -> p_depth (pb_data p) <> NaN /\ ffloat (f_omega (p_freqs (pb_data p))) <> NaN.
  Variable ps : list pb.
  Hypothesis made : problems_from_dataset newton immersed m bodies = Ok ps.
  Hypothesis some : exists q, wanted m bodies q.
  Hypothesis moves : forall q p, wanted m bodies q -> built q p -> f_omega (p_enc (pb_data p)) <> FVal (Fin 0).

  Definition checks_pass : Prop := forall b g, used b -> (exists x, min_wavelength b = Ok x) /\ (exists x, irregular b g = Ok x).

  Lemma check_each_ok f l : (forall p, In p l -> f p = Ok tt) -> check_each f l = Ok tt.
  Proof. induction l as [|p l IH]; intros H; [reflexivity|]. cbn [check_each]. rewrite H by now left. cbn [bind]. apply IH. intros; apply H; now right. Qed.

  Lemma with_request (f : request -> request) : (forall q, wanted m bodies q -> wanted m bodies (f q)) -> forall q, wanted m bodies q -> exists p, built (f q) p /\ In p ps.
  Proof. intros H q W. apply (problems_both newton immersed m bodies ps made). auto. Qed.

  (** The shared parameters of the diffraction problems take the values they take in the radiation problems. *)
  Definition exchange (c : column) (q q' : request) : request :=
    Request (q_dof q') (q_type q') (q_freq q') (q_dir q')
      (match c with WaterDepth => q_depth q | _ => q_depth q' end) (match c with BodyName => q_body q | _ => q_body q' end)
      (match c with ForwardSpeed => q_speed q | _ => q_speed q' end) (match c with Rho => q_rho q | _ => q_rho q' end) (match c with Gravity => q_g q | _ => q_g q' end).
  Lemma exchange_wanted c q q' : q_dof q' = None -> wanted m bodies q -> wanted m bodies q' -> wanted m bodies (exchange c q q').
  Proof.
    intros D (W1 & W2 & W3 & W4 & W5 & W6 & W7 & _) (V1 & V2 & V3 & V4 & V5 & V6 & V7 & V8). rewrite D in V8.
    unfold wanted, exchange. cbn [q_type q_freq q_depth q_rho q_g q_speed q_body q_dof q_dir]. rewrite D.
    split; [assumption|]. split; [destruct c; assumption|]. split; [destruct c; assumption|]. split; [destruct c; assumption|].
    split; [destruct c; assumption|]. split; [destruct c; assumption|]. split; [destruct c; assumption|]. assumption.
  Qed.
  Lemma exchange_label c q q' i j : In c [Gravity; Rho; BodyName; WaterDepth; ForwardSpeed] -> label (exchange c q q') i c = label q j c.
  Proof. cbn [In]. intros [<-|[<-|[<-|[<-|[<-|[]]]]]]; reflexivity. Qed.
  Definition relocate (q q' : request) : request :=
    Request (q_dof q) (q_type q) (q_freq q) (q_dir q) (q_depth q') (q_body q') (q_speed q) (q_rho q) (q_g q).
  Lemma relocate_wanted q q' : wanted m bodies q -> wanted m bodies q' -> wanted m bodies (relocate q q').
  Proof.
    intros (W1 & W2 & W3 & W4 & W5 & W6 & W7 & W8) (V1 & V2 & V3 & V4 & V5 & V6 & V7 & _).
    unfold wanted, relocate. cbn [q_type q_freq q_depth q_rho q_g q_speed q_body q_dof q_dir]. tauto.
  Qed.

  Lemma all_solved b0 : progress None env = Ok b0 -> (check = true -> checks_pass) ->
    exists s' rs, all direct (keep thetas) check joblib None env n_jobs s0 ps = (s', Ok rs) /\ Permutation rs (map (alone direct (keep thetas)) ps).
  Proof.
    intros Pb Ck.
    assert (O : ordinary used ps) by exact (built_ordinary newton immersed names used m bodies known ps made).
    assert (NE : ps <> []).
    { destruct some as [q W]. destruct (proj2 (problems_both newton immersed m bodies ps made) q W) as (p & _ & Hp). intros ->. contradiction. }
    destruct (all_alone st build linsolve gradient_x min_wavelength irregular s0 used clear direct (keep thetas) None env n_jobs ps b0 O Pb) as (rs & E & P).
    { destruct (Z.eq_dec n_jobs 1); [now left|right]. split; [assumption|]. intros p Hp.
      destruct (proj1 (problems_both newton immersed m bodies ps made) p Hp) as (q & W & B). now apply (proj2 (numbers n) q p). }
    assert (C : (if check then check_wavelength min_wavelength irregular ps else Ok tt) = Ok tt).
    { destruct check; [|reflexivity]. specialize (Ck eq_refl). unfold check_wavelength. rewrite check_each_ok.
      - cbn [bind]. apply check_each_ok. intros p Hp. destruct (O p Hp) as (_ & b & Eb & Ub). unfold check_irregular. rewrite Eb.
        destruct (proj2 (Ck b (p_g (pb_data p)) Ub)) as [x ->]. reflexivity.
      - intros p Hp. destruct (O p Hp) as (_ & b & Eb & Ub). unfold check_resolution. rewrite Eb. destruct (ext_ltb _ _); [|reflexivity].
        destruct (proj1 (Ck b 0 Ub)) as [x ->]. reflexivity. }
    unfold solve_all in *. rewrite C, Pb in *.
    destruct (Z.eqb_spec n_jobs 1) as [En|En].
    - destruct (solve_sequential _ _ _ _ _ _ _ _ _ _) as [s' o] in *. cbn [snd] in E. subst o. eauto.
    - destruct (numbers En) as [-> _]. cbn [snd] in E. rewrite E. eauto.
  Qed.

  Lemma no_conflict (results : list (res entry)) rr dr :
    (forall s, In s results -> exists q p, wanted m bodies q /\ built q p /\ s_kind _ s = class_of q /\ s_problem _ s = pb_data p /\ s_dof _ s = pb_dof p) ->
    (forall q p, wanted m bodies q -> built q p -> exists s, In s results /\ s_kind _ s = class_of q /\ s_problem _ s = pb_data p /\ s_dof _ s = pb_dof p) ->
    rows_of _ Radiation results rr -> rows_of _ Diffraction results dr -> ~ conflict _ rr dr.
  Proof.
    intros From To Rr Dr (c & r & r' & Hc & _ & Nv & Hr & Hr' & Ne).
    destruct (rows_of_from _ _ _ _ _ Rr Hr) as (In1 & K1 & _). destruct (rows_of_from _ _ _ _ _ Dr Hr') as (In2 & K2 & _).
    destruct (From _ In1) as (q & p & W & B & C1 & C2 & C3). destruct (From _ In2) as (q' & p' & W' & B' & C1' & C2' & C3').
    assert (D : exists dof, q_dof q = Some dof) by (rewrite K1 in C1; unfold class_of in C1; destruct (q_dof q); [eauto|discriminate]).
    assert (D' : q_dof q' = None) by (rewrite K2 in C1'; unfold class_of in C1'; destruct (q_dof q'); [discriminate|reflexivity]).
    destruct D as [dof D].
    assert (Oc : forall k, In c (main_dims (class_of k) (q_type k) ++ other_dims (class_of k))).
    { intros k. apply in_or_app. right. unfold other_dims, class_of. cbn [In] in Hc. destruct (q_dof k), Hc as [<-|[<-|[<-|[<-|[<-|[]]]]]]; cbn; tauto. }
    set (q2 := exchange c q q'). assert (W2 : wanted m bodies q2) by now apply exchange_wanted.
    destruct (proj2 (problems_both newton immersed m bodies ps made) q2 W2) as (p2 & B2 & _).
    destruct (To q2 p2 W2 B2) as (s2 & In2' & E1 & E2 & E3).
    assert (W3 : wanted m bodies (relocate q q2)) by now apply relocate_wanted.
    destruct (proj2 (problems_both newton immersed m bodies ps made) _ W3) as (p3 & B3 & _).
    destruct (built_dofs newton immersed (relocate q q2) p3 dof D B3) as (b3 & Eb3 & NE).
    assert (Eb2 : p_body (pb_data p2) = Some b3).
    { rewrite <- Eb3. apply (built_same_body newton immersed q2 (relocate q q2)); auto. }
    destruct (b_dofs b3) as [|[i d] l] eqn:El; [contradiction|].
    assert (Hrow : In (s2, i) dr).
    { apply (rows_of_in _ _ _ _ _ _ b3 Dr In2').
      - rewrite E1. unfold class_of, q2, exchange. cbn [q_dof]. now rewrite D'.
      - rewrite E2. apply (built_columns newton immersed names q2 p2 B2).
      - now rewrite E2.
      - rewrite El. now left. }
    apply Nv. exists r', (s2, i). split; [assumption|]. split; [assumption|]. intros E.
    apply Ne. transitivity (label q2 i c).
    - transitivity (label q (snd r) c); [|symmetry; exact (exchange_label c q q' i (snd r) Hc)]. rewrite (surjective_pairing r) at 1.
      exact (row_label newton immersed names q p (fst r) (snd r) c B C2 C3 (Oc q)).
    - rewrite E. symmetry. apply (row_label newton immersed names q2 p2 s2 i c B2 E2 E3 (Oc q2)).
  Qed.

  Lemma fill_total b0 : progress None env = Ok b0 -> (check = true -> checks_pass) ->
    forallb (fun n => existsb (String.eqb n) assemble_keywords) kwargs = true ->
    (forall th, thetas = Some th -> forall q p, wanted m bodies q -> built q p -> exists hs, compute_kochin (alone direct true p) th (0, 0) = Ok hs) ->
    exists s' f, fill = (s', Ok f).
  Proof.
    intros Pb Ck Kw Ko. destruct (all_solved b0 Pb Ck) as (s' & rs & E & P).
    destruct (problems_both newton immersed m bodies ps made) as [PB1 PB2].
    assert (Rd : exists results, mapM read_result rs = Ok results).
    { apply Proofs_Mesh.mapM_total. intros r Hr. apply (Permutation_in _ P) in Hr. apply in_map_iff in Hr. destruct Hr as (p & <- & Hp).
      destruct (PB1 p Hp) as (q & W & B). apply (read_total newton immersed) with (q := q); auto. exact (moves q p W B). }
    destruct Rd as [results Rd].
    assert (Mine : forall q p s, built q p -> read_result (alone direct (keep thetas) p) = Ok s -> s_kind _ s = class_of q /\ s_problem _ s = pb_data p /\ s_dof _ s = pb_dof p).
    { intros q p s B Es. destruct (read_kind _ _ Es) as (K1 & K2 & K3). unfold Proofs_Fill2.alone in K1, K2, K3. rewrite alone_problem in K1, K2, K3.
      destruct (built_columns newton immersed names q p B) as (C1 & C2 & _). rewrite C1 in K1, K3.
      split; [assumption|]. split; [assumption|]. rewrite K3, C2. unfold class_of. now destruct (q_dof q). }
    assert (From : forall s, In s results -> exists q p, wanted m bodies q /\ built q p /\ s_kind _ s = class_of q /\ s_problem _ s = pb_data p /\ s_dof _ s = pb_dof p).
    { intros s1 Hs1. destruct (mapM_in _ _ _ _ Rd Hs1) as (r1 & Hr1 & Es1). apply (Permutation_in _ P) in Hr1. apply in_map_iff in Hr1.
      destruct Hr1 as (p1 & <- & Hp1). destruct (PB1 p1 Hp1) as (q1 & W1 & B1). exists q1, p1. split; [assumption|]. split; [assumption|]. now apply Mine. }
    assert (To : forall q p, wanted m bodies q -> built q p -> exists s, In s results /\ s_kind _ s = class_of q /\ s_problem _ s = pb_data p /\ s_dof _ s = pb_dof p).
    { intros q p W B. destruct (PB2 q W) as (p' & B' & Hp'). rewrite <- (built_unique newton immersed q p p' B B') in Hp'.
      assert (Hr : In (alone direct (keep thetas) p) rs) by (apply (Permutation_in _ (Permutation_sym P)); now apply in_map).
      destruct (mapM_out _ _ _ _ Rd Hr) as (s & Es & Hs). exists s. split; [assumption|]. now apply Mine. }
    destruct (rows_of_total entry NotANumber entry_add Radiation results) as [rr Rr].
    destruct (rows_of_total entry NotANumber entry_add Diffraction results) as [dr Dr].
    assert (NE : results <> []).
    { destruct some as [q W]. destruct (PB2 q W) as (p & B & _). destruct (To q p W B) as (s & Hs & _). intros ->. contradiction. }
    assert (NG : forall s, In s results -> s_kind _ s <> Generic).
    { intros s Hs. destruct (From s Hs) as (q & p & _ & _ & -> & _). unfold class_of. destruct (q_dof q); discriminate. }
    destruct (assemble_accepts entry NotANumber entry_add arrange arranged results rr dr NE NG Rr Dr) as [_ A].
    destruct (A (no_conflict results rr dr From To Rr Dr)) as [a Ea].
    unfold fill_dataset. rewrite made. fold (keep thetas). rewrite E. cbn [bind]. rewrite Kw, Rd. cbn [bind].
    assert (Kr : forall th, thetas = Some th -> exists k, kochin_records rs th = Ok k).
    { intros th Eth. unfold kochin_records.
      destruct (Proofs_Mesh.mapM_total (fun r => bind (compute_kochin r th (0, 0)) (fun hs => Ok (map (fun th => (r, fst th, snd th)) (combine th hs)))) rs) as [k ->]; [|cbn; eauto].
      intros r Hr. apply (Permutation_in _ P) in Hr. apply in_map_iff in Hr. destruct Hr as (p & <- & Hp).
      destruct (PB1 p Hp) as (q & W & B). destruct (Ko th Eth q p W B) as [hs Hh]. replace (keep thetas) with true by now rewrite Eth.
      rewrite Hh. cbn. eauto. }
    rewrite Ea. cbn [bind]. clear - Kr. destruct thetas as [th|]; [|eauto]. destruct (Kr th eq_refl) as [k ->]. cbn [bind]. eauto.
  Qed.
End Success.
