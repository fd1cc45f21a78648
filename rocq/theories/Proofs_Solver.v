From Coq Require Import Reals.
From Coquelicot Require Import Complex.
From Coq Require Import List String Bool ZArith Lia Permutation Sorted.
From Verif Require Import Model_Base Model_Symbolic Model_Problem Model_Results Model_Solver Spec_Problem Spec_Solver.
Import ListNotations.
Open Scope nat_scope.

Section Proofs.
  Variable st : Type.
  Variable build : st -> bkey -> st * result (matrix * matrix).
  Variable linsolve : st -> matrix -> list C -> st * result (list C).
  Variable gradient_x : body -> ext -> ext -> freq -> list C -> result (list C).
  Variable min_wavelength : body -> result ext.
  Variable irregular : body -> R -> result ext.
  Notation solve := (solve st build linsolve gradient_x min_wavelength irregular).
  Notation solve_catch := (solve_catch st build linsolve gradient_x min_wavelength irregular).
  Notation solve_list := (solve_list st build linsolve gradient_x min_wavelength irregular).
  Notation solve_sequential := (solve_sequential st build linsolve gradient_x min_wavelength irregular).
  Notation solve_groups := (solve_groups st build linsolve gradient_x min_wavelength irregular).
  Notation solve_all := (solve_all st build linsolve gradient_x min_wavelength irregular).

  Section Transparent.
    Variables (s0 : st) (used : body -> Prop) (Inv : st -> Prop).
    Hypothesis I0 : Inv s0.
    Hypothesis Ib : forall s b fs h k adj, Inv s -> used b ->
            snd (build s (b, fs, h, k, adj)) = snd (build s0 (b, fs, h, k, adj))
            /\ Inv (fst (build s (b, fs, h, k, adj))).
    Hypothesis Il : forall s m v, Inv s -> snd (linsolve s m v) = snd (linsolve s0 m v)
            /\ Inv (fst (linsolve s m v)).

    Definition sim {A} (x y : st * result A) : Prop := snd x = snd y /\ Inv (fst x) /\ Inv (fst y).
    Lemma sim_ret {A} s s' (r : result A) : Inv s -> Inv s' -> sim (s, r) (s', r).
    Proof. repeat split; auto. Qed.
    Lemma sim_andthen {A B} x y (f : st -> A -> st * result B) :
      sim x y -> (forall s s' a, Inv s -> Inv s' -> sim (f s a) (f s' a)) ->
      sim (andthen st x f) (andthen st y f).
    Proof.
      destruct x as [s r], y as [s' r']. intros [E [H H']] Hf. cbn in *. subst r'.
      destruct r; cbn; [apply Hf; auto | apply sim_ret; auto].
    Qed.
    Lemma sim_build s s' b fs h k adj : Inv s -> Inv s' -> used b ->
      sim (build s (b, fs, h, k, adj)) (build s' (b, fs, h, k, adj)).
    Proof.
      intros H H' U. destruct (Ib s b fs h k adj H U), (Ib s' b fs h k adj H' U).
      repeat split; auto. congruence.
    Qed.
    Lemma sim_lin s s' m v : Inv s -> Inv s' -> sim (linsolve s m v) (linsolve s' m v).
    Proof.
      intros H H'. destruct (Il s m v H), (Il s' m v H'). repeat split; auto. congruence.
    Qed.
    Lemma sim_system s s' m x bc : Inv s -> Inv s' ->
      sim (solve_system st linsolve s m x bc) (solve_system st linsolve s' m x bc).
    Proof.
      intros H H'. unfold solve_system. apply sim_andthen; [apply sim_lin; auto|].
      intros t t' v T T'. destruct (Nat.eqb _ _); apply sim_ret; auto.
    Qed.
    Lemma sim_solve direct keep check s s' p : Inv s -> Inv s' ->
      (forall b, p_body (pb_data p) = Some b -> used b) ->
      sim (solve direct keep check s p) (solve direct keep check s' p).
    Proof.
      intros H H' U. unfold Model_Solver.solve.
      destruct (if check then _ else _); [|apply sim_ret; auto].
      destruct (direct && _); [apply sim_ret; auto|].
      destruct (p_body (pb_data p)) as [b|] eqn:Eb; [|apply sim_ret; auto].
      apply sim_andthen; [apply sim_build; auto|].
      intros t t' SK T T'. destruct (p_bc (pb_data p)) as [bc|]; [|apply sim_ret; auto].
      destruct direct.
      - apply sim_andthen; [apply sim_system; auto|]. intros u u' v G G'.
        destruct (sv_pressure _ _ _); apply sim_ret; auto.
      - apply sim_andthen; [apply sim_system; auto|]. intros u u' v G G'.
        destruct (sv_pressure _ _ _); [|apply sim_ret; auto].
        destruct (negb _); [|apply sim_ret; auto].
        destruct (make_results _ _); [|apply sim_ret; auto].
        destruct (gradient_x _ _ _ _ _); apply sim_ret; auto.
    Qed.

    Definition alone direct keep (p : pb) : pres :=
      result_or_failure p (snd (solve direct keep false s0 p)).

    Lemma catch_alone direct keep s p :
      Inv s -> pb_kind p <> Generic -> (forall b, p_body (pb_data p) = Some b -> used b) ->
      exists s', Inv s' /\ solve_catch direct keep s p = (s', Ok (alone direct keep p)).
    Proof.
      intros H K U. destruct (sim_solve direct keep false s s0 p H I0 U) as [E [T _]].
      unfold Model_Solver.solve_catch, alone.
      destruct (solve direct keep false s p) as [s' [r|e]]; cbn [fst snd] in E, T; rewrite <- E; cbn [result_or_failure].
      - eauto.
      - exists s'. split; [auto|]. f_equal. unfold make_failed, influenced.
        destruct (pb_kind p); [congruence| |]; reflexivity.
    Qed.
    Lemma list_alone direct keep l : ordinary used l -> forall s, Inv s ->
      exists s', Inv s' /\ solve_list direct keep s l = (s', Ok (map (alone direct keep) l)).
    Proof.
      induction l as [|p l IH]; intros O s H; cbn [Model_Solver.solve_list map].
      - eauto.
      - destruct (O p (or_introl eq_refl)) as [K [b [Eb Ub]]].
        destruct (catch_alone direct keep s p H K) as [s1 [H1 E1]].
        { intros b' Eb'. congruence. }
        rewrite E1. cbn [andthen].
        destruct (IH (fun q Hq => O q (or_intror Hq)) s1 H1) as [s2 [H2 E2]].
        rewrite E2. cbn [andthen]. eauto.
    Qed.
  End Transparent.

  (** ** Sorting *)
  Lemma ltb_total p q b c : p_body (pb_data p) = Some b -> p_body (pb_data q) = Some c ->
    exists x, problem_ltb (pb_data p) (pb_data q) = Ok x.
  Proof. intros E F. unfold problem_ltb. rewrite E, F. destruct (Nat.eqb _ _); eauto. Qed.
  Definition with_body (l : list pb) := forall p, In p l -> exists b, p_body (pb_data p) = Some b.
  Lemma insert_perm p l : with_body (p :: l) -> exists r, insert p l = Ok r /\ Permutation (p :: l) r.
  Proof.
    induction l as [|q l IH]; intros H; cbn [insert].
    - eauto.
    - destruct (H p (or_introl eq_refl)) as [b Eb].
      destruct (H q (or_intror (or_introl eq_refl))) as [c Ec].
      destruct (ltb_total p q b c Eb Ec) as [x Ex]. rewrite Ex. cbn [bind].
      destruct x; [eauto|].
      destruct IH as [r [Er Pr]].
      { intros z [<-|Hz]; [eauto|]. apply H. right. right. auto. }
      rewrite Er. cbn [bind]. eexists. split; [reflexivity|].
      eapply perm_trans; [apply perm_swap|]. apply perm_skip, Pr.
  Qed.
  Lemma sort_perm l : forall acc, with_body (acc ++ l) ->
    exists r, sort_from acc l = Ok r /\ Permutation (acc ++ l) r.
  Proof.
    induction l as [|p l IH]; intros acc H; cbn [sort_from].
    - rewrite app_nil_r. eauto.
    - destruct (insert_perm p acc) as [a [Ea Pa]].
      { intros q Hq. apply H. apply in_or_app. destruct Hq as [<-|Hq]; [right; left; auto|auto]. }
      rewrite Ea. cbn [bind].
      assert (P : Permutation (acc ++ p :: l) (a ++ l)).
      { apply perm_trans with (p :: acc ++ l); [apply Permutation_sym, Permutation_middle|].
        rewrite app_comm_cons. apply Permutation_app_tail, Pa. }
      destruct (IH a) as [r [Er Pr]].
      { intros q Hq. apply H. eapply Permutation_in; [apply Permutation_sym, P|auto]. }
      exists r. split; [auto|]. eapply perm_trans; eauto.
  Qed.
  Lemma sorted_perm l : with_body l -> exists r, sorted_problems l = Ok r /\ Permutation l r.
  Proof. intros H. exact (sort_perm l [] H). Qed.

  (** A list without inversion is left as it is. *)
  Lemma insert_end p l : Forall (fun q => problem_ltb (pb_data p) (pb_data q) = Ok false) l ->
    insert p l = Ok (l ++ [p]).
  Proof.
    induction 1 as [|q l E H IH]; cbn [insert app]; [reflexivity|].
    rewrite E. cbn [bind]. rewrite IH. reflexivity.
  Qed.
  Lemma sort_sorted l : forall acc,
    ForallOrdPairs (fun q p => problem_ltb (pb_data p) (pb_data q) = Ok false) (acc ++ l) ->
    sort_from acc l = Ok (acc ++ l).
  Proof.
    induction l as [|p l IH]; intros acc H; cbn [sort_from].
    - rewrite app_nil_r. reflexivity.
    - rewrite insert_end.
      + cbn [bind]. rewrite IH; rewrite <- app_assoc; [reflexivity|exact H].
      + clear IH. induction acc as [|q acc IHa]; [constructor|].
        inversion H; subst. constructor; [|apply IHa; auto].
        match goal with F : List.Forall _ _ |- _ => rewrite Forall_forall in F; apply F end.
        apply in_or_app. right. left. auto.
  Qed.

  (** ** Groups *)
  Lemma gkey_refl p : p_depth (pb_data p) <> NaN -> ffloat (f_omega (p_freqs (pb_data p))) <> NaN ->
    gkey_eqb (group_key p) (group_key p) = true.
  Proof.
    intros H1 H2. unfold gkey_eqb, group_key. cbn [fst snd list_eqb]. rewrite String.eqb_refl.
    assert (E : forall x, x <> NaN -> ext_eqb x x = true).
    { intros [x| | |]; cbn; try congruence. intros _. unfold Reqb. destruct (Req_EM_T x x); congruence. }
    rewrite !E; auto; discriminate.
  Qed.
  Lemma filter_perm {A} (f : A -> bool) l :
    Permutation l (filter f l ++ filter (fun x => negb (f x)) l).
  Proof.
    induction l as [|x l IH]; cbn; [constructor|]. destruct (f x); cbn.
    - apply perm_skip, IH.
    - eapply perm_trans; [apply perm_skip, IH|]. apply Permutation_middle.
  Qed.
  Lemma filter_le {A} (f : A -> bool) l : List.length (filter f l) <= List.length l.
  Proof. induction l as [|x l IH]; cbn; [lia|]. destruct (f x); cbn; lia. Qed.
  Lemma group_perm n : forall l, List.length l <= n -> no_nan l -> Permutation l (List.concat (group_by n l)).
  Proof.
    induction n as [|n IH]; intros [|p l] L N; cbn [group_by List.length] in *; try lia; try constructor.
    destruct (N p (or_introl eq_refl)) as [N1 N2]. rewrite (gkey_refl p N1 N2). cbn [List.concat].
    cbn [app]. apply perm_skip.
    eapply perm_trans; [apply (filter_perm (has_key (group_key p)))|].
    apply Permutation_app_head, IH.
    - pose proof (filter_le (fun q => negb (has_key (group_key p) q)) l). lia.
    - intros q Hq. apply filter_In in Hq. apply N. right. apply Hq.
  Qed.

  Section All.
    Variables (s0 : st) (used : body -> Prop).
    Hypothesis T : transparent st build linsolve s0 used.

    Lemma ordinary_body l : ordinary used l -> with_body l.
    Proof. intros O p Hp. destruct (O p Hp) as [_ [b [E _]]]. eauto. Qed.
    Lemma ordinary_in l l' : (forall p, In p l' -> In p l) -> ordinary used l -> ordinary used l'.
    Proof. intros H O p Hp. apply O, H, Hp. Qed.

    Lemma sequential_alone direct keep l :
      ordinary used l -> exists l', sorted_problems l = Ok l' /\ Permutation l l'
        /\ snd (solve_sequential direct keep s0 l) = Ok (map (alone s0 direct keep) l').
    Proof.
      intros O. destruct (sorted_perm l (ordinary_body l O)) as [l' [E P]].
      exists l'. split; [auto|]. split; [auto|]. unfold Model_Solver.solve_sequential. rewrite E.
      destruct T as [Inv [I0 [Ib Il]]].
      destruct (list_alone s0 used Inv I0 Ib Il direct keep l') with (s := s0) as [s' [_ ->]]; auto.
      apply ordinary_in with l; auto. intros p Hp. eapply Permutation_in; [apply Permutation_sym, P|auto].
    Qed.
    Lemma groups_alone direct keep gs :
      (forall g, In g gs -> ordinary used g) ->
      exists rs, solve_groups direct keep s0 gs = Ok rs
        /\ Permutation rs (map (alone s0 direct keep) (List.concat gs)).
    Proof.
      induction gs as [|g gs IH]; intros O; cbn [Model_Solver.solve_groups List.concat].
      - exists []. split; [auto|constructor].
      - destruct (sequential_alone direct keep g (O g (or_introl eq_refl))) as [l' [_ [P ->]]]. cbn [bind].
        destruct IH as [rs [-> Q]]; [intros h Hh; apply O; right; auto|]. cbn [bind].
        eexists. split; [reflexivity|]. rewrite map_app. apply Permutation_app; [|auto].
        apply Permutation_map, Permutation_sym, P.
    Qed.
    Lemma groups_in n : forall l g p, In g (group_by n l) -> In p g -> In p l.
    Proof.
      induction n as [|n IH]; intros [|q l] g p Hg Hp; cbn [group_by] in Hg; try destruct Hg.
      destruct (gkey_eqb _ _).
      - destruct Hg as [<-|Hg].
        + destruct Hp as [<-|Hp]; [left; auto|]. apply filter_In in Hp. right. apply Hp.
        + specialize (IH _ _ _ Hg Hp). apply filter_In in IH. right. apply IH.
      - right. eapply IH; eauto.
    Qed.

    Lemma all_alone direct keep bar env n_jobs l b :
      ordinary used l -> progress bar env = Ok b ->
      n_jobs = 1%Z \/ (l <> [] /\ no_nan l) ->
      exists rs, snd (solve_all direct keep false true bar env n_jobs s0 l) = Ok rs
        /\ Permutation rs (map (alone s0 direct keep) l).
    Proof.
      intros O Hb Hn. unfold Model_Solver.solve_all. rewrite Hb.
      destruct (Z.eqb_spec n_jobs 1) as [E|E].
      - destruct (sequential_alone direct keep l O) as [l' [_ [P ->]]].
        eexists. split; [reflexivity|]. apply Permutation_map, Permutation_sym, P.
      - destruct Hn as [Hn|[Hl Hn]]; [congruence|]. cbn [snd].
        unfold group_for_parallel. destruct l as [|p l]; [congruence|]. cbn [bind].
        destruct (groups_alone direct keep (group_by (List.length (p :: l)) (p :: l))) as [rs [-> P]].
        { intros g Hg. apply ordinary_in with (p :: l); auto. intros q Hq. eapply groups_in; eauto. }
        eexists. split; [reflexivity|]. eapply perm_trans; [apply P|].
        apply Permutation_map, Permutation_sym, group_perm; auto.
    Qed.

    Lemma all_in_order direct keep bar env l b :
      ordinary used l -> progress bar env = Ok b ->
      ForallOrdPairs (fun q p => problem_ltb (pb_data p) (pb_data q) = Ok false) l ->
      snd (solve_all direct keep false true bar env 1 s0 l) = Ok (map (alone s0 direct keep) l).
    Proof.
      intros O Hb F. unfold Model_Solver.solve_all. rewrite Hb. cbn [Z.eqb Pos.eqb].
      destruct (sequential_alone direct keep l O) as [l' [E [P ->]]].
      assert (l' = l) as ->; [|reflexivity].
      pose proof (sort_sorted l [] F) as E'. unfold sorted_problems in E. cbn [app] in E'. congruence.
    Qed.
  End All.

  (** The checks made before solving do not change the results. *)
  Lemma check_ok l :
    (forall p, In p l -> exists b, p_body (pb_data p) = Some b
       /\ (exists x, min_wavelength b = Ok x) /\ (exists y, irregular b (p_g (pb_data p)) = Ok y)) ->
    check_wavelength min_wavelength irregular l = Ok tt.
  Proof.
    intros H. unfold check_wavelength.
    assert (E1 : check_each (check_resolution min_wavelength) l = Ok tt).
    { induction l as [|p l IH]; [reflexivity|]. cbn [check_each].
      destruct (H p (or_introl eq_refl)) as [b [Eb [[x Ex] _]]].
      unfold check_resolution at 1. rewrite Eb, Ex. destruct (ext_ltb _ _); cbn [bind];
      apply IH; intros q Hq; apply H; right; auto. }
    assert (E2 : check_each (check_irregular irregular) l = Ok tt).
    { clear E1. induction l as [|p l IH]; [reflexivity|]. cbn [check_each].
      destruct (H p (or_introl eq_refl)) as [b [Eb [_ [y Ey]]]].
      unfold check_irregular at 1. rewrite Eb, Ey. cbn [bind].
      apply IH; intros q Hq; apply H; right; auto. }
    rewrite E1. exact E2.
  Qed.
End Proofs.
