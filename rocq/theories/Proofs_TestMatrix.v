From Coq Require Import Reals String List Bool Arith Permutation Lra Lia.
From Verif Require Import Model_Base Model_Mesh Model_Problem Model_Solver Spec_Problem Proofs_Problem Proofs_Problem2 Proofs_Mesh
  Proofs_Solver Model_TestMatrix Spec_TestMatrix.
Import ListNotations.
Open Scope R_scope.

(** ** Lists *)
Lemma nodup_flat_map {A B} (f : A -> list B) l : NoDup l -> (forall x, In x l -> NoDup (f x)) ->
  (forall x y z, In x l -> In y l -> In z (f x) -> In z (f y) -> x = y) -> NoDup (flat_map f l).
Proof.
  induction 1 as [|x l Hx Hl IH]; intros HF HD; cbn [flat_map]; [constructor|].
  assert (J : forall u v : list B, NoDup u -> NoDup v -> (forall z, In z u -> In z v -> False) -> NoDup (u ++ v)).
  { clear. intros u v HU HV HJ. induction HU as [|a u Ha HU IH]; [exact HV|]. cbn. constructor.
    - intros H. apply in_app_or in H. destruct H as [H|H]; [tauto|]. apply (HJ a); [now left|exact H].
    - apply IH. intros z Z. apply HJ. now right. }
  apply J.
  - apply HF. now left.
  - apply IH; [intros; apply HF; now right|]. intros; eapply HD; eauto; now right.
  - intros z Z Z'. apply in_flat_map in Z'. destruct Z' as (y & Y & Z'). assert (x = y) by (eapply HD; eauto; [now left|now right]).
    subst. tauto.
Qed.
Lemma nodup_prod {A B} (l : list A) (l' : list B) : NoDup l -> NoDup l' -> NoDup (list_prod l l').
Proof.
  intros H H'. assert (E : list_prod l l' = flat_map (fun x => map (pair x) l') l).
  { clear. induction l; cbn; [reflexivity|]. now rewrite IHl. }
  rewrite E. apply nodup_flat_map; [exact H| |].
  - intros x _. apply FinFun.Injective_map_NoDup; [|exact H']. intros a b [=]. assumption.
  - intros x y z _ _ Z Z'. apply in_map_iff in Z, Z'. destruct Z as (a & <- & _), Z' as (b & [=] & _). auto.
Qed.
Lemma Forall2_flat {A B C} (P : A -> B -> Prop) (f : C -> list A) (g : C -> result (list B)) l r :
  (forall c p, g c = Ok p -> Forall2 P (f c) p) -> mapM g l = Ok r -> Forall2 P (flat_map f l) (List.concat r).
Proof.
  intros H. revert r. induction l as [|c l IH]; intros r; cbn [mapM].
  - intros [= <-]. constructor.
  - destruct (g c) as [p|] eqn:E; [|discriminate]. cbn [bind]. destruct (mapM g l) as [r'|]; [|discriminate]. cbn [bind].
    intros [= <-]. cbn. apply Forall2_app; [apply H; exact E|]. apply IH. reflexivity.
Qed.

Lemma all_different_iff l : all_different l = true <-> NoDup l.
Proof.
  induction l as [|x l IH]; cbn [all_different]; [split; [constructor|reflexivity]|].
  rewrite andb_true_iff, negb_true_iff, IH. split.
  - intros [H N]. constructor; [|exact N]. intros I. assert (existsb (String.eqb x) l = true); [|congruence].
    apply existsb_exists. exists x. split; [exact I|apply String.eqb_refl].
  - intros H. inversion H as [|? ? HN HL]; subst. split; [|exact HL]. destruct (existsb _ l) eqn:E; [|reflexivity].
    apply existsb_exists in E. destruct E as (y & Y & E). apply String.eqb_eq in E. subst. tauto.
Qed.
Lemma or_default_in {A} (o : option (list A)) d x : In x (or_default o d) <-> in_range o d x.
Proof. destruct o; cbn; [tauto|]. intuition. Qed.
Lemma or_default_nodup {A} (o : option (list A)) d : (forall l, o = Some l -> NoDup l) -> NoDup (or_default o d).
Proof. destruct o; cbn; intros H; [now apply H|]. constructor; [tauto|constructor]. Qed.
Lemma is_limit_iff f : is_limit f = true <-> f = Fin 0 \/ f = PInf.
Proof.
  unfold is_limit. rewrite orb_true_iff. split.
  - intros [H|H]; apply ext_eqb_eq in H; auto.
  - intros [-> | ->]; [left; cbn; apply Reqb_refl|right; reflexivity].
Qed.

Section Requests.
  Variable newton : ext -> ext -> result ext.
  Variable immersed : body -> ext -> ext -> result body.
  Notation built := (built_as newton immersed).

  Definition d_requests (t : freq_type) (c : ext * (R * (ext * (body * (R * (R * R)))))) : list request :=
    let '(f, (dir, (h, (b, (u, (rho, g)))))) := c in
    if is_limit f then [] else [Request None t f dir h b u rho g].
  Definition r_requests (t : freq_type) (dirs : option (list R)) (c : ext * (string * (ext * (body * (R * (R * R)))))) : list request :=
    let '(f, (dof, (h, (b, (u, (rho, g)))))) := c in
    map (fun dir => Request (Some dof) t f dir h b u rho g) (if Reqb u 0 then [0] else or_default dirs 0).
  Definition requests (m : test_matrix) (tf : freq_type * list ext) (bs : list body) : list request :=
    match tm_dirs m with None => [] | Some dirs => flat_map (d_requests (fst tf)) (combinations (snd tf) dirs m bs) end
    ++ match tm_dofs m with None => [] | Some dofs => flat_map (r_requests (fst tf) (tm_dirs m)) (combinations (snd tf) dofs m bs) end.

  Lemma args_call t f dir h b u rho g o : problem_args t f dir h b u rho g = call (Request o t f dir h b u rho g).
  Proof. destruct t; reflexivity. Qed.

  Lemma diffraction_built t dg c p : diffraction_of newton immersed t dg c = Ok p -> Forall2 built (d_requests t c) p.
  Proof.
    destruct c as (f & dir & h & b & u & rho & g). unfold diffraction_of, d_requests. destruct (is_limit f); cbn [negb].
    - destruct dg; [|discriminate]. intros [= <-]. constructor.
    - rewrite (args_call _ _ _ _ _ _ _ _ None). destruct (diffraction_problem _ _ _) as [d|] eqn:E; [|discriminate]. cbn [bind]. intros [= <-].
      constructor; [|constructor]. cbn. eauto.
  Qed.
  Lemma radiation_built t dirs c p : radiation_of newton immersed t dirs c = Ok p -> Forall2 built (r_requests t dirs c) p.
  Proof.
    destruct c as (f & dof & h & b & u & rho & g). unfold radiation_of, r_requests.
    cbv zeta. set (build := fun dir : R => bind _ _). assert (B : forall dir q, build dir = Ok q -> built (Request (Some dof) t f dir h b u rho g) q).
    { intros dir q. unfold build. rewrite (args_call _ _ _ _ _ _ _ _ (Some dof)).
      destruct (radiation_problem _ _ _ _) as [d|] eqn:E; [|discriminate]. cbn [bind]. intros [= <-]. cbn. eauto. }
    destruct (Reqb u 0).
    - change (bind (build 0) (fun q => Ok [q]) = Ok p -> Forall2 built (map (fun dir => Request (Some dof) t f dir h b u rho g) [0]) p).
      destruct (build 0) as [q|] eqn:E; [|discriminate]. cbn [bind]. intros [= <-]. constructor; [|constructor]. now apply B.
    - intros H. revert p H. induction (or_default dirs 0) as [|d l IH]; intros p; cbn [mapM map].
      + intros [= <-]. constructor.
      + destruct (build d) as [q|] eqn:E; [|discriminate]. cbn [bind]. destruct (mapM build l) as [r|]; [|discriminate]. cbn [bind].
        intros [= <-]. constructor; [now apply B|now apply IH].
  Qed.
  Lemma diffraction_total t dg c : (forall q, In q (d_requests t c) -> exists p, built q p) -> (is_limit (fst c) = true -> dg = true) ->
    exists p, diffraction_of newton immersed t dg c = Ok p.
  Proof.
    destruct c as (f & dir & h & b & u & rho & g). unfold diffraction_of, d_requests. cbn [fst]. destruct (is_limit f); cbn [negb].
    - intros _ H. rewrite (H eq_refl). eauto.
    - intros H _. destruct (H _ (or_introl eq_refl)) as (p & d & E & ->). rewrite (args_call _ _ _ _ _ _ _ _ None), E. cbn. eauto.
  Qed.
  Lemma radiation_total t dirs c : (forall q, In q (r_requests t dirs c) -> exists p, built q p) ->
    exists p, radiation_of newton immersed t dirs c = Ok p.
  Proof.
    destruct c as (f & dof & h & b & u & rho & g). unfold radiation_of, r_requests.
    cbv zeta. set (build := fun dir : R => bind _ _).
    assert (B : forall dir, (exists q, built (Request (Some dof) t f dir h b u rho g) q) -> exists q, build dir = Ok q).
    { intros dir (q & d & E & ->). unfold build. rewrite (args_call _ _ _ _ _ _ _ _ (Some dof)), E. cbn. eauto. }
    destruct (Reqb u 0); intros H.
    - change (exists p, bind (build 0) (fun q => Ok [q]) = Ok p).
      destruct (B 0 (H _ (or_introl eq_refl))) as (q & ->). cbn. eauto.
    - apply mapM_total. intros x Hx. apply B. apply H. apply in_map_iff. exists x. auto.
  Qed.

  Lemma generic_body i q : i_body i <> None -> generic_problem newton immersed i None = Ok q -> exists b, p_body q = Some b.
  Proof.
    intros Hi G. apply generic_inv in G. destruct G as (h & fr & ob & e & dd & _ & _ & C & _ & ->). cbn [p_body].
    destruct (i_body i) as [b|]; [|tauto]. unfold check_data in C.
    repeat match type of C with (if ?x then _ else _) = _ => destruct x; [discriminate|] end.
    destruct (check_body _ _ _ _) as [ob'|] eqn:E; [|discriminate]. cbn [bind] in C.
    assert (ob' = ob) by (destruct (check_bc ob' None); [cbn [bind] in C; congruence|discriminate]). subst ob'. unfold check_body in E.
    destruct (Nat.eqb _ 0); [discriminate|]. destruct (check_dofs b); [|discriminate]. cbn [bind] in E.
    destruct (_ || _)%bool; [|injection E as <-; eauto]. destruct (immersed b _ _); [|discriminate]. cbn [bind] in E. injection E as <-. eauto.
  Qed.
  Lemma built_body r p : built r p -> exists b, p_body (pb_data p) = Some b.
  Proof.
    assert (CB : i_body (call r) <> None) by (cbn; discriminate).
    unfold built_as. destruct (q_dof r) as [dof|]; intros (d & E & ->); cbn [pb_data].
    - unfold radiation_problem in E. destruct (generic_problem _ _ _ _) as [q|] eqn:G; [|discriminate]. cbn [bind] in E.
      destruct (generic_body _ _ CB G) as (b & Hb). rewrite Hb in E. exists b.
      destruct (b_dofs b) as [|[fd ?] ?]; [discriminate|]. destruct (assoc dof _); [|discriminate].
      destruct (dof_dot_n _ _); [|discriminate]. cbn [bind] in E. destruct (motion_bc _ _); [|discriminate]. cbn [bind] in E.
      match type of E with bind ?x _ = _ => destruct x; [|discriminate] end. cbn [bind] in E.
      destruct (append_lid _ _); [|discriminate]. cbn [bind] in E. injection E as <-. exact Hb.
    - unfold diffraction_problem in E. destruct (generic_problem _ _ _ _) as [q|] eqn:G; [|discriminate]. cbn [bind] in E.
      destruct (generic_body _ _ CB G) as (b & Hb). rewrite Hb in E. exists b. destruct (is_limit _); [discriminate|].
      destruct (wave_of q); [|discriminate]. injection E as <-. exact Hb.
  Qed.

  Lemma combinations_in {A} fs (xs : list A) m bs f x h b u rho g :
    In (f, (x, (h, (b, (u, (rho, g)))))) (combinations fs xs m bs) <->
    In f fs /\ In x xs /\ in_range (tm_depth m) PInf h /\ In b bs /\ in_range (tm_speed m) 0 u
    /\ in_range (tm_rho m) 1000 rho /\ in_range (tm_g m) (981 / 100) g.
  Proof. unfold combinations. rewrite !in_prod_iff, !or_default_in. unfold default_rho, default_g. tauto. Qed.
  Lemma freq_range_ok m tf : freq_range m = Ok tf -> forall t f, frequency_wanted m t f <-> t = fst tf /\ In f (snd tf).
  Proof.
    unfold freq_range, frequency_wanted. destruct (tm_freqs m) as [|x [|]]; [| |discriminate]; intros [= <-] t f; cbn [fst snd].
    - cbn. intuition.
    - split.
      + intros (l & [->|[]] & H). auto.
      + intros [-> H]. exists (snd x). split; [left; now destruct x|exact H].
  Qed.
  Lemma body_range_ok m bodies bs : body_range m bodies = Ok bs ->
    forall b, In b bs <-> In b bodies /\ (forall l, tm_names m = Some l -> In (b_name b) l).
  Proof.
    unfold body_range. destruct (tm_names m) as [names|].
    - destruct (forallb _ _); [|discriminate]. intros [= <-] b. rewrite filter_In, existsb_exists. split.
      + intros (H & n & N & E). apply String.eqb_eq in E. split; [exact H|]. intros l [= <-]. now rewrite E.
      + intros (H & N). split; [exact H|]. exists (b_name b). split; [now apply N|apply String.eqb_refl].
    - intros [= <-] b. split; [intros; split; [assumption|discriminate]|tauto].
  Qed.
  Lemma body_range_nodup m bodies bs : body_range m bodies = Ok bs -> NoDup bodies -> NoDup bs.
  Proof.
    unfold body_range. destruct (tm_names m) as [names|]; [destruct (forallb _ _); [|discriminate]|]; intros [= <-] H; [|exact H].
    now apply NoDup_filter.
  Qed.

  Lemma requests_wanted m tf bodies bs : freq_range m = Ok tf -> body_range m bodies = Ok bs ->
    forall r, In r (requests m tf bs) <-> wanted m bodies r.
  Proof.
    intros HF HB r. pose proof (freq_range_ok m tf HF) as WF. pose proof (body_range_ok m bodies bs HB) as WB.
    unfold requests. rewrite in_app_iff. destruct r as [o t f dir h b u rho g].
    unfold wanted. cbn [q_dof q_type q_freq q_dir q_depth q_body q_speed q_rho q_g]. rewrite (WF t f).
    assert (D : In (Request o t f dir h b u rho g)
      (match tm_dirs m with None => [] | Some dirs => flat_map (d_requests (fst tf)) (combinations (snd tf) dirs m bs) end)
      <-> o = None /\ t = fst tf /\ is_limit f = false /\ exists dirs, tm_dirs m = Some dirs
          /\ In (f, (dir, (h, (b, (u, (rho, g)))))) (combinations (snd tf) dirs m bs)).
    { destruct (tm_dirs m) as [dirs|].
      - rewrite in_flat_map. split.
        + intros ((f' & dir' & h' & b' & u' & rho' & g') & H & E). unfold d_requests in E.
          destruct (is_limit f') eqn:L; [destruct E|]. destruct E as [E|[]]. injection E as <- <- <- <- <- <- <- <- <-. eauto 6.
        + intros (-> & -> & L & dirs' & [= <-] & H). eexists. split; [exact H|]. cbn. rewrite L. now left.
      - split; [intros []|]. intros (_ & _ & _ & ? & ? & _). discriminate. }
    assert (W : In (Request o t f dir h b u rho g)
      (match tm_dofs m with None => [] | Some dofs => flat_map (r_requests (fst tf) (tm_dirs m)) (combinations (snd tf) dofs m bs) end)
      <-> t = fst tf /\ exists dof dofs, o = Some dof /\ tm_dofs m = Some dofs
          /\ In (f, (dof, (h, (b, (u, (rho, g)))))) (combinations (snd tf) dofs m bs)
          /\ (if Req_EM_T u 0 then dir = 0 else in_range (tm_dirs m) 0 dir)).
    { assert (U : forall u dir, In dir (if Reqb u 0 then [0] else or_default (tm_dirs m) 0) <->
        (if Req_EM_T u 0 then dir = 0 else in_range (tm_dirs m) 0 dir)).
      { intros u' dir'. unfold Reqb. destruct (Req_EM_T u' 0); [cbn; intuition|]. apply or_default_in. }
      destruct (tm_dofs m) as [dofs|].
      - rewrite in_flat_map. split.
        + intros ((f' & dof' & h' & b' & u' & rho' & g') & H & E). unfold r_requests in E. apply in_map_iff in E.
          destruct E as (dir' & E & HD). injection E as <- <- <- <- <- <- <- <- <-. apply U in HD. split; [reflexivity|].
          exists dof', dofs. auto.
        + intros (-> & dof & dofs' & -> & [= <-] & H & HD). eexists. split; [exact H|]. unfold r_requests. apply in_map_iff.
          exists dir. split; [reflexivity|]. now apply U.
      - split; [intros []|]. intros (_ & ? & ? & _ & ? & _). discriminate. }
    rewrite D, W. clear D W. split.
    - intros [(-> & -> & L & dirs & HD & H)|(-> & dof & dofs & -> & HD & H & HU)]; apply combinations_in in H;
        destruct H as (H1 & H2 & H3 & H4 & H5 & H6 & H7); apply WB in H4; destruct H4 as [H4 H4'].
      + repeat (split; [first [assumption|split; [reflexivity|assumption]]|]). exists dirs. split; [exact HD|]. split; [exact H2|].
        split; intros ->; [assert (is_limit (Fin 0) = true) by (apply is_limit_iff; auto)|assert (is_limit PInf = true) by (apply is_limit_iff; auto)]; congruence.
      + repeat (split; [first [assumption|split; [reflexivity|assumption]]|]). split; [eauto|exact HU].
    - intros ((-> & H1) & H2 & H3 & H4 & H5 & H6 & H7 & H8). destruct o as [dof|].
      + right. destruct H8 as [(dofs & E & HI) HU]. split; [reflexivity|]. exists dof, dofs. split; [reflexivity|]. split; [exact E|].
        split; [|exact HU]. apply combinations_in. repeat (split; [assumption|]). split; [|auto]. apply WB. auto.
      + left. destruct H8 as (dirs & E & HI & N0 & NI). split; [reflexivity|]. split; [reflexivity|]. split.
        * apply not_true_is_false. rewrite is_limit_iff. tauto.
        * exists dirs. split; [exact E|]. apply combinations_in. repeat (split; [assumption|]). split; [|auto]. apply WB. auto.
  Qed.

  Lemma combinations_nodup {A} tf (xs : list A) m bs : distinct_values m -> freq_range m = Ok tf -> NoDup xs -> NoDup bs ->
    NoDup (combinations (snd tf) xs m bs).
  Proof.
    intros (D1 & D2 & D3 & D4 & D5 & _) HF HX HB. unfold combinations.
    assert (NoDup (snd tf)).
    { unfold freq_range in HF. destruct (tm_freqs m) as [|x [|]] eqn:E; [| |discriminate]; injection HF as <-.
      - cbn. constructor; [tauto|constructor].
      - apply (D1 (fst x)). left. now destruct x. }
    repeat apply nodup_prod; try assumption; now apply or_default_nodup.
  Qed.
  Lemma requests_nodup m tf bs : distinct_values m -> freq_range m = Ok tf -> NoDup bs -> NoDup (requests m tf bs).
  Proof.
    intros D HF HB. unfold requests.
    assert (ND : forall A (u v : list A), NoDup u -> NoDup v -> (forall z, In z u -> In z v -> False) -> NoDup (u ++ v)).
    { clear. intros A u v HU HV HJ. induction HU as [|a u Ha HU IH]; [exact HV|]. cbn. constructor.
      - intros H. apply in_app_or in H. destruct H as [H|H]; [tauto|]. apply (HJ a); [now left|exact H].
      - apply IH. intros z Z. apply HJ. now right. }
    assert (D6 := proj1 (proj2 (proj2 (proj2 (proj2 (proj2 D)))))). assert (D7 := proj2 (proj2 (proj2 (proj2 (proj2 (proj2 D)))))).
    cbv beta in D6, D7.
    apply ND.
    - destruct (tm_dirs m) as [dirs|] eqn:E; [|constructor]. apply nodup_flat_map.
      + apply combinations_nodup; auto.
      + intros (f & dir & h & b & u & rho & g) _. unfold d_requests. destruct (is_limit f); constructor; [tauto|constructor].
      + intros (f & dir & h & b & u & rho & g) (f' & dir' & h' & b' & u' & rho' & g') z _ _. unfold d_requests.
        destruct (is_limit f); [intros []|]. destruct (is_limit f'); [intros _ []|]. intros [<-|[]] [[=]|[]]. congruence.
    - destruct (tm_dofs m) as [dofs|] eqn:E; [|constructor]. apply nodup_flat_map.
      + apply combinations_nodup; auto.
      + intros (f & dof & h & b & u & rho & g) _. unfold r_requests. apply FinFun.Injective_map_NoDup.
        * intros x y [=]. assumption.
        * destruct (Reqb u 0); [constructor; [tauto|constructor]|]. now apply or_default_nodup.
      + intros (f & dir & h & b & u & rho & g) (f' & dir' & h' & b' & u' & rho' & g') z _ _ Z Z'. unfold r_requests in Z, Z'.
        apply in_map_iff in Z, Z'. destruct Z as (? & <- & _), Z' as (? & [=] & _). congruence.
    - intros z Z Z'. destruct (tm_dirs m) as [dirs|]; [|destruct Z]. destruct (tm_dofs m) as [dofs|]; [|destruct Z'].
      apply in_flat_map in Z, Z'. destruct Z as ((f & dir & h & b & u & rho & g) & _ & Z).
      destruct Z' as ((f' & dof' & h' & b' & u' & rho' & g') & _ & Z'). unfold d_requests in Z. unfold r_requests in Z'.
      destruct (is_limit f); [destruct Z|]. destruct Z as [<-|[]]. apply in_map_iff in Z'. destruct Z' as (? & [=] & _).
  Qed.

  Lemma Forall2_in_r {A B} (P : A -> B -> Prop) l l' y : Forall2 P l l' -> In y l' -> exists x, In x l /\ P x y.
  Proof.
    induction 1 as [|x z l l' H F IH]; intros I; [destruct I|]. destruct I as [<-|I]; [exists x; split; [now left|exact H]|].
    destruct (IH I) as (x' & I' & H'). exists x'. split; [now right|exact H'].
  Qed.

  (** Every accepted test matrix gives exactly the described problems. *)
  Lemma problems_requests m bodies ps : problems_from_dataset newton immersed m bodies = Ok ps ->
    exists rs qs, Forall2 built rs qs /\ Permutation qs ps /\ (forall r, In r rs <-> wanted m bodies r)
      /\ (distinct_values m -> NoDup rs).
  Proof.
    unfold problems_from_dataset. destruct (all_different _) eqn:AD; [|discriminate]. cbn [negb]. apply all_different_iff in AD.
    assert (HB : NoDup bodies) by (apply NoDup_map_inv in AD; exact AD).
    intros H.
    assert (K : bind (freq_range m) (fun tf => bind (body_range m bodies) (fun bs =>
      bind (match tm_dirs m with None => Ok []
            | Some dirs => mapM (diffraction_of newton immersed (fst tf) (match tm_dofs m with Some _ => true | None => false end)) (combinations (snd tf) dirs m bs)
            end) (fun diffraction =>
      bind (match tm_dofs m with None => Ok []
            | Some dofs => mapM (radiation_of newton immersed (fst tf) (tm_dirs m)) (combinations (snd tf) dofs m bs)
            end) (fun radiation => sorted_problems (List.concat diffraction ++ List.concat radiation))))) = Ok ps).
    { destruct (tm_dofs m), (tm_dirs m); try exact H. discriminate H. }
    clear H. destruct (freq_range m) as [tf|] eqn:EF; [|discriminate]. cbn [bind] in K.
    destruct (body_range m bodies) as [bs|] eqn:EB; [|discriminate]. cbn [bind] in K.
    match type of K with bind ?x _ = _ => destruct x as [dl|] eqn:ED; [|discriminate] end. cbn [bind] in K.
    match type of K with bind ?x _ = _ => destruct x as [rl|] eqn:ER; [|discriminate] end. cbn [bind] in K.
    exists (requests m tf bs), (List.concat dl ++ List.concat rl).
    assert (F : Forall2 built (requests m tf bs) (List.concat dl ++ List.concat rl)).
    { unfold requests. apply Forall2_app.
      - destruct (tm_dirs m); [|injection ED as <-; constructor]. eapply Forall2_flat; [|exact ED]. intros c p. apply diffraction_built.
      - destruct (tm_dofs m); [|injection ER as <-; constructor]. eapply Forall2_flat; [|exact ER]. intros c p. apply radiation_built. }
    split; [exact F|]. split; [|split].
    - destruct (sorted_perm (List.concat dl ++ List.concat rl)) as (r & E & P).
      + intros p Hp. destruct (Forall2_in_r _ _ _ _ F Hp) as (x & _ & B). eapply built_body; exact B.
      + rewrite E in K. injection K as <-. exact P.
    - apply requests_wanted; assumption.
    - intros D. apply requests_nodup; [exact D|exact EF|]. eapply body_range_nodup; eassumption.
  Qed.

  (** A sensible test matrix is accepted. *)
  Lemma problems_total m bodies :
    NoDup (map b_name bodies) -> (tm_dofs m <> None \/ tm_dirs m <> None) -> (List.length (tm_freqs m) <= 1)%nat ->
    (forall l n, tm_names m = Some l -> In n l -> exists b, In b bodies /\ b_name b = n) ->
    (forall r, wanted m bodies r -> exists p, built r p) ->
    (tm_dofs m = None -> forall t l, In (t, l) (tm_freqs m) -> ~ In (Fin 0) l /\ ~ In PInf l) ->
    exists ps, problems_from_dataset newton immersed m bodies = Ok ps.
  Proof.
    intros HN HD HF HB HW HL. unfold problems_from_dataset. rewrite (proj2 (all_different_iff _) HN). cbn [negb].
    assert (EF : exists tf, freq_range m = Ok tf).
    { unfold freq_range. destruct (tm_freqs m) as [|x [|]]; eauto. cbn in HF. lia. }
    destruct EF as (tf & EF).
    assert (EB : exists bs, body_range m bodies = Ok bs).
    { unfold body_range. destruct (tm_names m) as [names|]; [|eauto]. destruct (forallb _ _) eqn:E; [eauto|]. exfalso.
      apply Bool.not_true_iff_false in E. apply E. apply forallb_forall. intros n Hn. destruct (HB names n eq_refl Hn) as (b & Hb & <-).
      apply existsb_exists. exists b. split; [exact Hb|apply String.eqb_refl]. }
    destruct EB as (bs & EB).
    assert (RW := requests_wanted m tf bodies bs EF EB). unfold requests in RW.
    assert (K : exists ps, bind (freq_range m) (fun tf => bind (body_range m bodies) (fun bs =>
      bind (match tm_dirs m with None => Ok []
            | Some dirs => mapM (diffraction_of newton immersed (fst tf) (match tm_dofs m with Some _ => true | None => false end)) (combinations (snd tf) dirs m bs)
            end) (fun diffraction =>
      bind (match tm_dofs m with None => Ok []
            | Some dofs => mapM (radiation_of newton immersed (fst tf) (tm_dirs m)) (combinations (snd tf) dofs m bs)
            end) (fun radiation => sorted_problems (List.concat diffraction ++ List.concat radiation))))) = Ok ps).
    { rewrite EF, EB. cbn [bind].
      assert (ED : exists dl, match tm_dirs m with None => Ok []
            | Some dirs => mapM (diffraction_of newton immersed (fst tf) (match tm_dofs m with Some _ => true | None => false end)) (combinations (snd tf) dirs m bs)
            end = Ok dl).
      { destruct (tm_dirs m) as [dirs|]; [|eauto]. apply mapM_total. intros c Hc. apply diffraction_total.
        - intros q Hq. apply HW. apply RW. apply in_or_app. left. apply in_flat_map. eauto.
        - intros L. destruct (tm_dofs m); [reflexivity|]. exfalso. destruct c as (f & dir & h & b & u & rho & g). cbn [fst] in L.
          apply combinations_in in Hc. destruct Hc as (Hf & _). apply is_limit_iff in L.
          unfold freq_range in EF. destruct (tm_freqs m) as [|[t0 l0] [|]] eqn:E; [| |discriminate]; injection EF as <-; cbn [snd] in Hf.
          + destruct Hf as [<-|[]]. destruct L as [L|L]; [injection L; lra|discriminate].
          + destruct (HL eq_refl t0 l0 (or_introl eq_refl)) as [N0 NI]. destruct L as [-> | ->]; tauto. }
      destruct ED as (dl & ED). rewrite ED. cbn [bind].
      assert (ER : exists rl, match tm_dofs m with None => Ok []
            | Some dofs => mapM (radiation_of newton immersed (fst tf) (tm_dirs m)) (combinations (snd tf) dofs m bs)
            end = Ok rl).
      { destruct (tm_dofs m) as [dofs|]; [|eauto]. apply mapM_total. intros c Hc. apply radiation_total.
        intros q Hq. apply HW. apply RW. apply in_or_app. right. apply in_flat_map. eauto. }
      destruct ER as (rl & ER). rewrite ER. cbn [bind].
      assert (F : Forall2 built (requests m tf bs) (List.concat dl ++ List.concat rl)).
      { unfold requests. apply Forall2_app.
        - destruct (tm_dirs m); [|injection ED as <-; constructor]. eapply Forall2_flat; [|exact ED]. intros c p. apply diffraction_built.
        - destruct (tm_dofs m); [|injection ER as <-; constructor]. eapply Forall2_flat; [|exact ER]. intros c p. apply radiation_built. }
      destruct (sorted_perm (List.concat dl ++ List.concat rl)) as (r & E & P); [|eauto].
      intros p Hp. destruct (Forall2_in_r _ _ _ _ F Hp) as (x & _ & B). eapply built_body; exact B. }
    destruct (tm_dofs m), (tm_dirs m); try exact K. destruct HD; tauto.
  Qed.

  (** The refused test matrices. *)
  Lemma problems_errors m bodies :
    (~ NoDup (map b_name bodies) -> problems_from_dataset newton immersed m bodies = Err AssertionError)
    /\ (NoDup (map b_name bodies) ->
        (tm_dofs m = None -> tm_dirs m = None -> problems_from_dataset newton immersed m bodies = Err ValueError)
        /\ ((2 <= List.length (tm_freqs m))%nat -> problems_from_dataset newton immersed m bodies = Err ValueError)
        /\ ((tm_dofs m <> None \/ tm_dirs m <> None) -> (List.length (tm_freqs m) <= 1)%nat ->
            forall l n, tm_names m = Some l -> In n l -> (forall b, In b bodies -> b_name b <> n) ->
            problems_from_dataset newton immersed m bodies = Err AssertionError)).
  Proof.
    split.
    - intros H. unfold problems_from_dataset. destruct (all_different _) eqn:E; [|reflexivity]. apply all_different_iff in E. tauto.
    - intros H. unfold problems_from_dataset. rewrite (proj2 (all_different_iff _) H). cbn [negb]. repeat split.
      + intros -> ->. reflexivity.
      + intros HL. unfold freq_range. destruct (tm_freqs m) as [|? [|? ?]]; [cbn in HL; lia|cbn in HL; lia|].
        destruct (tm_dofs m), (tm_dirs m); reflexivity.
      + intros HD HL l n El Hn Hb. assert (EF : exists tf, freq_range m = Ok tf).
        { unfold freq_range. destruct (tm_freqs m) as [|x [|]]; eauto. cbn in HL. lia. }
        destruct EF as (tf & ->). assert (EB : body_range m bodies = Err AssertionError).
        { unfold body_range. rewrite El. destruct (forallb _ _) eqn:E; [|reflexivity]. exfalso. rewrite forallb_forall in E.
          specialize (E n Hn). apply existsb_exists in E. destruct E as (b & Ib & E). apply String.eqb_eq in E. apply (Hb b Ib). auto. }
        rewrite EB. destruct (tm_dofs m), (tm_dirs m); try reflexivity. destruct HD; tauto.
  Qed.
End Requests.
