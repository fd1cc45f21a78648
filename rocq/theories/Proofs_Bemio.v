(** Lemmas about the import of bemio data. *)
From Coq Require Import Reals String.
From Coq Require Import List Bool Arith Lia Lra.
From Verif Require Import Model_Base Model_Mesh Model_Bemio Spec_Bemio Proofs_Problem Proofs_Geometry Proofs_Mesh.
Import ListNotations.
Open Scope R_scope.

Lemma in_enumerate {A} (l : list A) k x : In (k, x) (enumerate l) <-> nth_error l k = Some x.
Proof.
  unfold enumerate. assert (G : forall (l : list A) s k x, In (k, x) (combine (seq s (length l)) l) <-> (s <= k)%nat /\ nth_error l (k - s) = Some x).
  { clear. induction l as [|y l IH]; intros s k x; cbn [length seq combine In].
    - split; [intros []|]. intros [_ H]. now destruct (k - s)%nat.
    - rewrite IH. split.
      + intros [E|[H1 H2]].
        * injection E as -> ->. split; [lia|]. now rewrite Nat.sub_diag.
        * split; [lia|]. replace (k - s)%nat with (S (k - S s)) by lia. exact H2.
      + intros [H1 H2]. destruct (Nat.eq_dec s k) as [->|N].
        * left. rewrite Nat.sub_diag in H2. cbn in H2. congruence.
        * right. split; [lia|]. replace (k - s)%nat with (S (k - S s)) in H2 by lia. exact H2. }
  rewrite G. rewrite Nat.sub_0_r. intuition lia.
Qed.

Lemma mapM_in {A B} (f : A -> result B) l r y : mapM f l = Ok r -> In y r -> exists x, In x l /\ f x = Ok y.
Proof.
  revert r. induction l as [|a l IH]; intros r H I; cbn [mapM] in H.
  - apply Ok_inj' in H. subst. destruct I.
  - destruct (f a) as [b|e] eqn:E; [|discriminate]. cbn [bind] in H. destruct (mapM f l) as [bs|e] eqn:E'; [|discriminate]. cbn [bind] in H.
    apply Ok_inj' in H. subst. destruct I as [<-|I]; [exists a; cbn; auto|]. destruct (IH bs eq_refl I) as (x & Hx & Fx). exists x. cbn. auto.
Qed.
Lemma mapM_out {A B} (f : A -> result B) l r x : mapM f l = Ok r -> In x l -> exists y, f x = Ok y /\ In y r.
Proof.
  revert r. induction l as [|a l IH]; intros r H I; [destruct I|]. cbn [mapM] in H.
  destruct (f a) as [b|e] eqn:E; [|discriminate]. cbn [bind] in H. destruct (mapM f l) as [bs|e] eqn:E'; [|discriminate]. cbn [bind] in H.
  apply Ok_inj' in H. subst. destruct I as [<-|I]; [exists b; cbn; auto|]. destruct (IH bs eq_refl I) as (y & Fy & Hy). exists y. cbn. auto.
Qed.
Lemma mapM_succeeds {A B} (f : A -> result B) l : (forall x, In x l -> exists y, f x = Ok y) -> exists ys, mapM f l = Ok ys.
Proof.
  induction l as [|x l IH]; intros H; cbn [mapM]; [eauto|]. destruct (H x (or_introl eq_refl)) as [y ->]. cbn [bind].
  destruct IH as [ys ->]; [intros; apply H; right; assumption|]. cbn [bind]. eauto.
Qed.

(** ** Sorting *)

Lemma insert_number_length x l : length (insert_number x l) = S (length l).
Proof. induction l as [|y l IH]; cbn [insert_number]; [reflexivity|]. destruct (Rleb x y); cbn [length]; congruence. Qed.
Lemma np_sort_length l : length (np_sort l) = length l.
Proof. induction l as [|x l IH]; cbn [np_sort fold_right]; [reflexivity|]. rewrite insert_number_length. cbn [length]. f_equal. exact IH. Qed.
Lemma np_sort_ascending l : ascending l -> np_sort l = l.
Proof.
  induction l as [|x l IH]; intros H; [reflexivity|]. cbn [np_sort fold_right]. fold (np_sort l).
  rewrite IH by (destruct l; [exact I|apply H]). destruct l as [|y l]; [reflexivity|]. cbn [insert_number].
  destruct H as [H _]. rewrite (proj2 (Rleb_true _ _) H). reflexivity.
Qed.

(** ** Arrays *)

Lemma nth_seq n k : (k < n)%nat -> nth_error (seq 0 n) k = Some k.
Proof. intros H. rewrite (nth_error_nth' _ 0%nat) by (rewrite seq_length; exact H). now rewrite seq_nth. Qed.
Lemma get_map_seq {A} (f : nat -> A) n k : (k < n)%nat -> get (map f (seq 0 n)) k = Ok (f k).
Proof. intros H. unfold get. rewrite nth_error_map, nth_seq by exact H. reflexivity. Qed.
Lemma mapM_map_ok {A B D} (g : B -> result D) (f : A -> B) (h : A -> D) l : (forall x, In x l -> g (f x) = Ok (h x)) -> mapM g (map f l) = Ok (map h l).
Proof.
  induction l as [|x l IH]; intros H; cbn [map mapM]; [reflexivity|]. rewrite (H x) by (left; reflexivity). cbn [bind].
  rewrite IH by (intros; apply H; right; assumption). reflexivity.
Qed.
Lemma column_table n1 n2 n3 f j k : (j < n2)%nat -> (k < n3)%nat -> column_of (table n1 n2 n3 f) j k = Ok (map (fun i => f i j k) (seq 0 n1)).
Proof.
  intros J K. unfold column_of, table. apply mapM_map_ok. intros i _. rewrite get_map_seq by exact J. cbn [bind]. now rewrite get_map_seq.
Qed.
Lemma row_table n1 n2 n3 f i k : (i < n1)%nat -> (k < n3)%nat -> row_of (table n1 n2 n3 f) i k = Ok (map (fun j => f i j k) (seq 0 n2)).
Proof.
  intros J K. unfold row_of, table. rewrite get_map_seq by exact J. cbn [bind]. apply mapM_map_ok. intros j _. now rewrite get_map_seq.
Qed.
Lemma nth_dofs i : (i < 6)%nat <-> exists d, nth_error dofs i = Some d.
Proof.
  change 6%nat with (length dofs). rewrite <- nth_error_Some. destruct (nth_error dofs i); split; try easy.
  - intros _. eauto.
  - intros [d H]. discriminate.
Qed.
Lemma in_combine_dofs {A} (f : nat -> A) d x : In (d, x) (combine dofs (map f (seq 0 6))) <-> exists i, nth_error dofs i = Some d /\ x = f i.
Proof.
  split.
  - intros H. apply In_nth_error in H. destruct H as (i & H). exists i.
    assert (Hi : (i < 6)%nat).
    { assert (nth_error (combine dofs (map f (seq 0 6))) i <> None) by congruence. apply nth_error_Some in H0. rewrite combine_length in H0. cbn in H0. lia. }
    do 6 (destruct i as [|i]; [cbn in H |- *; split; congruence|]). lia.
  - intros (i & H & ->). assert (Hi : (i < 6)%nat) by (apply nth_dofs; eauto).
    do 6 (destruct i as [|i]; [cbn in H; injection H as <-; cbn; tauto|]). lia.
Qed.
Lemma combine_map2 {A B D} (f : A -> B) (g : A -> D) l : combine (map f l) (map g l) = map (fun x => (f x, g x)) l.
Proof. induction l; cbn; congruence. Qed.

Section Bemio.
  Variable newton : R -> result R.
  Variables rho g : R.
  Variables wavenumber wavelength : bool.
  Notation common_of := (common_of newton g wavenumber wavelength).
  Notation difr_of := (difr_of newton rho g wavenumber wavelength).
  Notation rad_of := (rad_of newton rho g wavenumber wavelength).
  Notation body_records := (body_records newton rho g wavenumber wavelength).
  Notation bodies_loop := (bodies_loop newton rho g wavenumber wavelength).
  Notation dataframe := (dataframe_from_bemio newton rho g wavenumber wavelength).

  Lemma depth_of_given b : depth_given b (depth_of b).
  Proof. unfold depth_given, depth_of. destruct (bm_depth b); auto. Qed.
  Lemma common_of_labelled b omega c : common_of b omega = Ok c -> labelled b omega c.
  Proof.
    unfold Model_Bemio.common_of. intros H. pose proof (depth_of_given b) as D. destruct (wavenumber || wavelength).
    - destruct (wavenumber_of _ _ _ _) as [k|e]; [|discriminate]. cbn [bind] in H. apply Ok_inj' in H. subst c. split; [reflexivity|]. split; [exact D|reflexivity].
    - apply Ok_inj' in H. subst c. split; [reflexivity|]. split; [exact D|reflexivity].
  Qed.

  (** ** Every row has the name of the last body *)

  Lemma difr_of_body b fw k omega j dir d : difr_of b fw k omega j dir = Ok d -> labelled b omega (d_common d).
  Proof.
    unfold Model_Bemio.difr_of. destruct (common_of b omega) as [c|e] eqn:E; [|discriminate]. cbn [bind].
    destruct (complex_column _ _ _ _ _ _ _) as [f|e]; [|discriminate]. cbn [bind].
    match goal with |- bind ?t _ = _ -> _ => destruct t as [f'|e]; [|discriminate] end. cbn [bind]. intros H. apply Ok_inj' in H. subst d.
    cbn [d_common]. exact (common_of_labelled _ _ _ E).
  Qed.
  Lemma rad_of_body b fw k omega i dof r : rad_of b fw k omega i dof = Ok r -> labelled b omega (r_common r).
  Proof.
    unfold Model_Bemio.rad_of. destruct (row_of (bm_am b) i k) as [am|e]; [|discriminate]. cbn [bind].
    destruct (row_of (bm_rd b) i k) as [rd|e]; [|discriminate]. cbn [bind]. destruct (read_flag fw) as [[]|e]; [|discriminate]. cbn [bind].
    destruct (common_of b omega) as [c|e] eqn:E; [|discriminate]. cbn [bind]. intros H. apply Ok_inj' in H. subst r. exact (common_of_labelled _ _ _ E).
  Qed.
  Lemma body_records_in b fw ds rs : body_records b fw = Ok (ds, rs) ->
    (forall d, In d ds -> exists k omega j dir, nth_error (np_sort (bm_w b)) k = Some omega /\ nth_error (bm_dirs b) j = Some dir /\ difr_of b fw k omega j dir = Ok d) /\
    (forall r, In r rs -> exists k omega i dof, nth_error (np_sort (bm_w b)) k = Some omega /\ nth_error dofs i = Some dof /\ rad_of b fw k omega i dof = Ok r) /\
    (forall k omega j dir, nth_error (np_sort (bm_w b)) k = Some omega -> nth_error (bm_dirs b) j = Some dir -> exists d, difr_of b fw k omega j dir = Ok d /\ In d ds) /\
    (forall k omega i dof, nth_error (np_sort (bm_w b)) k = Some omega -> nth_error dofs i = Some dof -> exists r, rad_of b fw k omega i dof = Ok r /\ In r rs).
  Proof.
    unfold Model_Bemio.body_records. match goal with |- bind ?t _ = _ -> _ => destruct t as [l|e] eqn:E; [|discriminate] end. cbn [bind].
    intros H. apply Ok_inj' in H. injection H as <- <-.
    assert (T : forall k omega p, (let f := fun p => bind (mapM (fun q => difr_of b fw (fst p) (snd p) (fst q) (snd q)) (enumerate (bm_dirs b))) (fun ds =>
            bind (mapM (fun q => rad_of b fw (fst p) (snd p) (fst q) (snd q)) (enumerate dofs)) (fun rs => Ok (ds, rs))) in f (k, omega) = Ok p) ->
       mapM (fun q => difr_of b fw k omega (fst q) (snd q)) (enumerate (bm_dirs b)) = Ok (fst p) /\ mapM (fun q => rad_of b fw k omega (fst q) (snd q)) (enumerate dofs) = Ok (snd p)).
    { intros k omega p. cbv zeta. cbn [fst snd]. destruct (mapM _ (enumerate (bm_dirs b))) as [ds|e]; [|discriminate]. cbn [bind].
      destruct (mapM _ (enumerate dofs)) as [rs|e]; [|discriminate]. cbn [bind]. intros H. apply Ok_inj' in H. subst p. auto. }
    refine (conj _ (conj _ (conj _ _))).
    - intros d Hd. apply in_concat in Hd. destruct Hd as (ds & Hds & Hd). apply in_map_iff in Hds. destruct Hds as (p & <- & Hp).
      destruct (mapM_in _ _ _ _ E Hp) as ([k omega] & Hk & F). apply T in F. destruct F as [F _].
      destruct (mapM_in _ _ _ _ F Hd) as ([j dir] & Hj & D). apply in_enumerate in Hk, Hj. cbn [fst snd] in D. eauto 8.
    - intros r Hr. apply in_concat in Hr. destruct Hr as (rs & Hrs & Hr). apply in_map_iff in Hrs. destruct Hrs as (p & <- & Hp).
      destruct (mapM_in _ _ _ _ E Hp) as ([k omega] & Hk & F). apply T in F. destruct F as [_ F].
      destruct (mapM_in _ _ _ _ F Hr) as ([i dof] & Hi & D). apply in_enumerate in Hk, Hi. cbn [fst snd] in D. eauto 8.
    - intros k omega j dir Hk Hj. apply in_enumerate in Hk, Hj. destruct (mapM_out _ _ _ _ E Hk) as (p & F & Hp). apply T in F. destruct F as [F _].
      destruct (mapM_out _ _ _ _ F Hj) as (d & D & Hd). exists d. cbn [fst snd] in D. split; [exact D|]. apply in_concat. exists (fst p). split; [apply in_map; exact Hp|exact Hd].
    - intros k omega i dof Hk Hi. apply in_enumerate in Hk, Hi. destruct (mapM_out _ _ _ _ E Hk) as (p & F & Hp). apply T in F. destruct F as [_ F].
      destruct (mapM_out _ _ _ _ F Hi) as (r & D & Hr). exists r. cbn [fst snd] in D. split; [exact D|]. apply in_concat. exists (snd p). split; [apply in_map; exact Hp|exact Hr].
  Qed.

  (** The records kept are those of the last turn. *)
  Definition flag_after (bodies : list bemio_body) (fw : bool) (indices : list nat) : bool :=
    fold_left (fun fw i => fw || match nth_error bodies i with Some b => String.eqb (bm_code b) "WAMIT" | None => false end) indices fw.
  Lemma bodies_loop_last bodies indices : forall i fw records out, bodies_loop bodies (indices ++ [i]) fw records = Ok out ->
    exists b r, nth_error bodies i = Some b /\ body_records b (flag_after bodies fw (indices ++ [i])) = Ok r /\ out = Some r.
  Proof.
    induction indices as [|k indices IH]; intros i fw records out H; cbn [app Model_Bemio.bodies_loop] in H.
    - destruct (get bodies i) as [b|e] eqn:G; [|discriminate]. cbn [bind] in H. apply get_ok in G.
      destruct (body_records b _) as [r|e] eqn:E; [|discriminate]. cbn [bind] in H. apply Ok_inj' in H. exists b, r. cbn [app flag_after fold_left]. rewrite G. auto.
    - destruct (get bodies k) as [b|e] eqn:G; [|discriminate]. cbn [bind] in H. apply get_ok in G.
      destruct (body_records b _) as [r|e] eqn:E; [|discriminate]. cbn [bind] in H.
      destruct (IH _ _ _ _ H) as (b' & r' & N & E' & ->). exists b', r'. cbn [app flag_after fold_left]. rewrite G. auto.
  Qed.
  Lemma dataframe_last bodies n rows : dataframe bodies n = Ok rows -> exists n' b ds rs, n = S n' /\ nth_error bodies n' = Some b /\
    body_records b (flag_after bodies false (seq 0 n)) = Ok (ds, rs) /\
    exists a c, explode_difr ds = Ok a /\ explode_rad rs = Ok c /\ rows = a ++ c.
  Proof.
    unfold dataframe_from_bemio. destruct bodies as [|b0 bodies']; [discriminate|]. remember (b0 :: bodies') as bodies. cbn [bind].
    destruct n as [|n]; [discriminate|]. rewrite seq_S. cbn [plus].
    destruct (bodies_loop bodies (seq 0 n ++ [n]) false None) as [out|e] eqn:E; [|discriminate]. cbn [bind].
    destruct (bodies_loop_last _ _ _ _ _ _ E) as (b & [ds rs] & N & R & ->).
    destruct (explode_difr ds) as [a|e] eqn:A; [|discriminate]. cbn [bind]. destruct (explode_rad rs) as [c|e] eqn:C; [|discriminate]. cbn [bind].
    intros H. apply Ok_inj' in H. exists n, b, ds, rs. rewrite <- H. eauto 10.
  Qed.
  Lemma explode_difr_in ds a : explode_difr ds = Ok a -> forall r, In r a -> exists d dof x y, In d ds /\ In (dof, (x, y)) (combine dofs (combine (d_force d) (d_fk d))) /\
    r = DiffractionRow (d_common d) (d_period d) (d_direction d) dof x y.
  Proof.
    unfold explode_difr. destruct ds as [|d0 ds']; [discriminate|]. remember (d0 :: ds') as ds. destruct (forallb _ ds); [|discriminate].
    intros H r Hr. apply Ok_inj' in H. subst a. apply in_concat in Hr. destruct Hr as (l & Hl & Hr). apply in_map_iff in Hl. destruct Hl as (d & <- & Hd).
    apply in_map_iff in Hr. destruct Hr as ([dof [x y]] & <- & Hx). exists d, dof, x, y. auto.
  Qed.
  Lemma explode_rad_in rs a : explode_rad rs = Ok a -> forall r, In r a -> exists d dof x y, In d rs /\ In (dof, (x, y)) (combine dofs (combine (r_mass d) (r_damping d))) /\
    r = RadiationRow (r_common d) (r_dof d) dof x y.
  Proof.
    unfold explode_rad. destruct rs as [|d0 ds']; [discriminate|]. remember (d0 :: ds') as rs. destruct (forallb _ rs); [|discriminate].
    intros H r Hr. apply Ok_inj' in H. subst a. apply in_concat in Hr. destruct Hr as (l & Hl & Hr). apply in_map_iff in Hl. destruct Hl as (d & <- & Hd).
    apply in_map_iff in Hr. destruct Hr as ([dof [x y]] & <- & Hx). exists d, dof, x, y. auto.
  Qed.

  (** ** The wavenumbers *)
  Section Waves.
  Hypothesis Hg : g <> 0.
  Hypothesis Hn : forall c x, newton c = Ok x -> x * tanh x = c.
  Lemma over_turn x : turn_over x (over x).
  Proof. unfold turn_over, over. split; intros H; [subst x; now rewrite Reqb_refl|now rewrite Reqb_false]. Qed.
  Lemma wavenumber_of_right h omega k : wavenumber_of newton g h omega = Ok k -> wavenumber_is g h omega k.
  Proof.
    destruct h as [d| | |]; cbn [wavenumber_of wavenumber_is]; try discriminate.
    - destruct (Rltb 20 _) eqn:E.
      + apply Rltb_true in E. intros H. apply Ok_inj' in H. subst k. split; intros L; [field; exact Hg|lra].
      + apply Rltb_false in E. destruct (newton _) as [x|] eqn:En; [|discriminate]. cbn [bind]. destruct (Reqb d 0) eqn:Ed; [discriminate|]. intros H. apply Ok_inj' in H. subst k.
        assert (Hd : d <> 0) by (intros ->; rewrite Reqb_refl in Ed; discriminate). apply Hn in En. split; intros L; [lra|].
        replace (x / d * d) with x by (field; exact Hd). replace (g * (x / d) * tanh x) with (x * tanh x * g / d) by (field; exact Hd). rewrite En. field. split; assumption.
    - intros H. apply Ok_inj' in H. subst k. field. exact Hg.
  Qed.
  Lemma common_of_waves b omega c : common_of b omega = Ok c -> waves_right g wavenumber wavelength c.
  Proof.
    unfold Model_Bemio.common_of. destruct (wavenumber || wavelength) eqn:W.
    - destruct (wavenumber_of newton g (depth_of b) omega) as [k|e] eqn:E; [|discriminate]. cbn [bind]. intros H. apply Ok_inj' in H. subst c. apply wavenumber_of_right in E.
      unfold waves_right. cbn [c_wavenumber c_wavelength c_depth c_omega]. split; [now intros ->|]. split; [now intros ->|]. split; intros ->; [eauto|]. exists k, (over k). split; [reflexivity|]. split; [apply over_turn|exact E].
    - intros H. apply Ok_inj' in H. subst c. apply orb_false_elim in W. destruct W as [-> ->]. unfold waves_right. cbn. repeat split; discriminate.
  Qed.
  Lemma rows_waves bodies n rows : dataframe bodies n = Ok rows -> forall r, In r rows ->
    waves_right g wavenumber wavelength (common_of_row r) /\ (forall p, period_of_row r = Some p -> turn_over (c_omega (common_of_row r)) p).
  Proof.
    intros H r Hr. destruct (dataframe_last _ _ _ H) as (n' & b & ds & rs & E & N & R & a & c & A & C & ->).
    destruct (body_records_in _ _ _ _ R) as (P & Q & _ & _). apply in_app_iff in Hr. destruct Hr as [Hr|Hr].
    - destruct (explode_difr_in _ _ A r Hr) as (d & dof & x & y & Hd & _ & ->). destruct (P d Hd) as (k & omega & j & dir & _ & _ & D). cbn [common_of_row period_of_row].
      revert D. unfold Model_Bemio.difr_of. destruct (common_of b omega) as [c0|e] eqn:E0; [|discriminate]. cbn [bind].
      destruct (complex_column _ _ _ _ _ _ _) as [f|e]; [|discriminate]. cbn [bind].
      match goal with |- bind ?t _ = _ -> _ => destruct t as [f'|e]; [|discriminate] end. cbn [bind]. intros D. apply Ok_inj' in D. subst d. cbn [d_common d_period].
      split; [exact (common_of_waves _ _ _ E0)|]. intros p Hp. injection Hp as <-. destruct (common_of_labelled _ _ _ E0) as (_ & _ & ->). apply over_turn.
    - destruct (explode_rad_in _ _ C r Hr) as (d & dof & x & y & Hd & _ & ->). destruct (Q d Hd) as (k & omega & j & dir & _ & _ & D). cbn [common_of_row period_of_row]. split; [|discriminate].
      revert D. unfold Model_Bemio.rad_of. destruct (row_of (bm_am b) j k) as [am|e]; [|discriminate]. cbn [bind].
      destruct (row_of (bm_rd b) j k) as [rd|e]; [|discriminate]. cbn [bind]. destruct (read_flag _) as [[]|e]; [|discriminate]. cbn [bind].
      destruct (common_of b omega) as [c0|e] eqn:E0; [|discriminate]. cbn [bind]. intros D. apply Ok_inj' in D. subst d. exact (common_of_waves _ _ _ E0).
  Qed.
  End Waves.

  Lemma only_last_body bodies n rows last : dataframe bodies (S n) = Ok rows -> nth_error bodies n = Some last -> forall r, In r rows -> body_of r = bm_name last.
  Proof.
    intros H L r Hr. destruct (dataframe_last _ _ _ H) as (n' & b & ds & rs & E & N & R & a & c & A & C & ->). injection E as <-.
    assert (b = last) by congruence. subst b. destruct (body_records_in _ _ _ _ R) as (P & Q & _ & _).
    apply in_app_iff in Hr. destruct Hr as [Hr|Hr].
    - destruct (explode_difr_in _ _ A r Hr) as (d & dof & x & y & Hd & _ & ->). destruct (P d Hd) as (k & omega & j & dir & _ & _ & D). cbn [body_of].
      apply (difr_of_body _ _ _ _ _ _ _ D).
    - destruct (explode_rad_in _ _ C r Hr) as (d & dof & x & y & Hd & _ & ->). destruct (Q d Hd) as (k & omega & j & dir & _ & _ & D). cbn [body_of].
      apply (rad_of_body _ _ _ _ _ _ _ D).
  Qed.

  (** ** Data of another code *)

  Lemma flag_after_false bodies indices : Forall (fun b => bm_code b <> "WAMIT"%string) bodies -> flag_after bodies false indices = false.
  Proof.
    intros H. unfold flag_after. induction indices as [|i indices IH]; [reflexivity|]. cbn [fold_left orb].
    replace (match nth_error bodies i with Some b => String.eqb (bm_code b) "WAMIT" | None => false end) with false; [exact IH|].
    destruct (nth_error bodies i) as [b|] eqn:E; [|reflexivity]. symmetry. apply String.eqb_neq. rewrite Forall_forall in H. apply H. eapply nth_error_In; exact E.
  Qed.
  Lemma explode_rad_some rs a : explode_rad rs = Ok a -> exists r, In r rs.
  Proof. unfold explode_rad. destruct rs as [|r rs]; [discriminate|]. intros _. exists r. left. reflexivity. Qed.
  Lemma other_codes bodies n rows : Forall (fun b => bm_code b <> "WAMIT"%string) bodies -> dataframe bodies n <> Ok rows.
  Proof.
    intros F H. destruct (dataframe_last _ _ _ H) as (n' & b & ds & rs & -> & N & R & a & c & A & C & _). rewrite flag_after_false in R by exact F.
    destruct (explode_rad_some _ _ C) as (r & Hr). destruct (body_records_in _ _ _ _ R) as (_ & Q & _ & _).
    destruct (Q r Hr) as (k & omega & i & dof & _ & _ & D). unfold Model_Bemio.rad_of in D.
    destruct (row_of (bm_am b) i k); [|discriminate]. cbn [bind] in D. destruct (row_of (bm_rd b) i k); discriminate.
  Qed.

  (** ** The matrices of several bodies *)

  Lemma mapM_len {A B} (f : A -> result B) l r : mapM f l = Ok r -> length r = length l.
  Proof. intros H. apply mapM_ok in H. apply H. Qed.
  Lemma wide_matrices bodies n rows last : nth_error bodies n = Some last -> (forall m, In m (bm_am last) -> length m <> 6%nat) -> dataframe bodies (S n) <> Ok rows.
  Proof.
    intros L W H. destruct (dataframe_last _ _ _ H) as (n' & b & ds & rs & E & N & R & a & c & A & C & _). injection E as <-.
    assert (b = last) by congruence. subst b. destruct (explode_rad_some _ _ C) as (r & Hr). destruct (body_records_in _ _ _ _ R) as (_ & Q & _ & _).
    destruct (Q r Hr) as (k & omega & i & dof & _ & _ & D). unfold Model_Bemio.rad_of in D.
    destruct (row_of (bm_am last) i k) as [am|] eqn:Ea; [|discriminate]. cbn [bind] in D. destruct (row_of (bm_rd last) i k) as [rd|]; [|discriminate]. cbn [bind] in D.
    destruct (read_flag _); [|discriminate]. cbn [bind] in D. destruct (common_of last omega) as [cc|]; [|discriminate]. cbn [bind] in D. apply Ok_inj' in D. subst r.
    unfold row_of in Ea. destruct (get (bm_am last) i) as [m|] eqn:G; [|discriminate]. cbn [bind] in Ea. apply mapM_len in Ea. apply get_ok, nth_error_In, W in G.
    unfold explode_rad in C. destruct rs as [|r0 rs']; [discriminate|]. remember (r0 :: rs') as rs. destruct (forallb _ rs) eqn:Fb; [|discriminate].
    rewrite forallb_forall in Fb. specialize (Fb _ Hr). cbn [r_mass] in Fb. apply andb_prop in Fb. destruct Fb as [Fb _]. apply Nat.eqb_eq in Fb.
    rewrite map_length, Ea in Fb. cbn in Fb. contradiction.
  Qed.

  (** ** A body with regular arrays *)

  Lemma complex_table n2 n3 re im j k : (j < n2)%nat -> (k < n3)%nat ->
    complex_column rho g (table 6 n2 n3 re) (table 6 n2 n3 im) true j k = Ok (map (fun i => (re i j k * rho * g, im i j k * rho * g)) (seq 0 6)).
  Proof.
    intros J K. unfold complex_column. rewrite !column_table by assumption. cbn [bind read_flag]. rewrite !map_length, Nat.eqb_refl.
    rewrite !map_map, combine_map2. reflexivity.
  Qed.
  Lemma nth_lt {A} (l : list A) k x : nth_error l k = Some x -> (k < length l)%nat.
  Proof. intros H. apply nth_error_Some. congruence. Qed.

  Lemma explode_difr_if l : (exists d, In d l) -> explode_difr l =
    if forallb (fun d => Nat.eqb (length (d_force d)) (length dofs) && Nat.eqb (length (d_fk d)) (length dofs)) l
      then Ok (concat (map (fun d => map (fun x => DiffractionRow (d_common d) (d_period d) (d_direction d) (fst x) (fst (snd x)) (snd (snd x)))
                 (combine dofs (combine (d_force d) (d_fk d)))) l))
      else Err ValueError.
  Proof. intros [d H]. destruct l; [destruct H|reflexivity]. Qed.
  Lemma explode_rad_if l : (exists d, In d l) -> explode_rad l =
    if forallb (fun r => Nat.eqb (length (r_mass r)) (length dofs) && Nat.eqb (length (r_damping r)) (length dofs)) l
      then Ok (concat (map (fun r => map (fun x => RadiationRow (r_common r) (r_dof r) (fst x) (fst (snd x)) (snd (snd x)))
                 (combine dofs (combine (r_mass r) (r_damping r)))) l))
      else Err ValueError.
  Proof. intros [d H]. destruct l; [destruct H|reflexivity]. Qed.

  Section Regular.
    Variable b : bemio_body.
    Variable e : entries.
    Hypothesis Ar : arrays_are b e.
    Hypothesis Wn : forall omega, In omega (np_sort (bm_w b)) -> exists c, common_of b omega = Ok c.

    Lemma difr_regular k omega j dir : nth_error (np_sort (bm_w b)) k = Some omega -> nth_error (bm_dirs b) j = Some dir ->
      exists c, common_of b omega = Ok c /\
      difr_of b true k omega j dir = Ok (Difr c (over omega) (dir * PI / 180) (map (fun i => force_value rho g e i j k) (seq 0 6)) (map (fun i => fk_value rho g e i j k) (seq 0 6))).
    Proof.
      intros Hk Hj. destruct (Wn omega (nth_error_In _ _ Hk)) as (c & Ec). exists c. split; [exact Ec|].
      apply nth_lt in Hk, Hj. rewrite np_sort_length in Hk. destruct Ar as (A1 & A2 & A3 & _ & _).
      unfold Model_Bemio.difr_of. rewrite Ec. cbn [bind]. rewrite A1, A2, A3. rewrite complex_table by assumption. cbn [bind].
      unfold fk_value. destruct (e_fk e) as [[re im]|]; cbn [option_map fst snd].
      - rewrite complex_table by assumption. reflexivity.
      - rewrite column_table by assumption. cbn [bind]. rewrite map_map. reflexivity.
    Qed.
    Lemma rad_regular k omega i dof : nth_error (np_sort (bm_w b)) k = Some omega -> nth_error dofs i = Some dof ->
      exists c, common_of b omega = Ok c /\
      rad_of b true k omega i dof = Ok (Rad c dof (map (fun j => e_am e i j k * rho) (seq 0 6)) (map (fun j => e_rd e i j k * rho * omega) (seq 0 6))).
    Proof.
      intros Hk Hi. destruct (Wn omega (nth_error_In _ _ Hk)) as (c & Ec). exists c. split; [exact Ec|].
      apply nth_lt in Hk. rewrite np_sort_length in Hk. assert (i < 6)%nat by (apply nth_dofs; eauto). destruct Ar as (_ & _ & _ & A4 & A5).
      unfold Model_Bemio.rad_of. rewrite A4, A5, !row_table by assumption. cbn [bind read_flag]. rewrite Ec. cbn [bind]. rewrite !map_map. reflexivity.
    Qed.
    Lemma body_records_regular : exists ds rs, body_records b true = Ok (ds, rs).
    Proof.
      unfold Model_Bemio.body_records. match goal with |- context [bind ?t _] => assert (E : exists l, t = Ok l) end.
      { apply mapM_succeeds. intros [k omega] Hk. apply in_enumerate in Hk. cbn [fst snd].
        destruct (mapM_succeeds (fun q => difr_of b true k omega (fst q) (snd q)) (enumerate (bm_dirs b))) as [ds ->].
        { intros [j dir] Hj. apply in_enumerate in Hj. destruct (difr_regular k omega j dir Hk Hj) as (c & _ & D). cbn [fst snd]. eauto. }
        cbn [bind]. destruct (mapM_succeeds (fun q => rad_of b true k omega (fst q) (snd q)) (enumerate dofs)) as [rs ->].
        { intros [i dof] Hi. apply in_enumerate in Hi. destruct (rad_regular k omega i dof Hk Hi) as (c & _ & D). cbn [fst snd]. eauto. }
        cbn [bind]. eauto. }
      destruct E as [l ->]. cbn [bind]. eauto.
    Qed.
    Lemma rows_regular ds rs : body_records b true = Ok (ds, rs) -> bm_w b <> [] -> bm_dirs b <> [] ->
      exists a c, explode_difr ds = Ok a /\ explode_rad rs = Ok c /\
      (forall r, In r (a ++ c) -> describes rho g b e (np_sort (bm_w b)) r) /\ complete rho g b e (np_sort (bm_w b)) (a ++ c).
    Proof.
      intros R W D. destruct (body_records_in _ _ _ _ R) as (P & Q & P' & Q').
      assert (Dn : exists d, In d ds).
      { destruct (np_sort (bm_w b)) as [|om l] eqn:Es; [apply (f_equal (@length Rdefinitions.R)) in Es; rewrite np_sort_length in Es; destruct (bm_w b); [contradiction|discriminate]|].
        destruct (bm_dirs b) as [|dir l'] eqn:Ed; [contradiction|]. destruct (P' 0%nat om 0%nat dir eq_refl eq_refl) as (d & _ & Hd). eauto. }
      assert (Rn : exists r, In r rs).
      { destruct (np_sort (bm_w b)) as [|om l] eqn:Es; [apply (f_equal (@length Rdefinitions.R)) in Es; rewrite np_sort_length in Es; destruct (bm_w b); [contradiction|discriminate]|].
        destruct (Q' 0%nat om 0%nat "Surge"%string eq_refl eq_refl) as (r & _ & Hr). eauto. }
      set (rows_d := concat (map (fun d => map (fun x => DiffractionRow (d_common d) (d_period d) (d_direction d) (fst x) (fst (snd x)) (snd (snd x)))
                 (combine dofs (combine (d_force d) (d_fk d)))) ds)).
      set (rows_r := concat (map (fun r => map (fun x => RadiationRow (r_common r) (r_dof r) (fst x) (fst (snd x)) (snd (snd x)))
                 (combine dofs (combine (r_mass r) (r_damping r)))) rs)).
      assert (Ed : explode_difr ds = Ok rows_d).
      { rewrite explode_difr_if by exact Dn.
        replace (forallb _ ds) with true; [reflexivity|]. symmetry. apply forallb_forall. intros d Hd.
        destruct (P d Hd) as (k & omega & j & dir & Hk & Hj & Eq). destruct (difr_regular k omega j dir Hk Hj) as (c & _ & Eq'). rewrite Eq in Eq'. apply Ok_inj' in Eq'. subst d.
        cbn [d_force d_fk]. rewrite !map_length, seq_length. reflexivity. }
      assert (Er : explode_rad rs = Ok rows_r).
      { rewrite explode_rad_if by exact Rn.
        replace (forallb _ rs) with true; [reflexivity|]. symmetry. apply forallb_forall. intros d Hd.
        destruct (Q d Hd) as (k & omega & j & dir & Hk & Hj & Eq). destruct (rad_regular k omega j dir Hk Hj) as (c & _ & Eq'). rewrite Eq in Eq'. apply Ok_inj' in Eq'. subst d.
        cbn [r_mass r_damping]. rewrite !map_length, seq_length. reflexivity. }
      exists rows_d, rows_r. refine (conj Ed (conj Er (conj _ (conj _ _)))).
      - intros r Hr. apply in_app_iff in Hr. destruct Hr as [Hr|Hr].
        + left. destruct (explode_difr_in _ _ Ed r Hr) as (d & dof & x & y & Hd & Hx & ->). destruct (P d Hd) as (k & omega & j & dir & Hk & Hj & Eq).
          destruct (difr_regular k omega j dir Hk Hj) as (c & Ec & Eq'). rewrite Eq in Eq'. apply Ok_inj' in Eq'. subst d. cbn [d_force d_fk d_common d_period d_direction] in *.
          rewrite combine_map2 in Hx. apply in_combine_dofs in Hx. destruct Hx as (i & Hi & E). injection E as -> ->.
          exists i, j, k, dof, dir, omega, c, (over omega). pose proof (common_of_labelled _ _ _ Ec). auto 10.
        + right. destruct (explode_rad_in _ _ Er r Hr) as (d & dof & x & y & Hd & Hx & ->). destruct (Q d Hd) as (k & omega & i & dof0 & Hk & Hi & Eq).
          destruct (rad_regular k omega i dof0 Hk Hi) as (c & Ec & Eq'). rewrite Eq in Eq'. apply Ok_inj' in Eq'. subst d. cbn [r_mass r_damping r_common r_dof] in *.
          rewrite combine_map2 in Hx. apply in_combine_dofs in Hx. destruct Hx as (i' & Hi' & E). injection E as -> ->.
          exists i, i', k, dof0, dof, omega, c. pose proof (common_of_labelled _ _ _ Ec). auto 10.
      - intros i j k dof dir omega Hi Hj Hk. destruct (P' k omega j dir Hk Hj) as (d & Eq & Hd).
        destruct (difr_regular k omega j dir Hk Hj) as (c & Ec & Eq'). rewrite Eq in Eq'. apply Ok_inj' in Eq'. exists c, (over omega). split; [exact (common_of_labelled _ _ _ Ec)|].
        apply in_app_iff. left. unfold rows_d. apply in_concat. eexists. split; [apply in_map; exact Hd|]. subst d. cbn [d_force d_fk d_common d_period d_direction].
        apply in_map_iff. exists (dof, (force_value rho g e i j k, fk_value rho g e i j k)). split; [reflexivity|]. rewrite combine_map2. apply in_combine_dofs. eauto.
      - intros i i' k dof dof' omega Hi Hi' Hk. destruct (Q' k omega i dof Hk Hi) as (d & Eq & Hd).
        destruct (rad_regular k omega i dof Hk Hi) as (c & Ec & Eq'). rewrite Eq in Eq'. apply Ok_inj' in Eq'. exists c. split; [exact (common_of_labelled _ _ _ Ec)|].
        apply in_app_iff. right. unfold rows_r. apply in_concat. eexists. split; [apply in_map; exact Hd|]. subst d. cbn [r_mass r_damping r_common r_dof].
        apply in_map_iff. exists (dof', (e_am e i i' k * rho, e_rd e i i' k * rho * omega)). split; [reflexivity|]. rewrite combine_map2. apply in_combine_dofs. eauto.
    Qed.
  End Regular.

  (** All the bodies are regular and the first one comes from WAMIT. *)
  Definition regular (b : bemio_body) : Prop := exists e, arrays_are b e /\ forall omega, In omega (np_sort (bm_w b)) -> exists c, common_of b omega = Ok c.
  Lemma bodies_loop_regular bodies indices : (forall i, In i indices -> exists b, nth_error bodies i = Some b /\ regular b) -> forall records,
    exists out, bodies_loop bodies indices true records = Ok out /\ (indices = [] -> out = records).
  Proof.
    induction indices as [|i indices IH]; intros H records; cbn [Model_Bemio.bodies_loop].
    - exists records. auto.
    - destruct (H i (or_introl eq_refl)) as (b & N & e & Ar & Wn). apply get_ok in N. rewrite N. cbn [bind orb].
      destruct (body_records_regular b e Ar Wn) as (ds & rs & ->). cbn [bind].
      destruct (IH (fun j Hj => H j (or_intror Hj)) (Some (ds, rs))) as (out & E & _). exists out. split; [exact E|discriminate].
  Qed.
  Lemma flag_after_true bodies indices : flag_after bodies true indices = true.
  Proof. unfold flag_after. induction indices as [|i indices IH]; [reflexivity|]. exact IH. Qed.

  Lemma last_body_imported first others n last e : bm_code first = "WAMIT"%string -> (forall i, (i <= n)%nat -> exists b, nth_error (first :: others) i = Some b /\ regular b) ->
    nth_error (first :: others) n = Some last -> arrays_are last e -> bm_w last <> [] -> bm_dirs last <> [] ->
    exists rows, dataframe (first :: others) (S n) = Ok rows /\ (forall r, In r rows -> describes rho g last e (np_sort (bm_w last)) r) /\
      complete rho g last e (np_sort (bm_w last)) rows.
  Proof.
    intros C Rg L Ar W D. unfold dataframe_from_bemio. cbn [bind].
    assert (T : exists out, bodies_loop (first :: others) (seq 0 (S n)) false None = Ok out).
    { cbn [seq Model_Bemio.bodies_loop]. change (get (first :: others) 0) with (Ok first). cbn [bind]. rewrite C. cbn [String.eqb Ascii.eqb Bool.eqb orb].
      destruct (Rg 0%nat (Nat.le_0_l _)) as (b & N & e0 & Ar0 & Wn0). cbn in N. injection N as <-.
      change (String.eqb "WAMIT" "WAMIT") with true.
      destruct (body_records_regular first e0 Ar0 Wn0) as (ds & rs & ->). cbn [bind].
      destruct (bodies_loop_regular (first :: others) (seq 1 n)) with (records := Some (ds, rs)) as (out & E & _); [|eauto].
      intros i Hi. apply in_seq in Hi. apply Rg. lia. }
    destruct T as (out & E). rewrite E. cbn [bind]. rewrite seq_S in E. cbn [plus] in E.
    destruct (bodies_loop_last _ _ _ _ _ _ E) as (b & [ds rs] & N & R & ->). assert (b = last) by congruence. subst b.
    destruct (Rg n (le_n _)) as (b & N' & e' & Ar' & Wn'). assert (b = last) by congruence. subst b.
    assert (Fl : flag_after (first :: others) false (seq 0 n ++ [n]) = true).
    { change (seq 0 n ++ [n]) with (seq 0 n ++ [(0 + n)%nat]). rewrite <- seq_S. cbn [seq]. unfold flag_after. cbn [fold_left nth_error orb]. rewrite C. apply flag_after_true. }
    rewrite Fl in R. destruct (rows_regular last e Ar Wn' ds rs R W D) as (a & c & -> & -> & P & Q). cbn [bind]. eauto.
  Qed.
End Bemio.
