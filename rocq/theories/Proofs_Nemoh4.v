(** Exporting a problem as a Nemoh directory and reading it back. *)
From Coq Require Import Reals String Ascii.
From Coq Require Import List Bool ZArith Arith Lia Lra.
From Verif Require Import Model_Base Model_Geometry Model_Mesh Model_Tree Model_Text Model_Files Model_Grid Model_Problem Model_Body.
From Verif Require Import Proofs_Text Proofs_Files Proofs_Files2 Spec_Files Spec_Nemoh Model_Nemoh Spec_NemohFiles Proofs_Nemoh Proofs_Nemoh3.
Import ListNotations.
Open Scope nat_scope.

Lemma split_word_then w c rest : is_word w -> blank c = true -> split (w ++ c :: rest) = w :: split rest.
Proof.
  intros [N W] B. unfold split. rewrite (split_aux_word w [] _ W), app_nil_r.
  change (c :: rest) with ([c] ++ rest). rewrite split_aux_end.
  - now rewrite rev_involutive.
  - intros E. apply N. rewrite <- (rev_involutive w), E. reflexivity.
  - now repeat constructor.
  - discriminate.
Qed.
Lemma begins_first w c rest : is_word w -> blank c = true -> begins [w] (w ++ c :: rest).
Proof. intros W B. exists (split rest). now apply split_word_then. Qed.

Ltac ol :=
  lazymatch goal with
  | |- one_line (_ ++ _) => apply one_line_app; ol
  | |- one_line (_ :: ?t) => constructor; [reflexivity|change (one_line t); ol]
  | |- one_line (lit _) => apply lit_one_line; reflexivity
  | |- _ => apply word_one_line; auto
  end.

Section Export.
  Variable show : R -> text.
  Local Notation printed := (Spec_NemohFiles.printed show).
  Local Notation printed_depth := (Spec_NemohFiles.printed_depth show).

  Lemma gives_first x rest : printed x -> gives x (line (show x ++ tab :: rest)).
  Proof.
    intros (W & _ & F). exists (show x). split; [|exact F]. unfold line. rewrite <- app_assoc. cbn [app]. now apply begins_first.
  Qed.

  Definition depth_number (h : ext) : R := match h with Fin x => x | _ => 0%R end.
  Lemma real_lit s m e : float_of (lit s) = Ok (IZR m * pow10 e)%R -> forall x, (IZR m * pow10 e = x)%R -> is_real x (lit s).
  Proof. unfold is_real. now intros -> x ->. Qed.
  Lemma zero_word : is_real 0 (lit "0").
  Proof. apply (real_lit "0" 0 0); [reflexivity|]. ring. Qed.
  Lemma zero_dot : is_real 0 (lit "0.").
  Proof. apply (real_lit "0." 0 0); [reflexivity|]. ring. Qed.
  Lemma one_dot : is_real 1 (lit "1.").
  Proof. apply (real_lit "1." 1 0); [reflexivity|]. unfold pow10. cbn. ring. Qed.
  Lemma half_turn : is_real 180 (lit "180.").
  Proof. apply (real_lit "180." 180 0); [reflexivity|]. unfold pow10. cbn. ring. Qed.
  Lemma gives_depth h rest : printed_depth h -> gives (depth_number h) (line (show_depth show h ++ tab :: rest)).
  Proof.
    destruct h as [x| | |]; cbn [printed_depth show_depth depth_number]; try contradiction.
    - intros [P _]. now apply gives_first.
    - intros _. exists (lit "0"). split; [|exact zero_word]. unfold line. rewrite <- app_assoc. apply begins_first; [|reflexivity].
      split; [discriminate|repeat constructor].
  Qed.
  Lemma depth_back h : printed_depth h -> water_depth (depth_number h) = h.
  Proof.
    destruct h as [x| | |]; cbn [printed_depth depth_number]; try contradiction; unfold water_depth.
    - intros [_ N]. destruct (Req_EM_T x 0); [contradiction|reflexivity].
    - intros _. destruct (Req_EM_T 0 0); [reflexivity|lra].
  Qed.
  Lemma show_depth_word h : printed_depth h -> is_word (show_depth show h).
  Proof. destruct h; cbn; try contradiction; [intros [[W _] _]; exact W|intros _; split; [discriminate|repeat constructor]]. Qed.

  Definition exported_cal (p : exported) (r : range) : cal :=
    Cal (x_rho p) (x_g p) (depth_number (x_depth p))
        [Section_of (x_name p ++ lit ".dat") [Translation (V 0 0 1)] [Translation (V 0 0 1)]] RadPerSecond r (Range 0 0 0).

  Lemma words_no_mark t : digits t -> no_mark t.
  Proof.
    intros D. eapply Forall_impl; [|exact D]. intros c H. cbn in H. unfold is_digit, digit_value in H. unfold is_char.
    destruct (Nat.eqb_spec (nat_of_ascii c) 33) as [E|]; [|reflexivity]. rewrite E in H. discriminate.
  Qed.
  Lemma no_mark_app a b : no_mark a -> no_mark b -> no_mark (a ++ b).
  Proof. intros. now apply Forall_app. Qed.

  Lemma frequency_exported r n : printed (r_first r) -> printed (r_last r) -> n = Z.of_nat (r_number r) ->
    frequency_line RadPerSecond r (line (dec n ++ lit " " ++ show (r_first r) ++ lit " " ++ show (r_last r) ++ lit " ! Frequencies range")).
  Proof.
    intros (W1 & M1 & F1) (W2 & M2 & F2) ->.
    exists (dec (Z.of_nat (r_number r)) ++ space :: show (r_first r) ++ space :: show (r_last r) ++ [space]).
    assert (WD : is_word (dec (Z.of_nat (r_number r)))) by (apply dec_word; lia).
    split; [split|left; split; [reflexivity|]].
    - apply no_mark_app; [apply words_no_mark, dec_digits|]. constructor; [reflexivity|]. apply no_mark_app; [exact M1|].
      constructor; [reflexivity|]. apply no_mark_app; [exact M2|]. repeat constructor.
    - right. exists (lit " Frequencies range" ++ [newline]). unfold line. rewrite <- !app_assoc. cbn [app]. rewrite <- !app_assoc. cbn [app].
      rewrite <- !app_assoc. reflexivity.
    - exists (dec (Z.of_nat (r_number r))), (show (r_first r)), (show (r_last r)). split.
      + rewrite split_word_then by (try exact WD; reflexivity). rewrite split_word_then by (try exact W1; reflexivity).
        rewrite split_word_then by (try exact W2; reflexivity). reflexivity.
      + split; [|split; assumption]. unfold is_count, is_integer. apply int_of_dec. lia.
  Qed.

  Lemma exported_lines p r :
    printed (x_rho p) -> printed (x_g p) -> printed_depth (x_depth p) -> is_word (x_name p) ->
    printed (r_first r) -> printed (r_last r) ->
    cal_lines (exported_cal p r) (readlines (nemoh_cal (show (x_rho p)) (show (x_g p)) (show_depth show (x_depth p)) (x_name p ++ lit ".dat")
      (dec (Z.of_nat (t_nb_vertices (x_mesh p)))) (dec (Z.of_nat (t_nb_faces (x_mesh p)))) (dec (Z.of_nat (r_number r))) (show (r_first r)) (show (r_last r)))).
  Proof.
    intros Pr Pg Pd Wn P1 P2.
    assert (WF : is_word (x_name p ++ lit ".dat")).
    { apply word_app; [exact Wn|]. split; [discriminate|repeat constructor]. }
    assert (OL : forall w t, is_word w -> one_line t -> one_line (w ++ t)).
    { intros w t W O. apply one_line_app; [now apply word_one_line|exact O]. }
    assert (Wd : forall z, is_word (dec (Z.of_nat z))) by (intros z; apply dec_word; lia).
    assert (RL : forall t, one_line t -> readlines (line t) = [line t]).
    { intros t O. rewrite <- (app_nil_r (line t)) at 1. now rewrite readlines_one. }
    assert (Wr : is_word (show (x_rho p))) by apply Pr. assert (Wg : is_word (show (x_g p))) by apply Pg.
    assert (Wh : is_word (show_depth show (x_depth p))) by now apply show_depth_word.
    assert (W1 : is_word (show (r_first r))) by apply P1. assert (W2 : is_word (show (r_last r))) by apply P2.
    unfold nemoh_cal.
    repeat (rewrite readlines_one; [|ol]). rewrite RL by ol. clear RL OL.
    eexists [_; _; _; _; _; _; _], [[_; _; _; _; _; _; _; _]], [_; _; _; _; _; _; _; _].
    split; [reflexivity|]. split; [|split].
    - do 7 eexists. split; [reflexivity|]. cbn [exported_cal k_rho k_g k_depth k_bodies length].
      split; [now apply gives_first|]. split; [now apply gives_first|]. split; [now apply gives_depth|]. split.
      + exists (lit "0."), (lit "0."), 0%R, 0%R. split; [eexists; reflexivity|]. split; exact zero_dot.
      + exists (lit "1"). split; [eexists; reflexivity|reflexivity].
    - constructor; [|constructor]. cbn [exported_cal k_bodies].
      eexists _, _, _, _, [_], _, [_], _, []. split; [reflexivity|]. cbn [c_file c_dofs c_forces length].
      assert (HV : is_vector (V 0 0 1) (lit "0.") (lit "0.") (lit "1.")) by (split; [exact zero_dot|split; [exact zero_dot|exact one_dot]]).
      assert (HE : entry_line (Translation (V 0 0 1)) (line (lit "1 0. 0. 1. 0. 0. 0." ++ tab :: tab :: lit "! Heave"))).
      { exists (lit "1"), (lit "0."), (lit "0."), (lit "1."). split; [eexists; reflexivity|]. split; [reflexivity|exact HV]. }
      split; [exists []; unfold line; rewrite (split_word_then _ newline []) by (try exact WF; reflexivity); reflexivity|].
      split; [exists (lit "1"); split; [eexists; reflexivity|reflexivity]|].
      split; [constructor; [exact HE|constructor]|].
      split; [exists (lit "1"); split; [eexists; reflexivity|reflexivity]|].
      split; [constructor; [exact HE|constructor]|].
      exists (lit "0"); split; [eexists; reflexivity|reflexivity].
    - eexists _, _, _, _, _, _, _, [_], (Range 0 180 0), (lit "0"). split; [reflexivity|]. cbn [exported_cal k_unit k_frequencies k_directions].
      split; [now apply frequency_exported|]. split; [|split].
      + exists (lit "0"), (lit "0."), (lit "0."). split; [eexists; reflexivity|]. split; [reflexivity|]. split; exact zero_dot.
      + eexists; reflexivity.
      + exists (lit "0"), (lit "0."), (lit "180."). split; [eexists; reflexivity|]. split; [reflexivity|]. split; [exact zero_dot|exact half_turn].
  Qed.
End Export.

Lemma least_low l : forall x, (least x l <= x)%R /\ (forall y, In y l -> least x l <= y)%R.
Proof.
  induction l as [|z l IH]; intros x; cbn [least]; [split; [lra|intros y []]|].
  destruct (IH (Rmin x z)) as [A B]. pose proof (Rmin_l x z). pose proof (Rmin_r x z). split; [lra|].
  intros y [<-|I]; [lra|now apply B].
Qed.
Lemma least_in l : forall x, In (least x l) (x :: l).
Proof.
  induction l as [|z l IH]; intros x; cbn [least]; [now left|]. destruct (IH (Rmin x z)) as [E|I]; [|now right; right].
  rewrite <- E. unfold Rmin. destruct (Rle_dec x z); [now left|now right; left].
Qed.
Lemma greatest_high l : forall x, (x <= greatest x l)%R /\ (forall y, In y l -> y <= greatest x l)%R.
Proof.
  induction l as [|z l IH]; intros x; cbn [greatest]; [split; [lra|intros y []]|].
  destruct (IH (Rmax x z)) as [A B]. pose proof (Rmax_l x z). pose proof (Rmax_r x z). split; [lra|].
  intros y [<-|I]; [lra|now apply B].
Qed.
Lemma greatest_in l : forall x, In (greatest x l) (x :: l).
Proof.
  induction l as [|z l IH]; intros x; cbn [greatest]; [now left|]. destruct (IH (Rmax x z)) as [E|I]; [|now right; right].
  rewrite <- E. unfold Rmax. destruct (Rle_dec x z); [now right; left|now left].
Qed.
Lemma export_range_ok omega g r : exported_range omega g r -> export_range omega g = Ok (Z.of_nat (r_number r), r_first r, r_last r).
Proof.
  destruct g as [[|x l]|]; cbn [exported_range export_range].
  - intros (_ & [[] _] & _).
  - intros (-> & (I & M) & (J & N)). f_equal. f_equal; [f_equal|].
    + apply Rle_antisym; [|apply M, least_in]. destruct (least_low l x) as [A B]. destruct I as [<-|I]; [exact A|now apply B].
    + apply Rle_antisym; [apply N, greatest_in|]. destruct (greatest_high l x) as [A B]. destruct J as [<-|J]; [exact A|now apply B].
  - intros ->. reflexivity.
Qed.

Section RoundTrip.
  Variable argsort : list R -> list nat.
  Variable heal_normals : mesh -> result mesh.
  Variable other_loader : text -> text -> result tree.
  Variable run_python : text -> result fbody.
  Variable problem : Type.
  Variable DiffractionProblem : fbody -> R -> ext -> R -> R -> ext -> result problem.
  Variable RadiationProblem : fbody -> string -> ext -> R -> R -> ext -> result problem.
  Let import := import_cal_file argsort heal_normals other_loader run_python problem DiffractionProblem RadiationProblem.
  Let made := build problem DiffractionProblem RadiationProblem.
  Variable show : R -> text.

  Lemma dat_file n : plain_name n -> file_name (n ++ lit ".dat").
  Proof.
    intros (W & S & _). split; [destruct n; discriminate|]. apply Forall_app. split; [exact S|repeat constructor].
  Qed.
  Lemma cal_file : file_name (lit "Nemoh.cal"). Proof. split; [discriminate|repeat constructor]. Qed.
  Lemma dat_not_cal n : n ++ lit ".dat" <> lit "Nemoh.cal".
  Proof. intros E. apply (f_equal (@rev ascii)) in E. rewrite rev_app_distr in E. discriminate. Qed.

  Lemma id_file : file_name (lit "ID.dat"). Proof. split; [discriminate|repeat constructor]. Qed.
  Lemma input_file : file_name (lit "input.txt"). Proof. split; [discriminate|repeat constructor]. Qed.
  Lemma dat_not_input n : n ++ lit ".dat" <> lit "input.txt".
  Proof. intros E. apply (f_equal (@rev ascii)) in E. rewrite rev_app_distr in E. discriminate. Qed.
  Lemma dat_not_id n : n <> lit "ID" -> n ++ lit ".dat" <> lit "ID.dat".
  Proof. intros N E. change (lit "ID.dat") with (lit "ID" ++ lit ".dat") in E. now apply app_inv_tail in E. Qed.

  Lemma exported_disk p dir range d r vs fs : exported_range (x_omega p) range r -> t_vertices (x_mesh p) = Ok vs -> t_faces (x_mesh p) = Ok fs ->
    export_as_Nemoh_directory show p dir range d = Ok (write_file (path_join dir (lit "ID.dat")) (line (lit "1") ++ lit ".")
      (write_file (path_join dir (lit "input.txt")) input_txt (write_file (path_join dir (lit "Nemoh.cal"))
      (nemoh_cal (show (x_rho p)) (show (x_g p)) (show_depth show (x_depth p)) (x_name p ++ lit ".dat")
        (dec (Z.of_nat (t_nb_vertices (x_mesh p)))) (dec (Z.of_nat (t_nb_faces (x_mesh p)))) (dec (Z.of_nat (r_number r))) (show (r_first r)) (show (r_last r)))
      (write_file (path_join dir (x_name p ++ lit ".dat")) (write_MAR (Mesh vs fs)) d)))).
  Proof.
    intros R0 V0 F0. unfold export_as_Nemoh_directory. rewrite V0, F0. cbn [bind]. rewrite (export_range_ok _ _ _ R0). reflexivity.
  Qed.

  Lemma new_body_dofs t name b : new_body argsort heal_normals t NoDofs None None name None = Ok b -> fb_dofs b = [].
  Proof.
    unfold new_body. cbn [bind]. destruct (Nat.ltb 0 (t_nb_vertices t) && Nat.ltb 0 (t_nb_faces t)).
    - destruct (t_heal _ _ t) as [t'|]; cbn [bind]; [|discriminate]. destruct (fb_check _); cbn [bind]; [|discriminate]. now intros [= <-].
    - cbn [bind]. destruct (fb_check _); cbn [bind]; [|discriminate]. now intros [= <-].
  Qed.
  Lemma load_exported d dir n m m' : directory_name dir -> plain_name n -> d (path_join dir (n ++ lit ".dat")) = Some (write_MAR m) ->
    load_MAR (write_MAR m) = Ok (Leaf m') ->
    load_body argsort heal_normals other_loader run_python d (path_join dir (n ++ lit ".dat"))
    = new_body argsort heal_normals (Leaf m') NoDofs None None (to_string (path_join dir (n ++ lit ".dat"))) None.
  Proof.
    intros D (W & S & N) E L. unfold load_body, from_file, load_file. rewrite (extension_dat dir n D S N), E.
    change (text_eqb (lit ".dat") (lit ".py")) with false. cbn iota.
    change (dget (to_string (text_lower (tl (lit ".dat")))) formats) with (Ok MAR : result format). cbn iota beta.
    cbn [load_mesh]. rewrite L. reflexivity.
  Qed.


  Lemma export_import p dir range d d' r m ws : directory_name dir -> plain_name (x_name p) -> x_name p <> lit "ID" ->
    t_vertices (x_mesh p) = Ok (m_vertices m) -> t_faces (x_mesh p) = Ok (m_faces m) ->
    valid m -> m_faces m <> [] -> (Z.of_nat (nb_vertices m) < 10 ^ 9)%Z -> coordinates_are (at_most 9999999) m ->
    printed show (x_rho p) -> printed show (x_g p) -> printed_depth show (x_depth p) ->
    exported_range (x_omega p) range r -> printed show (r_first r) -> printed show (r_last r) -> spaced r ws ->
    export_as_Nemoh_directory show p dir range d = Ok d' ->
    exists m', same_mesh six_decimals m m' /\
      let loaded := new_body argsort heal_normals (Leaf m') NoDofs None None (to_string (path_join dir (x_name p ++ lit ".dat"))) None in
      (forall e, loaded = Err e -> import d' (path_join dir (lit "Nemoh.cal")) = Err e) /\
      (forall b cs, loaded = Ok b -> fb_centers b = Ok cs ->
        import d' (path_join dir (lit "Nemoh.cal"))
        = mapM (made (heaving b cs) (x_rho p) (x_g p) (x_depth p)) (map (fun w => (w, Radiation "dof_0_translation")) ws)).
  Proof.
    intros D PN NID TV TF VA FN NV CO Pr Pg Pd ER P1 P2 SP EX.
    rewrite (exported_disk p dir range d r _ _ ER TV TF) in EX. injection EX as <-.
    replace (Mesh (m_vertices m) (m_faces m)) with m by now destruct m.
    destruct (mar_round_trip m VA FN NV CO) as (m' & LM & SM). exists m'. split; [exact SM|].
    set (cal_path := path_join dir (lit "Nemoh.cal")). set (mesh_path := path_join dir (x_name p ++ lit ".dat")).
    assert (NE : mesh_path <> cal_path).
    { intros E. exact (dat_not_cal _ (join_inj dir _ _ D (dat_file _ PN) cal_file E)). }
    match goal with |- context [import ?x _] => set (disk' := x) end.
    assert (DC : disk' cal_path = Some (nemoh_cal (show (x_rho p)) (show (x_g p)) (show_depth show (x_depth p)) (x_name p ++ lit ".dat")
        (dec (Z.of_nat (t_nb_vertices (x_mesh p)))) (dec (Z.of_nat (t_nb_faces (x_mesh p)))) (dec (Z.of_nat (r_number r))) (show (r_first r)) (show (r_last r)))).
    { unfold disk'. rewrite written_elsewhere by (intros E; pose proof (join_inj dir _ _ D cal_file id_file E); discriminate).
      rewrite written_elsewhere by (intros E; pose proof (join_inj dir _ _ D cal_file input_file E); discriminate). apply written_here. }
    assert (DM : disk' mesh_path = Some (write_MAR m)).
    { unfold disk'. rewrite written_elsewhere by (intros E; exact (dat_not_id _ NID (join_inj dir _ _ D (dat_file _ PN) id_file E))).
      rewrite written_elsewhere by (intros E; exact (dat_not_input _ (join_inj dir _ _ D (dat_file _ PN) input_file E))).
      rewrite written_elsewhere by exact NE. apply written_here. }
    pose proof (exported_lines show p r Pr Pg Pd (proj1 PN) P1 P2) as CL.
    pose proof (load_exported disk' dir (x_name p) m m' D PN DM LM) as LB. fold mesh_path in LB.
    assert (DN : path_join (dirname cal_path) (x_name p ++ lit ".dat") = mesh_path).
    { unfold cal_path. rewrite (dirname_join dir _ D cal_file). reflexivity. }
    cbn zeta. split.
    - intros e LE. rewrite LE in LB. destruct CL as (first & sections & last & EL & HD & FS & _).
      exact (import_no_file argsort heal_normals other_loader run_python problem DiffractionProblem RadiationProblem disk' cal_path _ _ first sections last
             [] (Section_of (x_name p ++ lit ".dat") [Translation (V 0 0 1)] [Translation (V 0 0 1)]) [] [] e DC EL HD FS eq_refl (Forall_nil _) (Forall2_nil _)
             (eq_trans (f_equal _ DN) LB)).
    - intros b cs LE CE. rewrite LE in LB.
      unfold import. rewrite (import_ok argsort heal_normals other_loader run_python problem DiffractionProblem RadiationProblem disk' cal_path
        (exported_cal p r) _ [heaving b cs] (heaving b cs) ws [] DC CL).
      + cbn [exported_cal k_rho k_g k_depth k_unit]. rewrite (depth_back _ _ Pd). f_equal. unfold requests. cbn [heaving fb_dofs set_dofs map fst pulsation app].
        clear. induction ws as [|w ws IH]; [reflexivity|]. cbn [map flat_map app]. rewrite IH. reflexivity.
      + constructor; [|constructor]. cbn. intros v q [E|[]]. discriminate.
      + constructor; [|constructor]. exists b, cs. cbn [c_file]. rewrite DN. split; [exact LB|]. split; [exact (new_body_dofs _ _ _ LE)|]. split; [exact CE|reflexivity].
      + reflexivity.
      + exact SP.
      + intros E. discriminate E.
      + split; [reflexivity|]. split; [intros x E; discriminate|]. split; [intros x E; cbn in E; lia|]. exists 0%R. intros k x y E. destruct k; discriminate.
  Qed.

  (** The numbers of vertices and faces that are written. *)
  Lemma written_sizes p dir range d d' r vs fs : directory_name dir -> is_word (x_name p) ->
    t_vertices (x_mesh p) = Ok vs -> t_faces (x_mesh p) = Ok fs ->
    printed show (x_rho p) -> printed show (x_g p) -> printed_depth show (x_depth p) -> exported_range (x_omega p) range r ->
    export_as_Nemoh_directory show p dir range d = Ok d' -> exists content file sizes a b,
      d' (path_join dir (lit "Nemoh.cal")) = Some content /\ nth_error (readlines content) 8 = Some file /\ nth_error (readlines content) 9 = Some sizes
      /\ split file = [x_name p ++ lit ".dat"] /\ split sizes = [a; b] /\ is_count (t_nb_vertices (x_mesh p)) a /\ is_count (t_nb_faces (x_mesh p)) b.
  Proof.
    intros D Wn TV TF Pr Pg Pd ER EX. rewrite (exported_disk p dir range d r _ _ ER TV TF) in EX. injection EX as <-.
    assert (WF : is_word (x_name p ++ lit ".dat")).
    { apply word_app; [exact Wn|]. split; [discriminate|repeat constructor]. }
    assert (OL : forall w t, is_word w -> one_line t -> one_line (w ++ t)).
    { intros w t W O. apply one_line_app; [now apply word_one_line|exact O]. }
    assert (Wd : forall z, is_word (dec (Z.of_nat z))) by (intros z; apply dec_word; lia).
    assert (Wr : is_word (show (x_rho p))) by apply Pr. assert (Wg : is_word (show (x_g p))) by apply Pg.
    assert (Wh : is_word (show_depth show (x_depth p))) by now apply show_depth_word.
    rewrite written_elsewhere by (intros E; pose proof (join_inj dir _ _ D cal_file id_file E); discriminate).
    rewrite written_elsewhere by (intros E; pose proof (join_inj dir _ _ D cal_file input_file E); discriminate). rewrite written_here.
    eexists _, (line (x_name p ++ lit ".dat")), (line (dec (Z.of_nat (t_nb_vertices (x_mesh p))) ++ lit " " ++ dec (Z.of_nat (t_nb_faces (x_mesh p))))), _, _.
    split; [reflexivity|]. unfold nemoh_cal. do 8 (rewrite readlines_one; [|ol]).
    rewrite readlines_one; [|now apply word_one_line].
    rewrite readlines_one; [|apply OL; [apply Wd|]; apply one_line_app; [apply lit_one_line; reflexivity|apply word_one_line, Wd]].
    cbn [nth_error]. split; [reflexivity|]. split; [reflexivity|].
    split; [unfold line; rewrite (split_word_then _ newline []) by (try exact WF; reflexivity); reflexivity|].
    split; [unfold line; rewrite <- !app_assoc; change (lit " ") with [" "%char]; cbn [app]; rewrite split_word_then by (try apply Wd; reflexivity);
      rewrite (split_word_then _ newline []) by (try apply Wd; reflexivity); reflexivity|].
    split; unfold is_count, is_integer; apply int_of_dec; lia.
  Qed.

  (** A name with a blank is cut by the reader. *)
  Lemma blank_name p dir range d d' r vs fs w c rest : directory_name dir -> x_name p = w ++ c :: rest -> plain_name w -> blank c = true ->
    one_line (x_name p) -> t_vertices (x_mesh p) = Ok vs -> t_faces (x_mesh p) = Ok fs ->
    printed show (x_rho p) -> printed show (x_g p) -> printed_depth show (x_depth p) ->
    exported_range (x_omega p) range r -> extension (path_join dir w) <> lit ".py" -> w <> lit "Nemoh.cal" -> w <> lit "input.txt" -> w <> lit "ID.dat" ->
    d (path_join dir w) = None -> without slash (x_name p) ->
    export_as_Nemoh_directory show p dir range d = Ok d' -> is_word (show (r_first r)) -> is_word (show (r_last r)) ->
    import d' (path_join dir (lit "Nemoh.cal")) = Err OtherException.
  Proof.
    intros D NM PW BC ON TV TF Pr Pg Pd ER XT WC WI WD' DN SN EX W1 W2. rewrite (exported_disk p dir range d r _ _ ER TV TF) in EX. injection EX as <-.
    unfold import, import_cal_file.
    rewrite written_elsewhere by (intros E; pose proof (join_inj dir _ _ D cal_file id_file E); discriminate).
    rewrite written_elsewhere by (intros E; pose proof (join_inj dir _ _ D cal_file input_file E); discriminate). rewrite written_here.
    assert (RL : forall t, one_line t -> readlines (line t) = [line t]).
    { intros t O. rewrite <- (app_nil_r (line t)) at 1. now rewrite readlines_one. }
    assert (Wr : is_word (show (x_rho p))) by apply Pr. assert (Wg : is_word (show (x_g p))) by apply Pg.
    assert (Wh : is_word (show_depth show (x_depth p))) by now apply show_depth_word.
    assert (Wd : forall z, is_word (dec (Z.of_nat z))) by (intros z; apply dec_word; lia).
    unfold nemoh_cal. rewrite readlines_one by ol. do 7 (rewrite readlines_one; [|ol]).
    assert (OF : one_line (x_name p ++ lit ".dat")) by (apply one_line_app; [exact ON|ol]).
    rewrite (readlines_one _ _ OF).
    unfold read_cal. cbn [readline].
    rewrite (gives_word _ _ (gives_first show _ _ Pr)). cbn [bind].
    rewrite (gives_word _ _ (gives_first show _ _ Pg)). cbn [bind].
    rewrite (gives_word _ _ (gives_depth show _ _ Pd)). cbn [bind].
    match goal with |- context [read_point ?l] => assert (RP : read_point l = Ok tt) end.
    { apply (read_point_ok _ (lit "0.") (lit "0.") 0 0); [eexists; reflexivity|exact zero_dot|exact zero_dot]. }
    rewrite RP. cbn [bind].
    match goal with |- context [int_word ?l 0] => change (int_word l 0) with (Ok 1%Z) end. cbn [bind].
    change (times 1) with 1. cbn [read_bodies]. unfold read_body. cbn [readline].
    assert (WW : word (line (x_name p ++ lit ".dat")) 0 = Ok w).
    { apply (begins_word [w]); [|reflexivity]. rewrite NM. unfold line. rewrite <- !app_assoc. cbn [app]. apply begins_first; [apply PW|exact BC]. }
    rewrite WW. cbn [bind]. match goal with |- context [readline ?x] => destruct (readline x) as [l1 f1] end.
    rewrite strip_only by apply PW. rewrite (dirname_join dir _ D cal_file).
    rewrite load_missing; [reflexivity| |exact XT].
    assert (FW : file_name w) by (destruct PW as (W & S & _); split; [apply W|exact S]).
    rewrite written_elsewhere; [|intros E; exact (WD' (join_inj dir _ _ D FW id_file E))].
    rewrite written_elsewhere; [|intros E; exact (WI (join_inj dir _ _ D FW input_file E))].
    rewrite written_elsewhere; [|intros E; exact (WC (join_inj dir _ _ D FW cal_file E))].
    rewrite written_elsewhere; [exact DN|]. intros E.
    assert (FN : file_name (x_name p ++ lit ".dat")).
    { split; [destruct (x_name p); discriminate|]. apply Forall_app. split; [exact SN|repeat constructor]. }
    apply (join_inj dir _ _ D FW FN) in E. rewrite NM in E. apply (f_equal (@length ascii)) in E. rewrite !app_length in E. cbn [length] in E. lia.
  Qed.

  (** The mesh of a body called ID is overwritten. *)
  Lemma name_ID p dir range d d' r vs fs : directory_name dir -> x_name p = lit "ID" -> t_vertices (x_mesh p) = Ok vs -> t_faces (x_mesh p) = Ok fs ->
    printed show (x_rho p) -> printed show (x_g p) -> printed_depth show (x_depth p) ->
    exported_range (x_omega p) range r -> printed show (r_first r) -> printed show (r_last r) ->
    export_as_Nemoh_directory show p dir range d = Ok d' -> import d' (path_join dir (lit "Nemoh.cal")) = Err ValueError.
  Proof.
    intros D NM TV TF Pr Pg Pd ER P1 P2 EX. rewrite (exported_disk p dir range d r _ _ ER TV TF) in EX. injection EX as <-.
    assert (WN : is_word (x_name p)) by (rewrite NM; split; [discriminate|repeat constructor]).
    pose proof (exported_lines show p r Pr Pg Pd WN P1 P2) as (first & sections & last & EL & HD & FS & _).
    eapply (import_no_file argsort heal_normals other_loader run_python problem DiffractionProblem RadiationProblem _ _ _ _ first sections last
             [] (Section_of (x_name p ++ lit ".dat") [Translation (V 0 0 1)] [Translation (V 0 0 1)]) [] []);
      [|exact EL|exact HD|exact FS|reflexivity|constructor|constructor|].
    - rewrite written_elsewhere by (intros E; pose proof (join_inj dir _ _ D cal_file id_file E); discriminate).
      rewrite written_elsewhere by (intros E; pose proof (join_inj dir _ _ D cal_file input_file E); discriminate). apply written_here.
    - cbn [c_file]. rewrite (dirname_join dir _ D cal_file), NM. change (lit "ID" ++ lit ".dat") with (lit "ID.dat").
      unfold load_body, from_file, load_file. rewrite written_here. change (lit "ID.dat") with (lit "ID" ++ lit ".dat").
      rewrite (extension_dat dir (lit "ID") D) by (repeat constructor). reflexivity.
  Qed.
End RoundTrip.
