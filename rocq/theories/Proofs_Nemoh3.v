(** The errors of the reading of a Nemoh.cal file; paths and files. *)
From Coq Require Import Reals String Ascii.
From Coq Require Import List Bool ZArith Arith Lia Lra.
From Verif Require Import Model_Base Model_Geometry Model_Mesh Model_Tree Model_Text Model_Files Model_Grid Model_Problem Model_Body.
From Verif Require Import Proofs_Text Proofs_Files Proofs_Files2 Spec_Files Spec_Nemoh Model_Nemoh Spec_NemohFiles Proofs_Nemoh.
Import ListNotations.
Open Scope nat_scope.

Section Errors.
  Variable argsort : list R -> list nat.
  Variable heal_normals : mesh -> result mesh.
  Variable other_loader : text -> text -> result tree.
  Variable run_python : text -> result fbody.
  Variable problem : Type.
  Variable DiffractionProblem : fbody -> R -> ext -> R -> R -> ext -> result problem.
  Variable RadiationProblem : fbody -> string -> ext -> R -> R -> ext -> result problem.
  Let loaded := load_body argsort heal_normals other_loader run_python.
  Let body_read := read_body argsort heal_normals other_loader run_python.
  Let bodies_read := read_bodies argsort heal_normals other_loader run_python.
  Let import := import_cal_file argsort heal_normals other_loader run_python problem DiffractionProblem RadiationProblem.
  Let section_body := body_of_section argsort heal_normals other_loader run_python.

  Lemma missing_section d cal c ls rest e : section_lines c ls -> loaded d (path_join (dirname cal) (c_file c)) = Err e ->
    body_read d cal (ls ++ rest) = Err e.
  Proof.
    intros (title & file & sizes & nb_dofs & dofs & nb_forces & forces & nb_more & more & -> & BF & _) L.
    unfold body_read, read_body. rewrite <- !app_assoc. cbn [app readline]. rewrite (begins_word _ _ 0 _ BF eq_refl). cbn [bind].
    rewrite strip_only by (apply (begins_is_word _ _ _ BF); now left). fold loaded. rewrite L. reflexivity.
  Qed.
  Lemma missing_bodies d cal cs1 c cs2 e : forall lss bs rest, Forall2 section_lines (cs1 ++ c :: cs2) lss ->
    Forall (fun s => no_null_axis (c_dofs s)) cs1 -> Forall2 (section_body d cal) cs1 bs ->
    loaded d (path_join (dirname cal) (c_file c)) = Err e ->
    bodies_read d cal (length (cs1 ++ c :: cs2)) (concat lss ++ rest) = Err e.
  Proof.
    induction cs1 as [|c1 cs1 IH]; intros lss bs rest F NA B L; cbn [app] in F; inversion F; subst.
    - unfold bodies_read. cbn [app length read_bodies concat]. rewrite <- app_assoc. fold body_read.
      rewrite (missing_section _ _ _ _ _ _ H1 L). reflexivity.
    - inversion NA; inversion B; subst. unfold bodies_read. cbn [app length read_bodies concat]. rewrite <- app_assoc. fold body_read bodies_read.
      rewrite (read_body_ok _ _ _ _ _ _ _ _ _ _ H1 H2 H7 : body_read _ _ _ = _). cbn [bind snd].
      rewrite (IH _ _ _ H3 H4 H9 L). reflexivity.
  Qed.

  Lemma heading_read c first d cal f : heading c first ->
    read_cal argsort heal_normals other_loader run_python d cal (first ++ f) =
    bind (bodies_read d cal (length (k_bodies c)) f) (fun r =>
    bind (all_bodies argsort heal_normals (Z.of_nat (length (k_bodies c))) (fst r)) (fun body =>
    let '(_, f) := readline (snd r) in
    let '(l, f) := readline f in
    bind (read_frequencies l) (fun omegas =>
    let '(l, f) := readline f in
    bind (read_directions l) (fun directions =>
    let '(_, f) := readline f in
    let '(_, f) := readline f in
    let '(l, f) := readline f in
    bind (word l 0) (fun _ =>
    let '(l, f) := readline f in
    bind (linspace_words l 1 0) (fun _ =>
    Ok (Study (k_rho c) (k_g c) (if Reqb (k_depth c) 0 then PInf else Fin (k_depth c)) body omegas directions))))))).
  Proof.
    intros (title & rho & g & depth & point & title2 & nb & -> & Hr & Hg & Hd & (x & y & a & b & Bp & X & Y) & Hn).
    unfold read_cal. cbn [app readline]. rewrite (gives_word _ _ Hr). cbn [bind]. rewrite (gives_word _ _ Hg). cbn [bind].
    rewrite (gives_word _ _ Hd). cbn [bind]. rewrite (read_point_ok _ _ _ _ _ Bp X Y). cbn [bind]. rewrite (counts_word _ _ Hn). cbn [bind].
    rewrite times_nat. reflexivity.
  Qed.

  Lemma import_no_body d path content c first rest : d path = Some content -> readlines content = first ++ rest -> heading c first -> k_bodies c = [] ->
    import d path = Err IndexError.
  Proof.
    intros E L H N. unfold import, import_cal_file. rewrite E, L, (heading_read c first d path rest H), N. reflexivity.
  Qed.
  Lemma import_no_file d path content c first sections rest cs1 s cs2 bs e : d path = Some content ->
    readlines content = first ++ concat sections ++ rest -> heading c first -> Forall2 section_lines (k_bodies c) sections ->
    k_bodies c = cs1 ++ s :: cs2 -> Forall (fun s => no_null_axis (c_dofs s)) cs1 -> Forall2 (section_body d path) cs1 bs ->
    loaded d (path_join (dirname path) (c_file s)) = Err e -> import d path = Err e.
  Proof.
    intros E L H F K NA B M. unfold import, import_cal_file. rewrite E, L, (heading_read c first d path _ H). rewrite K in *.
    rewrite (missing_bodies _ _ _ _ _ e _ _ _ F NA B M). reflexivity.
  Qed.
  Lemma import_bad_unit d path content c first sections title fr rest bs body a k ws n : d path = Some content ->
    readlines content = first ++ concat sections ++ title :: fr :: rest -> heading c first -> Forall2 section_lines (k_bodies c) sections ->
    Forall (fun s => no_null_axis (c_dofs s)) (k_bodies c) -> Forall2 (section_body d path) (k_bodies c) bs -> whole_body argsort heal_normals bs body ->
    before_comment fr a -> split a = k :: ws -> length ws <> 2 -> is_integer n k -> (n < 1 \/ 3 < n)%Z -> import d path = Err ValueError.
  Proof.
    intros E L H F NA B WB BC S N2 K N. unfold import, import_cal_file. rewrite E, L, (heading_read c first d path _ H).
    rewrite (read_bodies_ok _ _ _ _ _ _ _ _ _ _ F NA B : bodies_read _ _ _ _ = _). cbn [bind fst snd].
    assert (LB : length (k_bodies c) = length bs) by (clear - B; induction B; cbn; congruence).
    rewrite LB, (all_bodies_ok _ _ _ _ WB). cbn [bind readline]. unfold read_frequencies. rewrite (before_comment_mark _ _ BC), S.
    cbn [length]. destruct (Nat.eqb_spec (Datatypes.S (length ws)) 3) as [X|_]; [lia|]. unfold int_word, word, get. rewrite S. cbn [nth_error bind].
    unfold is_integer in K. rewrite K. cbn [bind].
    destruct (Z.eqb_spec n 1); [lia|]. destruct (Z.eqb_spec n 2); [lia|]. destruct (Z.eqb_spec n 3); [lia|]. reflexivity.
  Qed.
  Lemma load_missing d path : d path = None -> extension path <> lit ".py" -> loaded d path = Err OtherException.
  Proof.
    intros N X. unfold loaded, load_body. rewrite text_eqb_neq by exact X. unfold from_file, load_file. now rewrite N.
  Qed.
End Errors.

(** ** Paths *)

Lemma without_existsb is t : without is t -> existsb is t = false.
Proof. induction 1 as [|c t H F IH]; [reflexivity|]. cbn. now rewrite H. Qed.
Lemma after_last_app is a c b : is c = true -> without is b -> after_last is (a ++ c :: b) = b.
Proof.
  intros C W. induction a as [|x a IH]; cbn [app after_last].
  - now rewrite (without_existsb _ _ W), C.
  - rewrite existsb_app. cbn [existsb]. rewrite C, orb_true_r. exact IH.
Qed.
Lemma after_last_none is t : without is t -> after_last is t = t.
Proof. intros W. destruct W as [|c t H F]; [reflexivity|]. cbn [after_last]. now rewrite (without_existsb _ _ F), H. Qed.

(** A directory is written without a slash at its end. *)
Definition file_name (f : text) : Prop := f <> [] /\ without slash f.
Lemma join_ok d f : directory_name d -> file_name f -> path_join d f = match d with [] => f | _ => d ++ lit "/" ++ f end.
Proof.
  intros D [N W]. destruct f as [|c f]; [contradiction|]. inversion W; subst. unfold path_join. rewrite H1.
  destruct d as [|x d]; [reflexivity|]. destruct (exists_last (l := x :: d)) as (d0 & e & Ed); [discriminate|].
  rewrite Ed at 1. rewrite rev_app_distr. cbn [rev app]. rewrite (D _ _ Ed). reflexivity.
Qed.
Lemma basename_join d f : directory_name d -> file_name f -> basename (path_join d f) = f.
Proof.
  intros D F. rewrite (join_ok d f D F). destruct F as [N W]. destruct d as [|x d]; [now apply after_last_none|].
  unfold basename. change ((x :: d) ++ lit "/" ++ f) with ((x :: d) ++ ascii_of_nat 47 :: f). now apply after_last_app.
Qed.
Lemma dirname_join d f : directory_name d -> file_name f -> dirname (path_join d f) = d.
Proof.
  intros D F. unfold dirname. rewrite (basename_join d f D F), (join_ok d f D F). destruct d as [|x d].
  - rewrite Nat.sub_diag. reflexivity.
  - assert (L : length ((x :: d) ++ lit "/" ++ f) - length f = length ((x :: d) ++ lit "/")) by (rewrite !app_length; lia).
    rewrite L, app_assoc, firstn_app, firstn_all, Nat.sub_diag. cbn [firstn]. rewrite app_nil_r, rev_app_distr.
    change (rev (lit "/")) with [ascii_of_nat 47]. cbn [app drop_while]. change (slash (ascii_of_nat 47)) with true. cbn iota.
    destruct (exists_last (l := x :: d)) as (d0 & e & Ed); [discriminate|]. rewrite Ed, rev_app_distr. cbn [rev app drop_while].
    rewrite (D _ _ Ed). now rewrite <- (rev_involutive d0) at 2.
Qed.
Lemma join_inj d f g : directory_name d -> file_name f -> file_name g -> path_join d f = path_join d g -> f = g.
Proof. intros D F G E. rewrite <- (basename_join d f D F), <- (basename_join d g D G). now rewrite E. Qed.

Lemma drop_while_app is a b : existsb (fun c => negb (is c)) a = true -> exists a', a' <> [] /\ drop_while is (a ++ b) = a' ++ b.
Proof.
  induction a as [|c a IH]; cbn [existsb]; [discriminate|]. intros H. cbn [app drop_while]. destruct (is c); [now apply IH|].
  exists (c :: a). split; [discriminate|reflexivity].
Qed.
Lemma extension_dat d n : directory_name d -> without slash n -> existsb (fun c => negb (dot_char c)) n = true ->
  extension (path_join d (n ++ lit ".dat")) = lit ".dat".
Proof.
  intros D W N. unfold extension. rewrite basename_join; [|exact D|].
  - destruct (drop_while_app dot_char n (lit ".dat") N) as (a & A & ->).
    rewrite existsb_app. replace (existsb dot_char (lit ".dat")) with true by reflexivity. rewrite orb_true_r.
    change (lit ".dat") with (ascii_of_nat 46 :: lit "dat") at 1. rewrite after_last_app; [reflexivity|reflexivity|repeat constructor].
  - split; [destruct n; discriminate|]. apply Forall_app. split; [exact W|repeat constructor].
Qed.

Lemma written_here p c d : write_file p c d p = Some c.
Proof. unfold write_file. now rewrite text_eqb_refl. Qed.
Lemma written_elsewhere p q c d : q <> p -> write_file p c d q = d q.
Proof. intros N. unfold write_file. now rewrite text_eqb_neq by exact N. Qed.
