(** Properties of the reading of Nemoh.cal files (C71) and of the export of a problem as a Nemoh directory (C72). *)
From Coq Require Import Reals String Ascii.
From Coq Require Import List Bool ZArith Arith Lia Lra.
From Verif Require Import Model_Base Model_Geometry Model_Mesh Model_Tree Model_Text Model_Files Model_Grid Model_Problem Model_Body.
From Verif Require Import Spec_Mesh Spec_Files Props_Files Proofs_Text Proofs_Body7 Spec_Nemoh Model_Nemoh Spec_NemohFiles
  Proofs_Nemoh Proofs_Nemoh2 Proofs_Nemoh3 Proofs_Nemoh4.
Import ListNotations.
Open Scope nat_scope.

Section Oracles.
  (** The sort of numpy, the healing of normals, the loaders of the other formats, Python modules and the constructors of problems: any functions. *)
  Variable argsort : list R -> list nat.
  Variable heal_normals : mesh -> result mesh.
  Variable other_loader : text -> text -> result tree.
  Variable run_python : text -> result fbody.
  Variable problem : Type.
  Variable DiffractionProblem : fbody -> R -> ext -> R -> R -> ext -> result problem.
  Variable RadiationProblem : fbody -> string -> ext -> R -> R -> ext -> result problem.
  Let load := load_body argsort heal_normals other_loader run_python.
  Let import := import_cal_file argsort heal_normals other_loader run_python problem DiffractionProblem RadiationProblem.
  Let body_of := body_of_section argsort heal_normals other_loader run_python.
  Let whole := whole_body argsort heal_normals.
  Let made := build problem DiffractionProblem RadiationProblem.

  (** C71. A file with the lines of a study gives the problems of that study: each frequency, in rad/s, with each direction, in radians,
      then each degree of freedom, in the order of the file; the translations and rotations of each section move the faces of the mesh of
      that section; a null depth is an infinite one. *)
  Theorem nemoh_problems d path c content bs body ws ds :
    d path = Some content -> cal_lines c (readlines content) -> Forall (fun s => no_null_axis (c_dofs s)) (k_bodies c) ->
    Forall2 (body_of d path) (k_bodies c) bs -> whole bs body ->
    spaced (k_frequencies c) ws -> no_null_period c ws -> spaced (k_directions c) ds ->
    import d path = mapM (made body (k_rho c) (k_g c) (water_depth (k_depth c)))
                         (requests (map (pulsation (k_unit c)) ws) (map radians ds) (map fst (fb_dofs body))).
  Proof. exact (import_ok argsort heal_normals other_loader run_python problem DiffractionProblem RadiationProblem d path c content bs body ws ds). Qed.

  (** C71. The beginning of a file, cut at any character, gives an error or the same problems: never other ones. *)
  Theorem nemoh_cut d d' path content rest ps ps' : (forall p, load d' p = load d p) -> d path = Some (content ++ rest) -> d' path = Some content ->
    import d path = Ok ps -> import d' path = Ok ps' -> ps' = ps.
  Proof.
    intros L. exact (import_cut argsort heal_normals other_loader run_python problem DiffractionProblem RadiationProblem d d' path L content rest ps ps').
  Qed.

  (** C71. A file about no body is an error. *)
  Theorem nemoh_no_body d path content c first rest :
    d path = Some content -> readlines content = first ++ rest -> heading c first -> k_bodies c = [] -> import d path = Err IndexError.
  Proof. exact (import_no_body argsort heal_normals other_loader run_python problem DiffractionProblem RadiationProblem d path content c first rest). Qed.
  (** C71. The first body that cannot be loaded gives its error, whatever follows. *)
  Theorem nemoh_missing_body d path content c first sections rest cs1 s cs2 bs e : d path = Some content ->
    readlines content = first ++ concat sections ++ rest -> heading c first -> Forall2 section_lines (k_bodies c) sections ->
    k_bodies c = cs1 ++ s :: cs2 -> Forall (fun s => no_null_axis (c_dofs s)) cs1 -> Forall2 (body_of d path) cs1 bs ->
    load d (path_join (dirname path) (c_file s)) = Err e -> import d path = Err e.
  Proof.
    exact (import_no_file argsort heal_normals other_loader run_python problem DiffractionProblem RadiationProblem d path content c first sections rest cs1 s cs2 bs e).
  Qed.
  (** C71. A unit of frequencies that is not known is an error. *)
  Theorem nemoh_unknown_unit d path content c first sections title fr rest bs body a k ws n : d path = Some content ->
    readlines content = first ++ concat sections ++ title :: fr :: rest -> heading c first -> Forall2 section_lines (k_bodies c) sections ->
    Forall (fun s => no_null_axis (c_dofs s)) (k_bodies c) -> Forall2 (body_of d path) (k_bodies c) bs -> whole bs body ->
    before_comment fr a -> split a = k :: ws -> length ws <> 2 -> is_integer n k -> (n < 1 \/ 3 < n)%Z -> import d path = Err ValueError.
  Proof.
    exact (import_bad_unit argsort heal_normals other_loader run_python problem DiffractionProblem RadiationProblem d path content c first sections title fr rest
             bs body a k ws n).
  Qed.

  (** [str] of a number. *)
  Variable show : R -> text.
  (** C72. A problem that is exported and imported again: the same water, the same mesh up to six decimals, frequencies evenly spaced
      between the extreme ones, and one degree of freedom, the heave of the body. *)
  Theorem nemoh_export_import_partial p dir range d d' r m ws :
    directory_name dir -> plain_name (x_name p) -> x_name p <> lit "ID" ->
    t_vertices (x_mesh p) = Ok (m_vertices m) -> t_faces (x_mesh p) = Ok (m_faces m) ->
    valid m -> m_faces m <> [] -> (Z.of_nat (nb_vertices m) < 10 ^ 9)%Z -> coordinates_are (at_most 9999999) m ->
    printed show (x_rho p) -> printed show (x_g p) -> printed_depth show (x_depth p) ->
    exported_range (x_omega p) range r -> printed show (r_first r) -> printed show (r_last r) -> spaced r ws ->
    export_as_Nemoh_directory show p dir range d = Ok d' ->
    exists m', same_mesh six_decimals m m' /\
      let loaded := new_body argsort heal_normals (Leaf m') NoDofs None None (to_string (path_join dir (x_name p ++ lit ".dat"))) None in
      (forall e, loaded = Err e -> import d' (path_join dir (lit "Nemoh.cal")) = Err e) /\
      (forall b cs, loaded = Ok b -> fb_centers b = Ok cs ->
        import d' (path_join dir (lit "Nemoh.cal"))
        = mapM (made (heaving b cs) (x_rho p) (x_g p) (x_depth p)) (map (fun w => (w, Radiation "dof_0_translation")) ws)).
  Proof.
    exact (export_import argsort heal_normals other_loader run_python problem DiffractionProblem RadiationProblem show p dir range d d' r m ws).
  Qed.
  (** C72. The file names the mesh and gives its numbers of vertices and faces, on the ninth and tenth lines. *)
  Theorem nemoh_written_sizes p dir range d d' r vs fs : directory_name dir -> is_word (x_name p) ->
    t_vertices (x_mesh p) = Ok vs -> t_faces (x_mesh p) = Ok fs ->
    printed show (x_rho p) -> printed show (x_g p) -> printed_depth show (x_depth p) -> exported_range (x_omega p) range r ->
    export_as_Nemoh_directory show p dir range d = Ok d' -> exists content file sizes a b,
      d' (path_join dir (lit "Nemoh.cal")) = Some content /\ nth_error (readlines content) 8 = Some file /\ nth_error (readlines content) 9 = Some sizes
      /\ split file = [x_name p ++ lit ".dat"] /\ split sizes = [a; b] /\ is_count (t_nb_vertices (x_mesh p)) a /\ is_count (t_nb_faces (x_mesh p)) b.
  Proof. exact (written_sizes show p dir range d d' r vs fs). Qed.
  (** C72. The motion of the radiating degree of freedom is not written: two problems for two motions give the same files. *)
  Theorem nemoh_motion_refuted p motion dir range d :
    export_as_Nemoh_directory show (Exported (x_name p) (x_mesh p) motion (x_rho p) (x_g p) (x_depth p) (x_omega p)) dir range d
    = export_as_Nemoh_directory show p dir range d.
  Proof. reflexivity. Qed.
  (** C72. The export of a body whose name has a blank is not read back: the reader looks for a file named after the first word. *)
  Theorem nemoh_blank_name_refuted p dir range d d' r vs fs w c rest : directory_name dir -> x_name p = w ++ c :: rest -> plain_name w -> blank c = true ->
    one_line (x_name p) -> t_vertices (x_mesh p) = Ok vs -> t_faces (x_mesh p) = Ok fs ->
    printed show (x_rho p) -> printed show (x_g p) -> printed_depth show (x_depth p) ->
    exported_range (x_omega p) range r -> extension (path_join dir w) <> lit ".py" -> w <> lit "Nemoh.cal" -> w <> lit "input.txt" -> w <> lit "ID.dat" ->
    d (path_join dir w) = None -> without slash (x_name p) ->
    export_as_Nemoh_directory show p dir range d = Ok d' -> is_word (show (r_first r)) -> is_word (show (r_last r)) ->
    import d' (path_join dir (lit "Nemoh.cal")) = Err OtherException.
  Proof.
    exact (blank_name argsort heal_normals other_loader run_python problem DiffractionProblem RadiationProblem show p dir range d d' r vs fs w c rest).
  Qed.
  (** C72. The mesh of a body called ID is overwritten by another file of the directory. *)
  Theorem nemoh_name_ID_refuted p dir range d d' r vs fs : directory_name dir -> x_name p = lit "ID" ->
    t_vertices (x_mesh p) = Ok vs -> t_faces (x_mesh p) = Ok fs ->
    printed show (x_rho p) -> printed show (x_g p) -> printed_depth show (x_depth p) ->
    exported_range (x_omega p) range r -> printed show (r_first r) -> printed show (r_last r) ->
    export_as_Nemoh_directory show p dir range d = Ok d' -> import d' (path_join dir (lit "Nemoh.cal")) = Err ValueError.
  Proof.
    exact (name_ID argsort heal_normals other_loader run_python problem DiffractionProblem RadiationProblem show p dir range d d' r vs fs).
  Qed.
  (** C72. No frequency cannot be exported. *)
  Theorem nemoh_no_frequency p dir d vs fs : t_vertices (x_mesh p) = Ok vs -> t_faces (x_mesh p) = Ok fs ->
    export_as_Nemoh_directory show p dir (Some []) d = Err ValueError.
  Proof. intros V0 F0. unfold export_as_Nemoh_directory. now rewrite V0, F0. Qed.
End Oracles.
Print Assumptions nemoh_problems.
Print Assumptions nemoh_cut.
Print Assumptions nemoh_no_body.
Print Assumptions nemoh_missing_body.
Print Assumptions nemoh_unknown_unit.
Print Assumptions nemoh_export_import_partial.
Print Assumptions nemoh_motion_refuted.
Print Assumptions nemoh_blank_name_refuted.
Print Assumptions nemoh_name_ID_refuted.
Print Assumptions nemoh_no_frequency.
Print Assumptions nemoh_written_sizes.

(** ** Examples *)

(** One panel given by a Python module; it heaves, it turns around an axis; a line of an unknown kind; three frequencies in hertz. *)
Definition small_heading : list text :=
  map line [lit "--- Environment"; lit "1000.0 ! RHO"; lit "9.5 ! G"; lit "0 ! DEPTH"; lit "0. 0. ! XEFF YEFF"; lit "--- Bodies"; lit "1 ! Number of bodies"].
Definition small_section : list text :=
  map line [lit "--- Body 1"; lit "panel.py ! file"; lit "4 1"; lit "3"; lit "1 0. 0. 2. 0. 0. 0. ! Heave"; lit "2 0. 1. 0. 0. 0. -1. ! Pitch"; lit "5 ! Unknown";
            lit "0"; lit "0"].
Definition small_ending : list text :=
  map line [lit "--- Load cases"; lit "2 3 0.5 1.5 ! Frequencies"; lit "1 90. 90. ! Directions"; lit "--- Post"; lit "0"; lit "0"; lit "0 0. 180."].
Definition small_text : text := concat (small_heading ++ small_section ++ small_ending).
Definition small_entries : list entry := [Translation (V 0 0 2); Rotation (V 0 1 0) (V 0 0 (-1)); Unknown 5].
Definition small_study : cal :=
  Cal 1000 (95 / 10) 0 [Section_of (lit "panel.py") small_entries []] Hertz (Range (1 / 2) (3 / 2) 3) (Range 90 90 1).
Definition small_disk : disk := write_file (lit "study/Nemoh.cal") small_text (fun _ => None).
Lemma real_is s m e x : float_of (lit s) = Ok (IZR m * pow10 e)%R -> (IZR m * pow10 e = x)%R -> is_real x (lit s).
Proof. unfold is_real. now intros -> ->. Qed.
Ltac number m e := apply (real_is _ m e); [reflexivity|unfold pow10; cbn; field].
Lemma small_head n cs unit fr dir w : w = Cal 1000 (95 / 10) 0 cs unit fr dir -> counts (length cs) n ->
  heading w (firstn 6 small_heading ++ [n]).
Proof.
  intros -> C. do 7 eexists. split; [reflexivity|]. split; [exists (lit "1000.0"); split; [eexists; reflexivity|number 10000%Z (-1)%Z]|].
  split; [exists (lit "9.5"); split; [eexists; reflexivity|number 95%Z (-1)%Z]|]. split; [exists (lit "0"); split; [eexists; reflexivity|number 0%Z 0%Z]|].
  split; [exists (lit "0."), (lit "0."), 0%R, 0%R; split; [eexists; reflexivity|split; number 0%Z 0%Z]|]. exact C.
Qed.
Lemma small_lines more : cal_lines small_study (small_heading ++ small_section ++ small_ending ++ more).
Proof.
  exists small_heading, [small_section], (small_ending ++ more). split; [reflexivity|]. split; [|split].
  - apply (small_head (line (lit "1 ! Number of bodies")) _ _ _ _ _ eq_refl). exists (lit "1"). split; [eexists; reflexivity|reflexivity].
  - constructor; [|constructor]. eexists _, _, _, _, [_; _; _], _, [], _, []. split; [reflexivity|]. split; [eexists; reflexivity|].
    split; [eexists; split; [eexists; reflexivity|reflexivity]|]. split; [|split; [|split]].
    + constructor; [|constructor; [|constructor; [|constructor]]].
      * exists (lit "1"), (lit "0."), (lit "0."), (lit "2."). split; [eexists; reflexivity|]. split; [reflexivity|].
        split; [number 0%Z 0%Z|]. split; [number 0%Z 0%Z|number 2%Z 0%Z].
      * exists (lit "2"), (lit "0."), (lit "1."), (lit "0."), (lit "0."), (lit "0."), (lit "-1."). split; [eexists; reflexivity|]. split; [reflexivity|].
        split; (split; [number 0%Z 0%Z|]); [split; [number 1%Z 0%Z|number 0%Z 0%Z]|split; [number 0%Z 0%Z|number (-1)%Z 0%Z]].
      * split; [lia|]. split; [lia|]. eexists. split; [eexists; reflexivity|reflexivity].
    + eexists. split; [eexists; reflexivity|reflexivity].
    + constructor.
    + eexists. split; [eexists; reflexivity|reflexivity].
  - eexists _, _, _, _, _, _, _, more, (Range 0 180 0), _. split; [reflexivity|]. split; [|split; [|split]].
    + exists (lit "2 3 0.5 1.5 "). split; [split; [repeat constructor|right; eexists; reflexivity]|]. right.
      exists (lit "2"), (lit "3"), (lit "0.5"), (lit "1.5"), []. split; [reflexivity|]. split; [reflexivity|].
      split; [reflexivity|]. split; [number 5%Z (-1)%Z|number 15%Z (-1)%Z].
    + exists (lit "1"), (lit "90."), (lit "90."). split; [eexists; reflexivity|]. split; [reflexivity|]. split; number 90%Z 0%Z.
    + eexists. reflexivity.
    + exists (lit "0"), (lit "0."), (lit "180."). split; [eexists; reflexivity|]. split; [reflexivity|]. split; [number 0%Z 0%Z|number 180%Z 0%Z].
Qed.
Section Example_reading.
  Variable argsort : list R -> list nat.
  Variable heal_normals : mesh -> result mesh.
  Variable other_loader : text -> text -> result tree.
  Let run_python (p : text) : result fbody :=
    if text_eqb p (lit "study/panel.py") then Ok (panel_body "panel" 0 (-2) []) else Err OtherException.
  Let diffraction (b : fbody) (d : R) (w : ext) (rho g : R) (h : ext) : result (ext * kind) := Ok (w, Diffraction d).
  Let radiation (b : fbody) (dof : string) (w : ext) (rho g : R) (h : ext) : result (ext * kind) := Ok (w, Radiation dof).
  (** The hypotheses of [nemoh_problems] hold, and the problems are these. *)
  Example small_problems :
    let a := (PI / 180 * 90)%R in
    import_cal_file argsort heal_normals other_loader run_python _ diffraction radiation small_disk (lit "study/Nemoh.cal")
    = Ok (flat_map (fun f => [(Fin (2 * PI * f), Diffraction a); (Fin (2 * PI * f), Radiation "dof_0_translation"); (Fin (2 * PI * f), Radiation "dof_1_rotation")])
           [1 / 2; 1; 3 / 2]%R) /\
    exists b, body_of_section argsort heal_normals other_loader run_python small_disk (lit "study/Nemoh.cal") (Section_of (lit "panel.py") small_entries []) b /\
      fb_dofs b = [("dof_0_translation"%string, [V 0 0 2]); ("dof_1_rotation"%string, [V (-1) 0 (- (1 / 2))])].
  Proof.
    intros a.
    assert (B : body_of_section argsort heal_normals other_loader run_python small_disk (lit "study/Nemoh.cal") (Section_of (lit "panel.py") small_entries [])
                  (set_dofs (panel_body "panel" 0 (-2) []) (numbered_dofs small_entries [V (0 + 1 / 2) (1 / 2) (-2)]))).
    { exists (panel_body "panel" 0 (-2) []), [V (0 + 1 / 2) (1 / 2) (-2)]. split; [reflexivity|]. split; [reflexivity|]. split; [apply panel_centers|reflexivity]. }
    split.
    - rewrite (nemoh_problems argsort heal_normals other_loader run_python _ diffraction radiation small_disk (lit "study/Nemoh.cal") small_study small_text
        [set_dofs (panel_body "panel" 0 (-2) []) (numbered_dofs small_entries [V (0 + 1 / 2) (1 / 2) (-2)])]
        (set_dofs (panel_body "panel" 0 (-2) []) (numbered_dofs small_entries [V (0 + 1 / 2) (1 / 2) (-2)])) [1 / 2; 1; 3 / 2]%R [90%R]).
      + reflexivity.
      + reflexivity.
      + exact (small_lines []).
      + constructor; [|constructor]. intros v q I. cbn in I. destruct I as [I|[I|[I|[]]]]; try discriminate. injection I as <- _. intros E.
        apply (f_equal vy) in E. cbn in E. lra.
      + constructor; [exact B|constructor].
      + reflexivity.
      + split; [reflexivity|]. split; [intros x [= <-]; reflexivity|]. split; [intros x _ [= <-]; reflexivity|].
        exists (1 / 2)%R. intros k x y. destruct k as [|[|k]]; cbn; [intros [= <-] [= <-]; lra|intros [= <-] [= <-]; lra|destruct k; discriminate].
      + intros E. discriminate E.
      + split; [reflexivity|]. split; [intros x [= <-]; reflexivity|]. split; [intros x H; cbn in H; lia|]. exists 0%R. intros [|k] x y _; cbn; [discriminate|destruct k; discriminate].
    - eexists. split; [exact B|]. cbn [set_dofs fb_dofs small_entries numbered_dofs filter known length seq combine map fst snd].
      f_equal. f_equal. unfold dof_name, motion. cbn [map]. f_equal. f_equal.
      assert (N : norm (V 0 1 0) = 1%R) by (unfold norm, dot; cbn; replace (0 * 0 + 1 * 1 + 0 * 0)%R with 1%R by ring; apply sqrt_1).
      rewrite N. unfold vscale, cross, vsub. cbn. f_equal; field.
  Qed.
  (** The hypotheses of [nemoh_cut]: a file with one more line. *)
  Example small_cut : let d := write_file (lit "study/Nemoh.cal") (small_text ++ line (lit "0 0 100. 100. ! Free surface")) (fun _ => None) in
    (forall p, load_body argsort heal_normals (fun _ _ => Err OtherException) run_python small_disk p = load_body argsort heal_normals (fun _ _ => Err OtherException) run_python d p) /\
    exists ps, import_cal_file argsort heal_normals (fun _ _ => Err OtherException) run_python _ diffraction radiation d (lit "study/Nemoh.cal") = Ok ps.
  Proof.
    cbn zeta. split.
    - intros p. destruct (list_eq_dec ascii_dec p (lit "study/Nemoh.cal")) as [->|N]; [reflexivity|].
      unfold load_body, from_file, load_file, small_disk. rewrite !written_elsewhere by exact N. reflexivity.
    - eexists. rewrite (nemoh_problems argsort heal_normals (fun _ _ => Err OtherException) run_python _ diffraction radiation _ (lit "study/Nemoh.cal") small_study
        (small_text ++ line (lit "0 0 100. 100. ! Free surface"))
        [set_dofs (panel_body "panel" 0 (-2) []) (numbered_dofs small_entries [V (0 + 1 / 2) (1 / 2) (-2)])]
        (set_dofs (panel_body "panel" 0 (-2) []) (numbered_dofs small_entries [V (0 + 1 / 2) (1 / 2) (-2)])) [1 / 2; 1; 3 / 2]%R [90%R]).
      + reflexivity.
      + reflexivity.
      + exact (small_lines [line (lit "0 0 100. 100. ! Free surface")]).
      + constructor; [|constructor]. intros v q I. cbn in I. destruct I as [I|[I|[I|[]]]]; try discriminate. injection I as <- _. intros E.
        apply (f_equal vy) in E. cbn in E. lra.
      + constructor; [|constructor]. exists (panel_body "panel" 0 (-2) []), [V (0 + 1 / 2) (1 / 2) (-2)].
        split; [reflexivity|]. split; [reflexivity|]. split; [apply panel_centers|reflexivity].
      + reflexivity.
      + split; [reflexivity|]. split; [intros x [= <-]; reflexivity|]. split; [intros x _ [= <-]; reflexivity|].
        exists (1 / 2)%R. intros k x y. destruct k as [|[|k]]; cbn; [intros [= <-] [= <-]; lra|intros [= <-] [= <-]; lra|destruct k; discriminate].
      + intros E. discriminate E.
      + split; [reflexivity|]. split; [intros x [= <-]; reflexivity|]. split; [intros x H; cbn in H; lia|]. exists 0%R. intros [|k] x y _; cbn; [discriminate|destruct k; discriminate].
  Qed.
  (** The hypotheses of [nemoh_no_body], [nemoh_missing_body] and [nemoh_unknown_unit]. *)
  Example small_errors :
    (heading (Cal 1000 (95 / 10) 0 [] Hertz (Range 0 0 0) (Range 0 0 0)) (firstn 6 small_heading ++ [line (lit "0 ! bodies")])) /\
    load_body argsort heal_normals other_loader run_python small_disk (lit "study/other.dat") = Err OtherException /\
    (before_comment (lit "4 3 0.5 1.5 ! minutes") (lit "4 3 0.5 1.5 ") /\ split (lit "4 3 0.5 1.5 ") = lit "4" :: [lit "3"; lit "0.5"; lit "1.5"] /\ is_integer 4 (lit "4")).
  Proof.
    split; [|split].
    - apply (small_head _ _ _ _ _ _ eq_refl). exists (lit "0"). split; [eexists; reflexivity|reflexivity].
    - reflexivity.
    - split; [split; [repeat constructor|right; eexists; reflexivity]|]. split; reflexivity.
  Qed.
End Example_reading.

(** The texts of a few numbers. *)
Definition show_some (x : R) : text :=
  if Req_EM_T x 1000 then lit "1000.0" else if Req_EM_T x (981 / 100) then lit "9.81" else if Req_EM_T x 10 then lit "10.0" else lit "1.0".
Lemma show_density : printed show_some 1000.
Proof.
  unfold printed, show_some. destruct (Req_EM_T 1000 1000); [|lra]. split; [split; [discriminate|repeat constructor]|]. split; [repeat constructor|number 10000%Z (-1)%Z].
Qed.
Lemma show_gravity : printed show_some (981 / 100).
Proof.
  unfold printed, show_some. destruct (Req_EM_T (981 / 100) 1000); [lra|]. destruct (Req_EM_T (981 / 100) (981 / 100)); [|lra].
  split; [split; [discriminate|repeat constructor]|]. split; [repeat constructor|number 981%Z (-2)%Z].
Qed.
Lemma show_ten : printed show_some 10.
Proof.
  unfold printed, show_some. destruct (Req_EM_T 10 1000); [lra|]. destruct (Req_EM_T 10 (981 / 100)); [lra|]. destruct (Req_EM_T 10 10); [|lra].
  split; [split; [discriminate|repeat constructor]|]. split; [repeat constructor|number 100%Z (-1)%Z].
Qed.
Lemma show_one : printed show_some 1.
Proof.
  unfold printed, show_some. destruct (Req_EM_T 1 1000); [lra|]. destruct (Req_EM_T 1 (981 / 100)); [lra|]. destruct (Req_EM_T 1 10); [lra|].
  split; [split; [discriminate|repeat constructor]|]. split; [repeat constructor|number 10%Z (-1)%Z].
Qed.
Definition surging (name : text) : exported := Exported name (Leaf sheet) (repeat (V 1 0 0) 4) 1000 (981 / 100) PInf 1.
(** The problem at the frequencies 1, 2 and 10 meets the hypotheses of [nemoh_export_import_partial]; the frequencies read back are not those. *)
Example surging_exported : exists d',
  export_as_Nemoh_directory show_some (surging (lit "buoy")) (lit "study") (Some [1; 2; 10]%R) (fun _ => None) = Ok d' /\
  directory_name (lit "study") /\ plain_name (lit "buoy") /\ lit "buoy" <> lit "ID" /\
  t_vertices (Leaf sheet) = Ok (m_vertices sheet) /\ t_faces (Leaf sheet) = Ok (m_faces sheet) /\ valid sheet /\ m_faces sheet <> [] /\
  (Z.of_nat (nb_vertices sheet) < 10 ^ 9)%Z /\ coordinates_are (at_most 9999999) sheet /\
  printed show_some 1000 /\ printed show_some (981 / 100) /\ printed_depth show_some PInf /\
  exported_range 1 (Some [1; 2; 10]%R) (Range 1 10 3) /\ printed show_some 1 /\ printed show_some 10 /\
  spaced (Range 1 10 3) [1; 11 / 2; 10]%R.
Proof.
  eexists. split; [reflexivity|]. split.
  { intros d' c E. assert (L : last (lit "study") zero = c) by (rewrite E; apply last_last). rewrite <- L. reflexivity. }
  split; [split; [split; [discriminate|repeat constructor]|split; [repeat constructor|reflexivity]]|].
  split; [discriminate|]. split; [reflexivity|]. split; [reflexivity|]. split; [exact sheet_valid|]. split; [discriminate|].
  split; [reflexivity|]. split; [apply sheet_small; lra|]. split; [exact show_density|]. split; [exact show_gravity|]. split; [exact I|].
  split; [|split; [exact show_one|split; [exact show_ten|]]].
  - split; [reflexivity|]. split; split; cbn [r_first r_last].
    + now left.
    + intros y [<-|[<-|[<-|[]]]]; lra.
    + now right; right; left.
    + intros y [<-|[<-|[<-|[]]]]; lra.
  - split; [reflexivity|]. split; [intros x [= <-]; reflexivity|]. split; [intros x _ [= <-]; reflexivity|].
    exists (9 / 2)%R. intros k x y. destruct k as [|[|k]]; cbn; [intros [= <-] [= <-]; lra|intros [= <-] [= <-]; lra|destruct k; discriminate].
Qed.
(** The hypotheses of [nemoh_blank_name_refuted] and [nemoh_name_ID_refuted] hold for these names. *)
Example bad_names :
  (lit "my buoy" = lit "my" ++ space :: lit "buoy" /\ plain_name (lit "my") /\ blank space = true /\ one_line (lit "my buoy") /\
   extension (path_join (lit "study") (lit "my")) <> lit ".py" /\ without slash (lit "my buoy")) /\
  (exists d', export_as_Nemoh_directory show_some (surging (lit "my buoy")) (lit "study") None (fun _ => None) = Ok d') /\
  (exists d', export_as_Nemoh_directory show_some (surging (lit "ID")) (lit "study") None (fun _ => None) = Ok d') /\
  exported_range 1 None (Range 1 1 1).
Proof.
  split; [|split; [eexists; reflexivity|split; [eexists; reflexivity|reflexivity]]].
  split; [reflexivity|]. split; [split; [split; [discriminate|repeat constructor]|split; [repeat constructor|reflexivity]]|].
  split; [reflexivity|]. split; [apply lit_one_line; reflexivity|]. split; [discriminate|repeat constructor].
Qed.
