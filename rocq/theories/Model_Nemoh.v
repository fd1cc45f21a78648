(** Model of io/legacy.py: reading a Nemoh.cal file as a list of problems, and exporting a problem as a Nemoh directory.

    A disk is a function from paths to the content of files: directories are not modelled. The problems are built by the
    constructors of problems_and_results.py, given here as arguments. The numbers [xeff], [yeff], the generalised forces,
    the Kochin range and the other options are read (and may raise an error) but they are not used, as in the code. *)
From Coq Require Import Reals String Ascii.
From Coq Require Import List Bool ZArith Arith.
From Verif Require Import Model_Base Model_Geometry Model_Mesh Model_Tree Model_Text Model_Files Model_Grid Model_Problem Model_Body.
Import ListNotations.
Open Scope nat_scope.

Definition disk := text -> option text.
Definition write_file (path content : text) (d : disk) : disk := fun p => if text_eqb p path then Some content else d p.

(** ** [os.path] *)

Definition slash (c : ascii) : bool := is_char 47 c.
Definition dot_char (c : ascii) : bool := is_char 46 c.
(** The end of a text after its last character of some kind, all of the text when there is none. *)
Fixpoint after_last (is : ascii -> bool) (t : text) : text :=
  match t with
  | [] => []
  | c :: t' => if existsb is t' then after_last is t' else if is c then t' else t
  end.
Definition basename (p : text) : text := after_last slash p.
Fixpoint drop_while (is : ascii -> bool) (t : text) : text :=
  match t with [] => [] | c :: t' => if is c then drop_while is t' else t end.
(** [os.path.dirname] *)
Definition dirname (p : text) : text :=
  let head := firstn (List.length p - List.length (basename p)) p in
  match drop_while slash (rev head) with [] => head | h => rev h end.
(** [os.path.join] *)
Definition path_join (a b : text) : text :=
  match b with
  | c :: _ => if slash c then b else
              match rev a with [] => b | e :: _ => if slash e then a ++ b else a ++ lit "/" ++ b end
  | [] => match rev a with [] => [] | e :: _ => if slash e then a else a ++ lit "/" end
  end.
(** [os.path.splitext(p)[1]]: the end of the file name from its last dot, when some other character is before that dot. *)
Definition extension (p : text) : text :=
  let b := drop_while dot_char (basename p) in
  if existsb dot_char b then lit "." ++ after_last dot_char b else [].
Definition text_lower (t : text) : text := map ascii_lower t.
Definition to_string (t : text) : string := string_of_list_ascii t.

(** ** Loading a body *)

(** The loader of a file format, [extension_dict] of mesh_loaders.py:1054-1086, for the formats of Model_Files.v. *)
Definition formats : list (string * format) :=
  [("dat", MAR); ("mar", MAR); ("nemoh", MAR); ("wamit", GDF); ("gdf", GDF); ("hydrostar", HST); ("hst", HST);
   ("natural", NAT); ("nat", NAT); ("nem", NEM); ("nemoh_mesh", NEM); ("pnl", PNL); ("hams", PNL)]%string.

(** A word of a line, [line.split()[i]]. *)
Definition word (l : text) (i : nat) : result text := get (split l) i.
Definition float_word (l : text) (i : nat) : result R := bind (word l i) float_of.
Definition int_word (l : text) (i : nat) : result Z := bind (word l i) int_of.

Section Nemoh.
  (** The oracles of [new_body]. *)
  Variable argsort : list R -> list nat.
  Variable heal_normals : mesh -> result mesh.
  (** The loaders of the other formats, given the extension and the content of the file. *)
  Variable other_loader : text -> text -> result tree.
  (** The attribute [body] of a Python module: legacy.py:44-48. *)
  Variable run_python : text -> result fbody.
  (** The problems. *)
  Variable problem : Type.
  Variable DiffractionProblem : fbody -> R -> ext -> R -> R -> ext -> result problem.
  Variable RadiationProblem : fbody -> string -> ext -> R -> R -> ext -> result problem.

  (** [load_mesh], mesh_loaders.py:26-68. [IOError] is [OtherException] here. *)
  Definition load_file (d : disk) (path : text) : result tree :=
    match d path with
    | None => Err OtherException
    | Some content =>
      let e := text_lower (tl (extension path)) in
      match dget (to_string e) formats with
      | Ok f => match load_mesh f content with Some r => r | None => other_loader e content end
      | Err _ => other_loader e content
      end
    end.
  (** [FloatingBody.from_file], bodies.py:125-131. *)
  Definition from_file (d : disk) (path : text) : result fbody :=
    bind (load_file d path) (fun t => new_body argsort heal_normals t NoDofs None None (to_string path) None).
  (** legacy.py:43-50. *)
  Definition load_body (d : disk) (path : text) : result fbody :=
    if text_eqb (extension path) (lit ".py") then run_python path else from_file d path.

  (** ** Reading Nemoh.cal *)

  Definition three (l : list R) : result vec :=
    match l with [x; y; z] => Ok (V x y z) | _ => Err AssertionError end.
  (** One line of the degrees of freedom, legacy.py:54-61. A rotation around a null vector, a dof full of nan in the code, is
      [OtherException] here. *)
  Definition read_dof (l : text) (b : fbody) : result fbody :=
    bind (int_word l 0) (fun kind =>
    if (kind =? 1)%Z then
      bind (mapM float_of (firstn 3 (skipn 1 (split l)))) (fun direction =>
      bind (three direction) (fun v => add_translation_dof b (Some v) None 1))
    else if (kind =? 2)%Z then
      bind (mapM float_of (firstn 3 (skipn 1 (split l)))) (fun direction =>
      bind (mapM float_of (firstn 3 (skipn 4 (split l)))) (fun center =>
      bind (three direction) (fun v =>
      bind (three center) (fun c =>
      match new_axis v c with Some a => add_rotation_dof b (Some a) None 1 | None => Err OtherException end))))
    else Ok b).
  Fixpoint read_dofs (n : nat) (f : list text) (b : fbody) : result (fbody * list text) :=
    match n with
    | 0 => Ok (b, f)
    | S n' => let '(l, f') := readline f in bind (read_dof l b) (fun b' => read_dofs n' f' b')
    end.
  (** One line of the generalised forces, legacy.py:65-70: read and not used. *)
  Definition read_force (l : text) : result unit :=
    bind (int_word l 0) (fun kind =>
    if (kind =? 1)%Z then bind (mapM float_of (firstn 3 (skipn 1 (split l)))) (fun _ => Ok tt)
    else if (kind =? 2)%Z then
      bind (mapM float_of (firstn 3 (skipn 1 (split l)))) (fun _ =>
      bind (mapM float_of (firstn 3 (skipn 4 (split l)))) (fun _ => Ok tt))
    else Ok tt).

  (** One body, legacy.py:38-77. *)
  Definition read_body (d : disk) (cal : text) (f : list text) : result (fbody * list text) :=
    let '(_, f) := readline f in
    let '(l, f) := readline f in
    bind (word l 0) (fun name =>
    let '(_, f) := readline f in
    bind (load_body d (path_join (dirname cal) (strip name))) (fun b =>
    let '(l, f) := readline f in
    bind (int_word l 0) (fun nb_dofs =>
    bind (read_dofs (times nb_dofs) f b) (fun r =>
    let '(l, f) := readline (snd r) in
    bind (int_word l 0) (fun nb_forces =>
    bind (read_rows read_force (times nb_forces) f) (fun r' =>
    let '(l, f) := readline (snd r') in
    bind (int_word l 0) (fun nb_lines => Ok (fst r, skipn (times nb_lines) f)))))))).
  Fixpoint read_bodies (d : disk) (cal : text) (n : nat) (f : list text) : result (list fbody * list text) :=
    match n with
    | 0 => Ok ([], f)
    | S n' => bind (read_body d cal f) (fun r => bind (read_bodies d cal n' (snd r)) (fun r' => Ok (fst r :: fst r', snd r')))
    end.
  (** legacy.py:79-82. *)
  Definition all_bodies (n : Z) (bodies : list fbody) : result fbody :=
    if (1 <? n)%Z then join_bodies argsort heal_normals bodies None
    else match bodies with b :: _ => Ok b | [] => Err IndexError end.

  (** [np.linspace] for a number of values that may be negative. *)
  Definition np_linspace (a b : R) (n : Z) : result (list R) :=
    if (n <? 0)%Z then Err ValueError else Ok (linspace a b (times n)).
  (** [line.split('!')[0]] *)
  Fixpoint before_mark (t : text) : text :=
    match t with [] => [] | c :: t' => if is_char 33 c then [] else c :: before_mark t' end.
  (** [np.linspace(float(words[i]), float(words[i+1]), int(words[j]))] *)
  Definition linspace_words (l : text) (i j : nat) : result (list R) :=
    bind (float_word l i) (fun a =>
    bind (float_word l (S i)) (fun b =>
    bind (int_word l j) (fun n => np_linspace a b n))).
  (** The frequencies, legacy.py:85-98. *)
  Definition read_frequencies (line : text) : result (list ext) :=
    let l := before_mark line in
    if Nat.eqb (List.length (split l)) 3 then bind (linspace_words l 1 0) (fun r => Ok (map Fin r))
    else
      bind (int_word l 0) (fun kind =>
      if (kind =? 1)%Z then bind (linspace_words l 2 1) (fun r => Ok (map Fin r))
      else if (kind =? 2)%Z then bind (linspace_words l 2 1) (fun r => Ok (map (fun x => Fin (2 * PI * x)) r))
      else if (kind =? 3)%Z then bind (linspace_words l 2 1) (fun r => Ok (map (fun x => np_div two_pi (Fin x)) r))
      else Err ValueError).
  (** The wave directions, legacy.py:101-103. *)
  Definition read_directions (l : text) : result (list R) :=
    bind (linspace_words l 1 0) (fun r => Ok (map (fun x => (PI / 180 * x)%R) r)).
  (** legacy.py:31: [xeff, yeff = ...] *)
  Definition read_point (l : text) : result unit :=
    bind (mapM float_of (firstn 2 (split l))) (fun r => match r with [_; _] => Ok tt | _ => Err ValueError end).

  (** What a Nemoh.cal file is about: the values used to build the problems. *)
  Record study := Study {
    s_rho : R; s_g : R; s_depth : ext; s_body : fbody; s_omegas : list ext; s_directions : list R }.
  (** legacy.py:23-112. *)
  Definition read_cal (d : disk) (cal : text) (f : list text) : result study :=
    let '(_, f) := readline f in
    let '(l, f) := readline f in
    bind (float_word l 0) (fun rho =>
    let '(l, f) := readline f in
    bind (float_word l 0) (fun g =>
    let '(l, f) := readline f in
    bind (float_word l 0) (fun depth =>
    let '(l, f) := readline f in
    bind (read_point l) (fun _ =>
    let '(_, f) := readline f in
    let '(l, f) := readline f in
    bind (int_word l 0) (fun nb_bodies =>
    bind (read_bodies d cal (times nb_bodies) f) (fun r =>
    bind (all_bodies nb_bodies (fst r)) (fun body =>
    let '(_, f) := readline (snd r) in
    let '(l, f) := readline f in
    bind (read_frequencies l) (fun omegas =>
    let '(l, f) := readline f in
    bind (read_directions l) (fun directions =>
    let '(_, f) := readline f in
    let '(_, f) := readline f in
    let '(l, f) := readline f in
    bind (word l 0) (fun _ =>
    let '(l, f) := readline f in
    bind (linspace_words l 1 0) (fun _ =>
    Ok (Study rho g (if Reqb depth 0 then PInf else Fin depth) body omegas directions)))))))))))).
  (** The problems of a study, legacy.py:115-123. *)
  Definition problems_of (s : study) : result (list problem) :=
    bind (mapM (fun omega =>
      bind (mapM (fun direction => DiffractionProblem (s_body s) direction omega (s_rho s) (s_g s) (s_depth s)) (s_directions s)) (fun ds =>
      bind (mapM (fun dof => RadiationProblem (s_body s) (fst dof) omega (s_rho s) (s_g s) (s_depth s)) (fb_dofs (s_body s))) (fun rs =>
      Ok (ds ++ rs)))) (s_omegas s)) (fun l => Ok (List.concat l)).
  (** [import_cal_file], legacy.py:20-123. *)
  Definition import_cal_file (d : disk) (cal : text) : result (list problem) :=
    match d cal with
    | None => Err OtherException
    | Some content => bind (read_cal d cal (readlines content)) problems_of
    end.
End Nemoh.

(** ** Exporting a problem *)

Section Export.
  (** [str] of a floating point number. *)
  Variable show : R -> text.

  (** The attributes of a radiation problem: its body, with the motion of its faces in the radiating dof, and its parameters.
      The pulsation is a number, neither zero nor infinite. *)
  Record exported := Exported { x_name : text; x_mesh : tree; x_motion : list vec; x_rho : R; x_g : R; x_depth : ext; x_omega : R }.
  Fixpoint least (x : R) (l : list R) : R := match l with [] => x | y :: l' => least (Rmin x y) l' end.
  Fixpoint greatest (x : R) (l : list R) : R := match l with [] => x | y :: l' => greatest (Rmax x y) l' end.
  (** legacy.py:156-164: the number of steps, the first and the last frequency. The minimum of no value is an error. *)
  Definition export_range (omega : R) (range : option (list R)) : result (Z * R * R) :=
    match range with
    | None => Ok (1%Z, omega, omega)
    | Some [] => Err ValueError
    | Some (x :: l) => Ok (Z.of_nat (List.length (x :: l)), least x l, greatest x l)
    end.
  Definition show_depth (h : ext) : text :=
    match h with Fin x => show x | NInf => lit "-inf" | _ => lit "0" end.

  (** [DEFAULT_NEMOH_CAL.format(...)], legacy.py:191-214. *)
  Definition nemoh_cal (rho g depth mesh_filename vertices faces steps start stop : text) : text :=
    line (lit "--- Environment ------------------------------------------------------------------------------------------------------------------") ++
    line (rho ++ tab :: tab :: tab :: lit "! RHO" ++ tab :: tab :: tab :: lit "! KG/M**3" ++ tab :: lit "! Fluid specific volume") ++
    line (g ++ tab :: tab :: tab :: tab :: lit "! G" ++ tab :: tab :: tab :: lit "! M/S**2" ++ tab :: lit "! Gravity") ++
    line (depth ++ tab :: tab :: tab :: lit "! DEPTH" ++ tab :: tab :: tab :: lit "! M" ++ tab :: tab :: lit "! Water depth") ++
    line (lit "0." ++ tab :: lit "0." ++ tab :: tab :: tab :: lit "! XEFF YEFF" ++ tab :: tab :: lit "! M" ++ tab :: tab :: lit "! Wave measurement point") ++
    line (lit "--- Description of floating bodies -----------------------------------------------------------------------------------------------") ++
    line (lit "1" ++ tab :: tab :: tab :: tab :: lit "! Number of bodies") ++
    line (lit "--- Body 1 -----------------------------------------------------------------------------------------------------------------------") ++
    line mesh_filename ++
    line (vertices ++ lit " " ++ faces) ++
    line (lit "1" ++ tab :: tab :: tab :: tab :: lit "! Number of degrees of freedom") ++
    line (lit "1 0. 0. 1. 0. 0. 0." ++ tab :: tab :: lit "! Heave") ++
    line (lit "1" ++ tab :: tab :: tab :: tab :: lit "! Number of resulting generalised forces") ++
    line (lit "1 0. 0. 1. 0. 0. 0." ++ tab :: tab :: lit "! Heave") ++
    line (lit "0" ++ tab :: tab :: tab :: tab :: lit "! Number of lines of additional information") ++
    line (lit "--- Load cases to be solved -------------------------------------------------------------------------------------------------------") ++
    line (steps ++ lit " " ++ start ++ lit " " ++ stop ++ lit " ! Frequencies range") ++
    line (lit "0" ++ tab :: lit "0." ++ tab :: lit "0." ++ tab :: tab :: lit "! Number of wave directions, Min and Max (degrees)") ++
    line (lit "--- Post processing ---------------------------------------------------------------------------------------------------------------") ++
    line (lit "0" ++ tab :: lit "0.1" ++ tab :: lit "10." ++ tab :: tab :: lit "! IRF" ++ tab :: tab :: tab :: tab :: lit "! IRF calculation (0 for no calculation), time step and duration") ++
    line (lit "0" ++ tab :: tab :: tab :: tab :: lit "! Show pressure") ++
    line (lit "0" ++ tab :: lit "0." ++ tab :: lit "180." ++ tab :: tab :: lit "! Kochin function" ++ tab :: tab :: lit "! Number of directions of calculation (0 for no calculations), Min and Max (degrees)") ++
    line (lit "0" ++ tab :: lit "0" ++ tab :: lit "100." ++ tab :: lit "100." ++ tab :: lit "! Free surface elevation" ++ tab :: lit "! Number of points in x direction (0 for no calcutions) and y direction and dimensions of domain in x and y direction").

  (** [DEFAULT_INPUT_TXT], legacy.py:216-222. *)
  Definition input_txt : text :=
    line (lit "--- Calculation parameters ------------------------------------------------------------------------------------") ++
    line (lit "1" ++ tab :: tab :: tab :: tab :: lit "! Indiq_solver" ++ tab :: tab :: lit "! -" ++ tab :: tab :: lit "! Solver (0) Direct Gauss (1) GMRES (2) GMRES with FMM acceleration (2 not implemented yet)") ++
    line (lit "20" ++ tab :: tab :: tab :: tab :: lit "! IRES" ++ tab :: tab :: tab :: lit "! -" ++ tab :: tab :: lit "! Restart parameter for GMRES") ++
    line (lit "5.E-07" ++ tab :: tab :: tab :: tab :: lit "! TOL_GMRES" ++ tab :: tab :: lit "! -" ++ tab :: tab :: lit "! Stopping criterion for GMRES") ++
    line (lit "100" ++ tab :: tab :: tab :: tab :: lit "! MAXIT" ++ tab :: tab :: tab :: lit "! -" ++ tab :: tab :: lit "! Maximum iterations for GMRES") ++
    line (lit "1" ++ tab :: tab :: tab :: tab :: lit "! Sav_potential" ++ tab :: tab :: lit "! -" ++ tab :: tab :: lit "! Save potential for visualization").

  (** [export_as_Nemoh_directory], legacy.py:126-188. *)
  Definition export_as_Nemoh_directory (p : exported) (directory : text) (range : option (list R)) (d : disk) : result disk :=
    bind (t_vertices (x_mesh p)) (fun vs =>
    bind (t_faces (x_mesh p)) (fun fs =>
    let file := x_name p ++ lit ".dat" in
    let d1 := write_file (path_join directory file) (write_MAR (Mesh vs fs)) d in
    bind (export_range (x_omega p) range) (fun r =>
    let '(steps, start, stop) := r in
    let cal := nemoh_cal (show (x_rho p)) (show (x_g p)) (show_depth (x_depth p)) file
                 (dec (Z.of_nat (t_nb_vertices (x_mesh p)))) (dec (Z.of_nat (t_nb_faces (x_mesh p)))) (dec steps) (show start) (show stop) in
    let d2 := write_file (path_join directory (lit "Nemoh.cal")) cal d1 in
    let d3 := write_file (path_join directory (lit "input.txt")) input_txt d2 in
    Ok (write_file (path_join directory (lit "ID.dat")) (line (lit "1") ++ lit ".") d3)))).
End Export.
