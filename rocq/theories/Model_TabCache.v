(** Model of the tabulations kept on disk: capytaine/green_functions/delhommeau.py:105-247 and capytaine/tools/cache_on_disk.py. Several
    processes construct Green functions that share the files; the operations on files are the steps that may be interleaved. *)
From Coq Require Import String Ascii.
From Coq Require Import List Bool Arith ZArith.
From Verif Require Import Model_Base Model_Text.
Import ListNotations.

(** The directory of the cache, cache_on_disk.py:11-26, for the systems other than Windows and macOS. The variables of the environment are
    given when they are set; [home_cache] is the expansion of ~/.cache. *)
Definition slash : ascii := ascii_of_nat 47.
Definition underscore : ascii := ascii_of_nat 95.
(** [os.path.join] of a directory and a name that is not an absolute path. *)
Definition join_path (dir name : text) : text :=
  match rev dir with
  | [] => name
  | c :: _ => if ascii_dec c slash then dir ++ name else dir ++ slash :: name
  end.
Definition cache_directory (version : text) (capytaine_cache_dir xdg_cache_home : option text) (home_cache : text) : text :=
  match capytaine_cache_dir with
  | Some d => join_path d version
  | None =>
    let path := match xdg_cache_home with Some p => if text_eqb (strip p) [] then home_cache else p | None => home_cache end in
    join_path (join_path path (lit "capytaine")) version
  end.

Section Cache.
  (** The floating point numbers and their writing by [format]; the tables and their computation. *)
  Variable F : Type.
  Variable show : F -> text.
  Variable T : Type.

  (** The arguments of the constructor that matter for the table, delhommeau.py:105-117; the numbers of points are integers. *)
  Record arguments := Arguments {
    a_precision : text; a_shape : text; a_nr : nat; a_rmax : F; a_nz : nat; a_zmin : F; a_points : nat; a_directory : option text }.
  (** The computation of a table, delhommeau.py:235-247; it depends on the compiled library, chosen by the precision. *)
  Variable make : text -> text -> nat -> F -> nat -> F -> nat -> T.
  Definition table_of (a : arguments) : T := make (a_precision a) (a_shape a) (a_nr a) (a_rmax a) (a_nz a) (a_zmin a) (a_points a).

  (** The name of the file, delhommeau.py:211-215. *)
  Definition file_name (a : arguments) : text :=
    lit "tabulation_" ++ a_precision a ++ underscore :: a_shape a ++ underscore :: dec (Z.of_nat (a_nr a)) ++ underscore :: show (a_rmax a) ++ underscore :: dec (Z.of_nat (a_nz a))
      ++ underscore :: show (a_zmin a) ++ underscore :: dec (Z.of_nat (a_points a)) ++ lit ".npz".

  (** The content of a file: a readable table, or what is there while processes are writing in it (or died before the end). *)
  Inductive content := Complete (t : T) | Unfinished (writers : list nat).
  Record disk := Disk { directories : list text; files : list (text * content) }.
  Fixpoint find_file (p : text) (l : list (text * content)) : option content :=
    match l with [] => None | (q, c) :: l => if text_eqb p q then Some c else find_file p l end.
  Definition remove_file (p : text) (l : list (text * content)) : list (text * content) := filter (fun f => negb (text_eqb p (fst f))) l.
  Definition write_file (p : text) (c : content) (l : list (text * content)) : list (text * content) := (p, c) :: remove_file p l.
  Definition text_in (t : text) (l : list text) : bool := existsb (text_eqb t) l.

  (** Where the constructor of a process is. *)
  Inductive progress :=
  | Called                  (** nothing is done *)
  | Absent                  (** the file was not there, line 218 *)
  | Computed (t : T)        (** lines 226-228 *)
  | Opened (t : T)          (** the file is created by [np.savez_compressed], line 230 *)
  | Done (t : T)            (** the object has its table *)
  | Raised (e : pyexn)
  | Killed.
  Record process := Process { p_arguments : arguments; p_progress : progress }.
  Record system := System { s_disk : disk; s_processes : list process }.

  (** The names that are looked up in dictionaries or modules, lines 118-126. *)
  Definition known_precision (p : text) : bool := text_eqb p (lit "float32") || text_eqb p (lit "float64").
  Definition known_shape (s : text) : bool := text_eqb s (lit "legacy") || text_eqb s (lit "scaled_nemoh3").

  (** The next step of the process number [i]: the rest of the constructor until its next effect on the disk. [mixed] is the content left
      by a writer when others have opened the same file: readable or not. The writers of a file write the same table. *)
  Definition advance (i : nat) (mixed : bool) (d : disk) (p : process) : disk * progress :=
    let a := p_arguments p in
    match p_progress p with
    | Called =>
      if negb (known_precision (a_precision a)) then (d, Raised OtherException)
      else if negb (known_shape (a_shape a)) then (d, Raised KeyError)
      else match a_directory a with
        | None => (d, Done (table_of a))
        | Some dir =>
          match find_file (join_path dir (file_name a)) (files d) with
          | Some (Complete t) => (d, Done t)
          | Some (Unfinished _) => (d, Raised OtherException)
          | None => (d, Absent)
          end
        end
    | Absent => (d, Computed (table_of a))
    | Computed t =>
      match a_directory a with
      | None => (d, Done t)
      | Some dir =>
        if text_in dir (directories d) then
          let path := join_path dir (file_name a) in
          let others := match find_file path (files d) with Some (Unfinished w) => w | _ => [] end in
          (Disk (directories d) (write_file path (Unfinished (i :: others)) (files d)), Opened t)
        else (d, Raised OtherException)
      end
    | Opened t =>
      match a_directory a with
      | None => (d, Done t)
      | Some dir =>
        let path := join_path dir (file_name a) in
        match find_file path (files d) with
        | Some (Unfinished w) =>
          let rest := filter (fun j => negb (Nat.eqb i j)) w in
          let after := match rest with [] => Complete t | _ => if mixed then Complete t else Unfinished rest end in
          (Disk (directories d) (write_file path after (files d)), Done t)
        | Some (Complete u) => (d, Done t)
        | None => (d, Done t)
        end
      end
    | Done _ | Raised _ | Killed => (d, p_progress p)
    end.

  (** What may happen: a constructor is called, a process makes a step, a process is killed, a user removes a file or makes a
      directory. *)
  Inductive event := Call (a : arguments) | Step (i : nat) (mixed : bool) | Kill (i : nat) | Remove (path : text) | Mkdir (dir : text).
  Fixpoint set_nth {A} (i : nat) (x : A) (l : list A) : list A :=
    match l, i with [], _ => [] | _ :: l, O => x :: l | y :: l, S i => y :: set_nth i x l end.
  Definition happen (s : system) (e : event) : system :=
    match e with
    | Call a => System (s_disk s) (s_processes s ++ [Process a Called])
    | Step i mixed =>
      match nth_error (s_processes s) i with
      | None => s
      | Some p => let '(d, g) := advance i mixed (s_disk s) p in System d (set_nth i (Process (p_arguments p) g) (s_processes s))
      end
    | Kill i =>
      match nth_error (s_processes s) i with
      | Some p => match p_progress p with Done _ | Raised _ => s | _ => System (s_disk s) (set_nth i (Process (p_arguments p) Killed) (s_processes s)) end
      | None => s
      end
    | Remove path => System (Disk (directories (s_disk s)) (remove_file path (files (s_disk s)))) (s_processes s)
    | Mkdir dir => System (Disk (dir :: directories (s_disk s)) (files (s_disk s))) (s_processes s)
    end.
  Definition history (s : system) (l : list event) : system := fold_left happen l s.
End Cache.
