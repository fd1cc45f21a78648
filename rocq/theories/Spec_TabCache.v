(** Vocabulary of the properties of the tabulations kept on disk. *)
From Coq Require Import String Ascii.
From Coq Require Import List Bool Arith ZArith.
From Verif Require Import Model_Base Model_Text Model_TabCache.
Import ListNotations.

(** The writing of the floating point numbers: one text per number, without the separators used in the names of files (shortest
    representation of Python: digits, signs, dots, and the letters of inf, nan and e). *)
Definition readable_numbers {F} (show : F -> text) : Prop :=
  (forall x y, show x = show y -> x = y) /\ (forall x c, In c (show x) -> c <> underscore /\ c <> slash).

Section Vocabulary.
  Variable F : Type.
  Variable show : F -> text.
  Variable T : Type.
  Variable make : text -> text -> nat -> F -> nat -> F -> nat -> T.
  Notation arguments := (arguments F).
  Notation system := (system F T).
  Notation disk := (disk T).

  (** The parameters of two calls are the same, except perhaps the directory. *)
  Definition same_parameters (a b : arguments) : Prop :=
    a_precision F a = a_precision F b /\ a_shape F a = a_shape F b /\ a_nr F a = a_nr F b /\ a_rmax F a = a_rmax F b /\ a_nz F a = a_nz F b /\ a_zmin F a = a_zmin F b
    /\ a_points F a = a_points F b.
  Definition known_names (a : arguments) : Prop := known_precision (a_precision F a) = true /\ known_shape (a_shape F a) = true.
  Definition path_of (a : arguments) (dir : text) : text := join_path dir (file_name F show a).
  (** A disk left by previous runs: the complete files have the table of the parameters of their name. *)
  Definition right_disk (d : disk) : Prop :=
    forall a dir t, known_names a -> find_file T (path_of a dir) (files T d) = Some (Complete T t) -> t = table_of F T make a.
  (** No constructor is running or has been interrupted. *)
  Definition no_unfinished (d : disk) : Prop := forall p w, find_file T p (files T d) <> Some (Unfinished T w).

  (** A single process at a time: the constructions are complete, without interruption; [n] is the number of the next one. *)
  Inductive action := Construct (a : arguments) | Delete (path : text) | Make_directory (dir : text).
  Fixpoint one_at_a_time (n : nat) (l : list action) : list (event F) :=
    match l with
    | [] => []
    | Construct a :: l => Call F a :: Step F n false :: Step F n false :: Step F n false :: Step F n false :: one_at_a_time (S n) l
    | Delete p :: l => Remove F p :: one_at_a_time n l
    | Make_directory d :: l => Mkdir F d :: one_at_a_time n l
    end.
  (** The calls of a list of actions. *)
  Fixpoint constructions (l : list action) : list arguments := match l with [] => [] | Construct a :: l => a :: constructions l | _ :: l => constructions l end.
  (** The calls are correct: known names, and a directory that exists when it is given. *)
  Definition correct_call (dirs : list text) (a : arguments) : Prop :=
    known_names a /\ forall dir, a_directory F a = Some dir -> In dir dirs.
End Vocabulary.
