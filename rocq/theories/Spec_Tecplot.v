(** Vocabulary of the files of results. *)
From Coq Require Import Reals String Ascii.
From Coq Require Import List Bool ZArith Arith.
From Verif Require Import Model_Base Model_Geometry Model_Problem Model_Solver Model_Text Model_Nemoh Model_Dataset Spec_Dataset Spec_Matrices.
Import ListNotations.
Open Scope nat_scope.

(** A file that starts with [n] lines of three dots and continues with blocks, made of a title and of rows of words. *)
Definition tec_file (n : nat) (blocks : list (text * list (list text))) (t : text) : Prop :=
  exists body, readlines t = repeat (lit "..." ++ [newline]) n ++ concat body
    /\ Forall2 (fun b ls => exists rows, ls = (fst b ++ [newline]) :: rows /\ map split rows = snd b) blocks body.

Section Spec.
  Variable cell : Type.
  Variable nan : cell.
  (** A block for each label of [cs], a row for each frequency, with the frequency and two words for each influenced dof. *)
  Definition tec_blocks (title : value -> text) (show_freq : value -> text) (words : value -> value -> value -> list text) (cs omegas infl : list value) : list (text * list (list text)) :=
    map (fun c => (title c, map (fun o => show_freq o :: flat_map (words o c) infl) omegas)) cs.
  (** The texts of the labels and numbers are words without blanks, the titles are on one line. *)
  Definition one_word (t : text) : Prop := t <> [] /\ Forall (fun c => blank c = false) t.
  Definition no_newline (t : text) : Prop := Forall (fun c => is_char 10 c = false) t.
End Spec.
(** The files that are not named are left as they were. *)
Definition only_touches (paths : list text) (d d' : disk) : Prop := forall p, ~ In p paths -> d' p = d p.

(** The two files of a body. *)
Definition matrix_file (show_e : R -> text) (k : list (list R)) (t : text) : Prop :=
  Forall2 (fun row l => split l = map show_e row) k (readlines t).
Definition hydrostatics_file (word_length show_e : R -> text) (buoyancy mass : vec) (volume : R) (t : text) : Prop :=
  exists lx ly lz last, readlines t = [lx; ly; lz; last]
    /\ (let center l x := split l = [lit "XF"; lit "="; word_length (x buoyancy); lit "-"; lit "XG"; lit "="; word_length (x mass)] in
        center lx vx /\ center ly vy /\ center lz vz)
    /\ split last = [lit "Displacement"; lit "="; show_e volume].
(** The names of the files of the body [i] among [n]. *)
Definition numbered (base : string) (n i : nat) : text := if Nat.eqb n 1 then lit base ++ lit ".dat" else lit base ++ lit "_" ++ dec (Z.of_nat i) ++ lit ".dat".
