(** Writing a mesh in a file and loading the file. *)
From Coq Require Import Reals List.
From Verif Require Import Model_Base Model_Mesh Model_Tree Model_Text Model_Files Spec_Files.
Import ListNotations.

(** The file is written, loading it succeeds and gives a mesh that is the same up to [same]. *)
Definition round_trips (date : text) (w : format) (m : mesh) (same : mesh -> mesh -> Prop) : Prop :=
  exists t m', fst (write_mesh date w m) = Ok t /\ load_mesh w t = Some (Ok (Leaf m')) /\ same m m'.
(** The file is written but cannot be loaded. *)
Definition not_loaded (date : text) (w : format) (m : mesh) (e : pyexn) : Prop :=
  exists t, fst (write_mesh date w m) = Ok t /\ load_mesh w t = Some (Err e).
(** The date does not contain the end of line. *)
Definition plain_date (date : text) : Prop := ~ In newline date.
(** The same polygons, whose corners are shared: no vertex is listed twice. *)
Definition same_merged (tolerated : R -> R -> Prop) (m m' : mesh) : Prop := same_polygons tolerated m m' /\ NoDup (m_vertices m').
