(** Vocabulary of the properties of the lazily computed properties of meshes. *)
From Coq Require Import Reals List Bool ZArith.
From Verif Require Import Model_Base Model_Mesh Model_Quadrature Model_Lazy.
Import ListNotations.

Section Spec.
  Variable py_hash : list quad -> Z.
  (** The value of a property computed from the vertices and the faces only. *)
  Definition recomputed (a : access) (m : mesh) : output :=
    match a with
    | Ids => ShowIds (Ok (triangles_ids m, quadrangles_ids m))
    | Props => ShowProps (bind (faces_props m) (fun l => Ok (Rows l)))
    | Nodes => ShowNodes (Ok (nodes_center m))
    | Diameter => ShowDiameter (nodes_diameter m)
    | Hash => ShowHash (mesh_hash py_hash m)
    end.
End Spec.
(** The statements of a program that go through the methods of meshes: all but
    writing in the array of vertices, assigning the quadrature method and
    extracting faces with a column of indices. *)
Definition regular (c : command) : bool :=
  match c with ExtractColumn _ _ | WriteVertex _ _ _ | AssignMethod _ _ => false | _ => true end.
(** The statements that only look at a property. *)
Definition is_access (c : command) : bool := match c with Access _ _ => true | _ => false end.
(** The outputs of the other statements. *)
Definition other_outputs (p : list command) (vs : list output) : list output :=
  map snd (filter (fun cv => negb (is_access (fst cv))) (combine p vs)).
