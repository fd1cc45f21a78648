(** Vocabulary of the properties of merged vertices and connected components. *)
From Coq Require Import Reals List Bool Arith Permutation Sorted Relation_Operators.
From Verif Require Import Model_Base Model_Geometry Model_Mesh.
Import ListNotations.
Open Scope R_scope.

(** What is required of [ndarray.argsort]: the positions of the values, in an order that sorts them. *)
Definition sorts (argsort : list R -> list nat) : Prop :=
  forall l, Permutation (argsort l) (seq 0 (length l)) /\ StronglySorted Rle (map (fun k => nth k l 0) (argsort l)).
(** Each coordinate differs by at most the tolerance. *)
Definition close (atol : R) (u v : vec) : Prop :=
  Rabs (vx u - vx v) <= atol /\ Rabs (vy u - vy v) <= atol /\ Rabs (vz u - vz v) <= atol.

(** Two faces (given by their positions) share a vertex. *)
Definition share_vertex (fs : list face) (i j : nat) : Prop :=
  exists f g v, nth_error fs i = Some f /\ nth_error fs j = Some g
    /\ In v [fa f; fb f; fc f; fd f] /\ In v [fa g; fb g; fc g; fd g].
(** Two faces linked by a chain of faces, each one sharing a vertex with the next one. *)
Definition connected (fs : list face) (i j : nat) : Prop := clos_refl_trans nat (share_vertex fs) i j.
