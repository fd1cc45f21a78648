(** Vocabulary of the properties of hydrostatics. *)
From Coq Require Import Reals List.
From Verif Require Import Model_Base Model_Geometry.
Import ListNotations.
Open Scope R_scope.

(** [d] is the greatest difference of a coordinate of two of the points. *)
Definition greatest_distance (coordinate : vec -> R) (vs : list vec) (d : R) : Prop :=
  (exists u v, In u vs /\ In v vs /\ coordinate u - coordinate v = d) /\ forall u v, In u vs -> In v vs -> coordinate u - coordinate v <= d.
