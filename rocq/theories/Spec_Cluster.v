(** Vocabulary of the properties of clusters of bodies. *)
From Coq Require Import Reals String List Bool Arith.
From Verif Require Import Model_Base Model_Geometry Model_Mesh Model_Tree Model_Integrals Model_Body.
Import ListNotations.
Open Scope nat_scope.

(** The two first columns of a linkage matrix of [n] observations: the i-th row merges two nodes, that are not merged before,
    into the node [n + i]. *)
Definition linkage_rows (n : nat) (rows : list (nat * nat)) : Prop :=
  List.length rows = n - 1
  /\ forall i l r, nth_error rows i = Some (l, r) -> l <> r /\ l < n + i /\ r < n + i
     /\ forall j l' r', j < i -> nth_error rows j = Some (l', r') -> l <> l' /\ l <> r' /\ r <> l' /\ r <> r'.
(** What scipy promises: such a matrix for two observations or more, an error otherwise. *)
Definition links (linkage : list (R * R) -> result (list (nat * nat))) : Prop :=
  (forall ps, List.length ps < 2 -> linkage ps = Err ValueError)
  /\ (forall ps, 2 <= List.length ps -> exists rows, linkage ps = Ok rows /\ linkage_rows (List.length ps) rows).
(** The observations under a node of the dendrogram, from the left to the right. *)
Inductive dendrogram (n : nat) (rows : list (nat * nat)) : nat -> list nat -> Prop :=
| dendrogram_leaf k : k < n -> dendrogram n rows k [k]
| dendrogram_node i l r a b : nth_error rows i = Some (l, r) -> dendrogram n rows l a -> dendrogram n rows r b ->
    dendrogram n rows (n + i) (a ++ b).
(** The body floats somewhere: its center of buoyancy is defined. *)
Definition buoy_at (b : fbody) (p : R * R) : Prop :=
  exists c, center_of_buoyancy (fb_mesh b) = Ok (Some c) /\ p = (vx c, vy c).
