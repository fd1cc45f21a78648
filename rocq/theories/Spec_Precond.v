(** Vocabulary of the properties of the preconditioned engine. *)
From Coq Require Import List Arith Bool.
From Verif Require Import Model_Base Model_Ring Model_Block Spec_Block Spec_LinSolve Model_Mesh Model_Tree Spec_Tree.
Import ListNotations.
Open Scope nat_scope.

(** A mesh, or two clusters put together: what [FloatingBody.cluster_bodies] builds. *)
Inductive clustered : tree -> Prop :=
| clustered_leaf m : clustered (Leaf m)
| clustered_pair k a b : clustered a -> clustered b -> clustered (Node k [a; b]).

(** More than one part. *)
Definition several (t : tree) : Prop := match t with Leaf _ => False | Node _ _ => True end.
(** The levels of collections. *)
Fixpoint levels (t : tree) : nat := match t with Leaf _ => 0 | Node _ l => S (fold_right Nat.max 0 (map levels l)) end.
(** The numbers of faces of the parts, and the position of the first face of a part. *)
Definition sizes (t : tree) : list nat := map nb_faces (leaves t).
Definition before (l : list nat) (k : nat) : nat := list_sum (firstn k l).

Section Spec.
Context {A : coeffs}.
Notation entries := (nat -> nat -> K A).

(** A matrix cut as the mesh: arrays for the interaction of a part with itself, blocks that are not structured above. *)
Inductive paired : mat A -> tree -> Prop :=
| paired_leaf m f : paired (Dense (nb_faces m) (nb_faces m) f) (Leaf m)
| paired_pair k a b hs ws bl : paired (bl 0 0) a -> paired (bl 1 1) b -> paired (Blk Model_Block.Plain 2 2 hs ws bl) (Node k [a; b]).

(** The interaction of the k-th part with itself, and the sum of the coefficients of the interaction of two parts. *)
Definition diagonal_block (F : entries) (l : list nat) (k : nat) : entries := fun i j => F (before l k + i) (before l k + j).
Definition interaction (F : entries) (l : list nat) (k k' : nat) : A :=
  ksum (nth k l 0) (fun i => ksum (nth k' l 0) (fun j => F (before l k + i) (before l k' + j))).
(** The systems that the preconditioner solves have one solution. *)
Definition invertible_parts (F : entries) (l : list nat) : Prop :=
  (forall k, k < length l -> nonsingular (nth k l 0) (diagonal_block F l k)) /\ nonsingular (length l) (interaction F l).

(** GMRES with exact arithmetic: what it returns satisfies the equation. *)
Definition exact_gmres (gmres : nat -> ((nat -> A) -> result (nat -> A)) -> (nat -> A) -> option (nat -> A)) : Prop :=
  forall n op b x, gmres n op b = Some x -> exists y, op x = Ok y /\ forall j, j < n -> y j = b j.
(** The approximations are not cut in blocks: they are LowRankMatrix objects, or arrays. *)
Definition low_rank (aca : (nat -> result (mat A * mat A)) -> (nat -> result (mat A * mat A)) -> nat -> nat -> result (option (mat A * mat A))) : Prop :=
  forall rows cols n1 n2 S K, aca rows cols n1 n2 = Ok (Some (S, K)) -> is_block S = false /\ is_block K = false.
Definition no_zero_divisor : Prop := forall x y : A, kmul x y = k0 -> x = k0 \/ y = k0.
End Spec.

Section Systems.
Context {A : coeffs}.
(** The vector satisfies the equation given by an operator and a right-hand side, in which nothing fails. *)
Definition satisfies (n : nat) (op : (nat -> A) -> result (nat -> A)) (rhs : result (nat -> A)) (x : nat -> A) : Prop :=
  exists y c, op x = Ok y /\ rhs = Ok c /\ forall j, j < n -> y j = c j.
End Systems.
