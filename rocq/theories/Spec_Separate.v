(** Vocabulary about datasets with complex values. *)
From Coq Require Import Reals String List Bool Arith.
From Verif Require Import Model_Base Model_Separate.
Import ListNotations.
Open Scope nat_scope.

(** The dataset has distinct variables and does not use the name "complex" for a coordinate nor for a dimension, and each
    array has as many values as given by its shape. *)
Definition size_of (d : data) : nat :=
  match d with Floats l => length l | Complexes l => length l | Complexes64 l => length l | Strings l => length l end.
Definition ordinary_dataset (ds : xdataset) : Prop :=
  NoDup (map fst (x_vars ds))
  /\ (forall n v, In (n, v) (x_vars ds) -> ~ In "complex"%string (v_dims v) /\ size_of (v_data v) = fold_right Nat.mul 1 (v_shape v))
  /\ (forall n v, In (n, v) (x_coords ds) -> n <> "complex"%string).
(** The imaginary parts are finite; the real parts may be infinite or undefined. *)
Definition finite_imaginary (ds : xdataset) : Prop :=
  forall n v l z, In (n, v) (x_vars ds) -> v_data v = Complexes l -> In z l -> exists y, snd z = Fin y.
(** The values of the real representation of a variable. *)
Definition real_form (v : variable) : variable :=
  match v_data v with
  | Complexes l => Var ("complex"%string :: v_dims v) (2 :: v_shape v) (Floats (map fst l ++ map snd l))
  | _ => v
  end.
