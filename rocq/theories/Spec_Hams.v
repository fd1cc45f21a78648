(** Vocabulary of the evanescent waves. *)
From Coq Require Import Reals List.
From Coquelicot Require Import Coquelicot.
From Verif Require Import Model_Base.
Import ListNotations.
Open Scope R_scope.

(** A search between two points: refused when the function has the same sign at both, otherwise finding a zero of a continuous function. *)
Definition exact_search (brentq : (R -> R) -> R -> R -> result R) : Prop :=
  forall f a b, a < b -> (forall x, a <= x <= b -> continuous f x) ->
    (0 < f a * f b -> brentq f a b = Err ValueError) /\ (f a * f b <= 0 -> exists x, brentq f a b = Ok x /\ a <= x <= b /\ f x = 0).
(** The waves of the wavenumber [k] in the depth [h] have the same frequency as the local waves that decrease like [exp (- r x)]. *)
Definition evanescent (k h r : R) : Prop := 0 < r /\ cos (r * h) <> 0 /\ - (r * tan (r * h)) = k * tanh (k * h).
