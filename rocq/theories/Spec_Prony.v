(** Vocabulary for the sums of exponentials: exact solvers, the sum of given
    coefficients and rates, and the mean square error. *)
From Coq Require Import Reals List Permutation.
From Verif Require Import Model_Prony.
Import ListNotations.
Open Scope R_scope.

(** Least squares give an exact solution when there is one. *)
Definition exact_lstsq (rows cols : nat)
    (lstsq : nat -> nat -> (nat -> nat -> R) -> (nat -> R) -> nat -> R) : Prop :=
  forall A b,
  let solution x := forall i, (i < rows)%nat ->
    lsum (fun j => A i j * x j) (seq 0 cols) = b i in
  (exists x, solution x) -> solution (lstsq rows cols A b).

Definition polynomial (p : list R) (x : R) : R :=
  fold_right (fun c s => c + x * s) 0 p.

Definition product (zs : list R) (x : R) : R :=
  fold_right (fun z s => (x - z) * s) 1 zs.

(** The roots of a polynomial that is the product of the X - z for [m] distinct
    real numbers z are these numbers, in any order. *)
Definition exact_roots (m : nat) (polyroots : list R -> list (R * R)) : Prop :=
  forall p zs, length zs = m -> NoDup zs -> length p = S m ->
  (forall x, polynomial p x = product zs x) ->
  Permutation (polyroots p) (map (fun z => (z, 0)) zs).

(** The coefficients of [m] exponentials fit exactly when this is possible. *)
Definition exact_fit (m n : nat)
    (curve_fit : list R -> nat -> (nat -> R) -> (nat -> R) -> option (list R)) : Prop :=
  forall lamda X F, length lamda = m ->
  let solution a := length a = m /\
    forall j, (j < n)%nat -> exponentials a lamda (X j) = F j in
  (exists a, solution a) -> exists a, curve_fit lamda n X F = Some a /\ solution a.

(** The function Σ a exp(λ x), for a list of pairs (a, λ) *)
Definition sum_of (l : list (R * R)) (x : R) : R :=
  lsum (fun al => fst al * exp (snd al * x)) l.

(** Nonzero coefficients and distinct rates that the method keeps *)
Definition admissible (l : list (R * R)) : Prop :=
  NoDup (map snd l) /\ Forall (fun al => fst al <> 0 /\ -20 < snd al < 0) l.

(** Mean square difference of two functions on [n] points from x_min to x_max *)
Definition mean_square (g f : R -> R) (x_min x_max : R) (n : nat) : R :=
  lsum (fun j => Rsqr (g (x_min + INR j * (x_max - x_min) / INR (n - 1))
                       - f (x_min + INR j * (x_max - x_min) / INR (n - 1)))) (seq 0 n) / INR n.
