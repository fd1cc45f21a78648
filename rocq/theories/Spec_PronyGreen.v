(** Vocabulary for the decomposition of the finite depth Green function. *)
From Coq Require Import Reals.
Open Scope R_scope.

(** The expression far from the wavenumber, as in Delhommeau's thesis *)
Definition thesis (K K0 M0 : R) : R :=
  (K + K0) * exp K / (K * sinh K - K0 * cosh K)
  - (M0 + K0) ^ 2 / (M0 ^ 2 - K0 ^ 2 + K0) / (K - M0) - 2.
