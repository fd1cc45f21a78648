(** The decomposition of the finite depth Green function as a sum of exponentials:
    /repo/capytaine/green_functions/delhommeau.py, 255-305, and the function FF of
    /repo/capytaine/green_functions/libDelhommeau/src/old_Prony_decomposition.f90.
    Real numbers instead of floats; a division by zero is None.  The cache of the
    results (lru_cache) is modelled in Model_Cache. *)
From Coq Require Import Reals List String.
From Verif Require Import Model_Problem Model_Prony.
Import ListNotations.
Open Scope R_scope.

Definition quotient (x y : R) : option R :=
  if Req_EM_T y 0 then None else Some (x / y).

(** FF in old_Prony_decomposition.f90, lines 42, 47 and 49: its expression far from M0 *)
Definition ff_far (COEF K K0 M0 : R) : option R :=
  match quotient ((K + K0) * exp K) (K * sinh K - K0 * cosh K), quotient COEF (K - M0) with
  | Some u, Some v => Some (u - v - 2)
  | _, _ => None
  end.

(** FF in old_Prony_decomposition.f90, lines 29-54 *)
Definition ff (K K0 M0 : R) : option R :=
  match quotient ((M0 + K0) ^ 2) (M0 ^ 2 - K0 ^ 2 + K0) with
  | None => None
  | Some COEF =>
      let TOL := Rmax (1 / 10) (1 / 10 * M0) in
      if Rlt_dec TOL (Rabs (K - M0)) then ff_far COEF K K0 M0
      else
        let A := M0 - TOL in
        let B := M0 in
        let C := M0 + TOL in
        match ff_far COEF A K0 M0, quotient COEF (M0 + K0), ff_far COEF C K0 M0 with
        | Some D, Some q, Some F =>
            let E := q * (M0 + K0 + 1) - q ^ 2 * M0 - 2 in
            Some (D * (K - B) * (K - C) / ((A - B) * (A - C))
                  + E * (K - C) * (K - A) / ((B - C) * (B - A))
                  + F * (K - A) * (K - B) / ((C - A) * (C - B)))
        | _, _, _ => None
        end
  end.

(** The two rows of the array returned, or an exception *)
Inductive green_outcome :=
| Rows (lamda a : list R)
| UnboundLocalError
| FitException
| ValueError.

Section Decomposition.

Variable lstsq : nat -> nat -> (nat -> nat -> R) -> (nat -> R) -> nat -> R.
Variable polyroots : list R -> list (R * R).
Variable curve_fit : list R -> nat -> (nat -> R) -> (nat -> R) -> option (list R).
(** Values of the Fortran function ff, and the number of exponentials and the two
    rows computed by the Fortran routine lisc. *)
Variable ff_value : R -> R -> R -> R.
Variable lisc : R -> R -> nat * (list R * list R).

(** range(4, 31, 2) *)
Definition sizes : list nat := map (fun i => 4 + 2 * i)%nat (seq 0 14).

(** delhommeau.py, 255-305.  When no decomposition is found, the variables a and
    lamda are not set after the warning (lines 293-298). *)
Definition green_decomposition (default_method : string) (method : option string)
    (dimensionless_wavenumber : R) : green_outcome :=
  let method := match method with None => default_method | Some s => s end in
  let omega2_h_over_g := dimensionless_wavenumber * tanh dimensionless_wavenumber in
  if String.eqb (lower method) "python" then
    match find_best_exponential_decomposition lstsq polyroots curve_fit
            (fun x => ff_value x omega2_h_over_g dimensionless_wavenumber)
            (- 1 / 10) 20 sizes (1 / 10000) with
    | Done (a, lamda) => Rows lamda a
    | NoConvergence => UnboundLocalError
    | FitFailed => FitException
    end
  else if String.eqb (lower method) "fortran" then
    let (nexp, pr_d) := lisc omega2_h_over_g dimensionless_wavenumber in
    Rows (firstn nexp (fst pr_d)) (firstn nexp (snd pr_d))
  else ValueError.

End Decomposition.
