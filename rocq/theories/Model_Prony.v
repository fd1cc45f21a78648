(** Approximation of a function by a sum of exponentials
    (/repo/capytaine/tools/prony_decomposition.py).  An array of numbers is a
    function of the index here, with its size apart.  The least-square solvers
    of numpy and scipy and the roots of polynomials are arguments. *)
From Coq Require Import Reals List Bool Arith.
Import ListNotations.
Open Scope R_scope.

(** Value, NoConvergenceError, or exception of curve_fit *)
Inductive outcome (A : Type) := Done (x : A) | NoConvergence | FitFailed.
Arguments Done {A} x.
Arguments NoConvergence {A}.
Arguments FitFailed {A}.

(** Σ f x for the elements x of a list *)
Definition lsum {A : Type} (f : A -> R) (l : list A) : R :=
  fold_right (fun x s => f x + s) 0 l.

(** np.unique: sorted values, each of them once *)
Fixpoint insert (x : R) (l : list R) : list R :=
  match l with
  | [] => [x]
  | y :: l' => if Rlt_dec x y then x :: l
               else if Req_EM_T x y then l else y :: insert x l'
  end.
Definition unique (l : list R) : list R := fold_right insert [] l.

(** np.linspace(x_min, x_max, n), for n > 1 *)
Definition linspace (x_min x_max : R) (n : nat) : nat -> R :=
  fun j => x_min + INR j * ((x_max - x_min) / INR (n - 1)).

(** Value at x of the sum of exponentials: lines 59-62 and 91-92 *)
Definition exponentials (a lamda : list R) (x : R) : R :=
  lsum (fun al => fst al * exp (snd al * x)) (combine a lamda).

(** Lines 68-94, for arrays of size n *)
Definition error_exponential_decomposition
    (n : nat) (X F : nat -> R) (a lamda : list R) : R :=
  lsum (fun j => Rsqr (exponentials a lamda (X j) - F j)) (seq 0 n) / INR n.

Section Prony.

(** np.linalg.lstsq (rows, columns, matrix, right-hand side),
    polynomial.polyroots (real coefficients by increasing degree; real and
    imaginary parts of the roots) and scipy.optimize.curve_fit for the sum of
    exponentials of given rates (rates, size, points, values; None when it
    raises an exception). *)
Variable lstsq : nat -> nat -> (nat -> nat -> R) -> (nat -> R) -> nat -> R.
Variable polyroots : list R -> list (R * R).
Variable curve_fit : list R -> nat -> (nat -> R) -> (nat -> R) -> option (list R).

(** Line 40: toeplitz(c=F[m-1:-1], r=F[:m][::-1]).  Below the diagonal the
    coefficient (i, j) is c[i-j], above it is r[j-i]. *)
Definition prony_matrix (m : nat) (F : nat -> R) (i j : nat) : R :=
  if Nat.leb j i then F (m - 1 + (i - j))%nat else F (m - 1 - (j - i))%nat.

(** Lines 43-48 *)
Definition prony_coefficients (m : nat) (P : nat -> R) : list R :=
  map (fun k => - P (m - 1 - k)%nat) (seq 0 m) ++ [1].

(** Lines 50-56.  The real part of log z is the logarithm of the modulus of z.
    The logarithm of zero is infinite and is discarded by line 56. *)
Definition modulus (z : R * R) : R := sqrt (Rsqr (fst z) + Rsqr (snd z)).

Definition log_defined (z : R * R) : bool :=
  (if Req_EM_T (snd z) 0 then false else true) || (if Rle_dec 0 (fst z) then true else false).

Definition interesting (l : R) : bool :=
  (if Rlt_dec (-20) l then true else false) && (if Rlt_dec l 0 then true else false).

Definition rate (dx : R) (z : R * R) : list R :=
  if Req_EM_T (modulus z) 0 then [] else [ln (modulus z) / dx].

Definition prony_rates (dx : R) (roots : list (R * R)) : list R :=
  filter interesting (unique (flat_map (rate dx) (filter log_defined roots))).

(** Lines 17-65, for arrays of size n *)
Definition exponential_decomposition (n : nat) (X F : nat -> R) (m : nat)
    : option (list R * list R) :=
  let P := lstsq (n - m)%nat m (prony_matrix m F) (fun i => F (m + i)%nat) in
  let lamda := prony_rates (X 1%nat - X 0%nat) (polyroots (prony_coefficients m P)) in
  match curve_fit lamda n X F with
  | Some a => Some (a, lamda)
  | None => None
  end.

(** Lines 101-131 *)
Fixpoint find_best_exponential_decomposition
    (f : R -> R) (x_min x_max : R) (n_exp_range : list nat) (tol : R)
    : outcome (list R * list R) :=
  match n_exp_range with
  | [] => NoConvergence
  | n_exp :: others =>
      let X := linspace x_min x_max (4 * n_exp + 1) in
      match exponential_decomposition (4 * n_exp + 1) X (fun j => f (X j)) n_exp with
      | None => FitFailed
      | Some (a, lamda) =>
          let X := linspace x_min x_max (8 * n_exp + 1) in
          if Rlt_dec (error_exponential_decomposition (8 * n_exp + 1) X (fun j => f (X j)) a lamda) tol
          then Done (a, lamda)
          else find_best_exponential_decomposition f x_min x_max others tol
      end
  end.

End Prony.
