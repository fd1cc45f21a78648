(** Solutions of linear systems. *)
From Coq Require Import List Arith Bool.
From Verif Require Import Model_Base Model_Ring Model_Block Spec_Block Model_LinSolve.
Import ListNotations.
Open Scope nat_scope.

Section Spec.
Context {A : coeffs}.

(** F x = b for the n x n matrix F. *)
Definition solution (n : nat) (F : nat -> nat -> A) (x b : nat -> A) : Prop :=
  forall i, i < n -> times_vec n F x i = b i.
(** F x = 0 only for x = 0. *)
Definition nonsingular (n : nat) (F : nat -> nat -> A) : Prop :=
  forall x, solution n F x (fun _ => k0) -> forall i, i < n -> x i = k0.

(** An exact solver on arrays: what it returns is a solution, and it succeeds on nonsingular systems. *)
Definition exact_solver (lapack : nat -> (nat -> nat -> A) -> (nat -> A) -> option (nat -> A)) : Prop :=
  (forall n f b x, lapack n f b = Some x -> solution n f x b) /\
  (forall n f b, nonsingular n f -> exists x, lapack n f b = Some x).

(** Structures handled by the direct solver: the stored blocks of circulant matrices have the same
    nesting (or one is an array), the two blocks of a 2x2 symmetric matrix have the same nesting,
    and no block below is a low-rank matrix. The other block matrices are assembled. *)
Fixpoint solve_ready (m : mat A) : Prop :=
  match m with
  | Bad _ => False
  | Low _ _ _ _ _ => False
  | Dense _ _ _ => True
  | Blk SymToeplitz _ nc _ _ b =>
      nc = 2 -> alike (b 0 0) (b 0 1) /\ forall k, k < 2 -> no_low_rank (b 0 k) /\ solve_ready (b 0 k)
  | Blk (Circulant | EvenCirculant | OddCirculant) _ nc _ _ b =>
      uniform nc (b 0) /\ forall k, k < nc -> no_low_rank (b 0 k) /\ solve_ready (b 0 k)
  | Blk _ _ _ _ _ _ => True
  end.

(** Matrices accepted by the LU solver: arrays, and 2x2 symmetric matrices of accepted matrices. *)
Fixpoint lu_ready (m : mat A) : Prop :=
  match m with
  | Dense _ _ _ => True
  | Blk (SymToeplitz | EvenCirculant) nr nc _ _ b => nc = 2 /\ alike (b 0 0) (b 0 1) /\ lu_ready (b 0 0) /\ lu_ready (b 0 1)
  | _ => False
  end.
(** An exact LU decomposition: it succeeds on square arrays, and solving with it gives a solution. *)
Definition exact_lu {lu} (lu_factor : nat -> nat -> (nat -> nat -> A) -> option lu)
  (lu_solve : lu -> (nat -> A) -> nat -> A) : Prop :=
  (forall n f, nonsingular n f -> exists l, lu_factor n n f = Some l) /\
  (forall n f l b, nonsingular n f -> lu_factor n n f = Some l -> solution n f (lu_solve l b) b).
End Spec.

Section History.
Context {A : coeffs} {lu : Type}.
Variable lu_factor : nat -> nat -> (nat -> nat -> A) -> option lu.
Variable lu_solve : lu -> (nat -> A) -> nat -> A.

(** What a solver without memory returns. *)
Definition memoryless (fuel : nat) (m : mat A) (nb : nat) (b : nat -> A) : result (nat -> A) :=
  bind (lu_decomp lu lu_factor fuel m) (fun d => Ok (solve_pair lu lu_solve d nb b)).
Fixpoint memoryless_history (fuel : nat) (h : @heap A) (es : list (@event A)) : list (result (nat -> A)) :=
  match es with
  | [] => []
  | Solve r nb b :: es => memoryless fuel (h r) nb b :: memoryless_history fuel h es
  | Mutate r m :: es => memoryless_history fuel (fun r' => if r' =? r then m else h r') es
  end.

(** Histories where a matrix whose decomposition failed is not solved again before another one, and
    the last solved matrix is not modified. [last]: the last solved matrix, and whether it was
    decomposed. *)
Fixpoint careful (fuel : nat) (h : @heap A) (last : option (nat * bool)) (es : list (@event A)) : Prop :=
  match es with
  | [] => True
  | Solve r _ _ :: es =>
      last <> Some (r, false) /\
      careful fuel h (Some (r, match lu_decomp lu lu_factor fuel (h r) with Ok _ => true | Err _ => false end)) es
  | Mutate r m :: es =>
      last <> Some (r, true) /\ last <> Some (r, false) /\
      careful fuel (fun r' => if r' =? r then m else h r') last es
  end.
End History.
