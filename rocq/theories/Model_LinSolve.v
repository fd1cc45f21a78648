(** Model of /repo/capytaine/matrices/linear_solvers.py 22-112.

    LAPACK is an oracle: [lapack n f b] is numpy.linalg.solve on the n x n array f, None when it
    raises LinAlgError (singular matrix). Its exactness is a hypothesis of the theorems.
    Vectors are functions; the length of the right-hand side is an argument. The vectorised branch
    of line 29 runs the same solver on each array of the diagonalisation; when it raises, line 31
    solves block by block. *)
From Coq Require Import List Arith Bool.
From Verif Require Import Model_Base Model_Ring Model_Block.
Import ListNotations.
Open Scope nat_scope.

Section LinSolve.
Context {A : coeffs}.
Notation vec := (nat -> K A).
Notation entries := (nat -> nat -> K A).
Variable lapack : nat -> entries -> vec -> option vec.

(** numpy.linalg.solve: refuses arrays that are not square. LinAlgError is OtherException. *)
Definition np_solve (h w : nat) (f : entries) (b : vec) : result vec :=
  if h =? w then match lapack h f b with Some x => Ok x | None => Err OtherException end
  else Err OtherException.

(** A.full_matrix() followed by the ndarray branch: lines 45-46, 48-50 and 52-54. *)
Definition solve_full (m : mat A) (b : vec) : result vec :=
  match full_matrix m with
  | Ok _ => np_solve (height m) (width m) (full_entries m) b
  | Err e => Err e
  end.

(** x_plus and x_minus put back together: lines 41 and 105.
    [n] is the length of x_plus; the division by 2 is the multiplication by 1/2. *)
Definition recombine (n : nat) (xp xm : vec) : vec :=
  fun i => kmul (ninv 2) (if i <? n then kadd (xp i) (xm i) else ksub (xp (i - n)) (xm (i - n))).

(** solve_directly: lines 22-57, on a right-hand side of length nb. *)
Fixpoint solve_directly (fuel : nat) (m : mat A) (nb : nat) (b : vec) {struct fuel} : result vec :=
  match fuel with
  | O => Err RuntimeError
  | S fuel =>
    if negb (height m =? nb) then Err AssertionError
    else
      let circulant c nc hs ws bl :=
        let n := fst (nb_blocks c 1 nc) in
        let h := hs 0 in let w := ws 0 in
        let D := block_diagonalize fuel n nc (bl 0) (fun i => all_blocks c 1 nc bl i 0) in
        bind (collect n (fun k => solve_directly fuel (D k) h (fun i => fft n (fun p => b (p * h + i)) k)))
             (fun rs => Ok (fun j => ifft n (fun k => nth k rs zeros (j mod w)) (j / w)))
      in
      match m with
      | Bad e => Err e
      | Dense h w f => np_solve h w f b
      | Low _ _ _ _ _ => Err ValueError
      | Blk Circulant nr nc hs ws bl => circulant Circulant nc hs ws bl
      | Blk EvenCirculant nr nc hs ws bl => circulant EvenCirculant nc hs ws bl
      | Blk OddCirculant nr nc hs ws bl => circulant OddCirculant nc hs ws bl
      | Blk SymToeplitz nr nc hs ws bl =>
          if nc =? 2 then
            let half := nb / 2 in
            let b1 := b in let b2 := slice b half in
            bind (solve_directly fuel (binary_op kadd (bl 0 0) (bl 0 1)) half (fun i => kadd (b1 i) (b2 i))) (fun xp =>
            bind (solve_directly fuel (binary_op ksub (bl 0 0) (bl 0 1)) half (fun i => ksub (b1 i) (b2 i))) (fun xm =>
            Ok (recombine (ws 0) xp xm)))
          else solve_full m b
      | Blk _ nr nc hs ws bl => solve_full m b
      end
  end.

(** ** LUSolverWithCache: lines 61-112 *)

(** scipy.linalg.lu_factor and lu_solve: lu_factor raises when the array is not square or has
    entries that are not finite (None); a singular matrix only gives a warning. *)
Variable lu : Type.
Variable lu_factor : nat -> nat -> entries -> option lu.
Variable lu_solve : lu -> vec -> vec.

(** A decomposition: a tuple, or a list of two decompositions; the order of the system is kept to
    cut the right-hand side (len(b)//2). *)
Inductive decomp := Tuple (l : lu) | Pair (d1 d2 : decomp).

(** lu_decomp: lines 79-90. *)
Fixpoint lu_decomp (fuel : nat) (m : mat A) : result decomp :=
  match fuel with
  | O => Err RuntimeError
  | S fuel =>
    match m with
    | Dense h w f => match lu_factor h w f with Some l => Ok (Tuple l) | None => Err ValueError end
    | Blk c nr nc hs ws b =>
        if is_subclass c SymToeplitz && pair_eqb (nb_blocks c nr nc) (2, 2) then
          if nc =? 2 then
            bind (lu_decomp fuel (binary_op kadd (b 0 0) (b 0 1))) (fun d1 =>
            bind (lu_decomp fuel (binary_op ksub (b 0 0) (b 0 1))) (fun d2 => Ok (Pair d1 d2)))
          else Err ValueError (* line 84: wrong number of values to unpack *)
        else Err NotImplementedError
    | Bad e => Err e
    | _ => Err NotImplementedError
    end
  end.

(** solve_with_decomp: lines 101-112, on a right-hand side of length nb; None is the initial
    cached_decomp. *)
Fixpoint solve_pair (d : decomp) (nb : nat) (b : vec) : vec :=
  match d with
  | Tuple l => lu_solve l b
  | Pair d1 d2 =>
      let half := nb / 2 in
      recombine half (solve_pair d1 half (fun i => kadd (b i) (slice b half i)))
                     (solve_pair d2 half (fun i => ksub (b i) (slice b half i)))
  end.
Definition solve_with_decomp (d : option decomp) (nb : nat) (b : vec) : result vec :=
  match d with Some d => Ok (solve_pair d nb b) | None => Err NotImplementedError end.

(** The solver: a reference to the last matrix and a decomposition (lines 72-74). *)
Record lu_state := { cached_matrix : option nat; cached_decomp : option decomp }.
Definition lu_init : lu_state := {| cached_matrix := None; cached_decomp := None |}.
(** The matrices of the program, by identity; arrays are mutable. *)
Definition heap := nat -> mat A.

(** cached_lu_decomp: lines 92-99. The reference is stored before the decomposition is computed:
    when it raises, cached_decomp is unchanged. *)
Definition cached_lu_decomp (fuel : nat) (h : heap) (s : lu_state) (r : nat) : lu_state * result (option decomp) :=
  if match cached_matrix s with Some r' => r =? r' | None => false end
  then (s, Ok (cached_decomp s))
  else match lu_decomp fuel (h r) with
       | Ok d => ({| cached_matrix := Some r; cached_decomp := Some d |}, Ok (Some d))
       | Err e => ({| cached_matrix := Some r; cached_decomp := cached_decomp s |}, Err e)
       end.
(** solve: lines 76-77. *)
Definition lu_solve_cached (fuel : nat) (h : heap) (s : lu_state) (r nb : nat) (b : vec) : lu_state * result vec :=
  let (s', d) := cached_lu_decomp fuel h s r in
  (s', bind d (fun d => solve_with_decomp d nb b)).

(** A history: solves, and modifications of matrices in place. *)
Inductive event :=
| Solve (r nb : nat) (b : vec)
| Mutate (r : nat) (m : mat A).
Fixpoint history (fuel : nat) (h : heap) (s : lu_state) (es : list event) : list (result vec) :=
  match es with
  | [] => []
  | Solve r nb b :: es => let (s', x) := lu_solve_cached fuel h s r nb b in x :: history fuel h s' es
  | Mutate r m :: es => history fuel (fun r' => if r' =? r then m else h r') s es
  end.
End LinSolve.
Arguments Tuple {_}. Arguments Pair {_}.
