(** Model of /repo/capytaine/matrices/low_rank.py.

    Arrays are shapes and functions, as in Model_Block.v; the only dtypes are real and complex. The
    decompositions numpy.linalg.svd and numpy.linalg.qr are oracles. Logging is not modelled. *)
From Coq Require Import Reals.
From Coquelicot Require Import Complex.
From Coq Require Import List Arith Bool.
From Verif Require Import Model_Base Model_Ring Spec_Ring Model_Block.
Import ListNotations.
Open Scope nat_scope.

Section LowRank.
Context {A : coeffs}.
Notation vec := (nat -> K A).
Notation entries := (nat -> nat -> K A).

(** A 2-dimensional array: shape, dtype (complex or not), entries. *)
Record array2 := Array2 { a_h : nat; a_w : nat; a_complex : bool; a_at : entries }.
(** LowRankMatrix: lines 49-56. *)
Record low_rank := LowRank { lr_left : array2; lr_right : array2 }.
Definition lr_shape (m : low_rank) : nat * nat := (a_h (lr_left m), a_w (lr_right m)).
Definition lr_rank (m : low_rank) : nat := a_w (lr_left m).
(** LowRankMatrix.__init__: the two assertions of lines 53 and 55. *)
Definition new_low_rank (left right : array2) : result low_rank :=
  if a_w left =? a_h right then
    if Bool.eqb (a_complex left) (a_complex right) then Ok (LowRank left right) else Err AssertionError
  else Err AssertionError.

(** numpy's @ on 2-dimensional arrays: ValueError when the shapes do not match. *)
Definition np_matmul (x y : array2) : result array2 :=
  if a_w x =? a_h y then
    Ok (Array2 (a_h x) (a_w y) (a_complex x || a_complex y)
          (fun i j => ksum (a_w x) (fun p => kmul (a_at x i p) (a_at y p j))))
  else Err ValueError.
Definition transpose (x : array2) : array2 :=
  Array2 (a_w x) (a_h x) (a_complex x) (fun i j => a_at x j i).
(** x[:, :n] and x[:n, :] *)
Definition first_cols (n : nat) (x : array2) : array2 := Array2 (a_h x) (Nat.min n (a_w x)) (a_complex x) (a_at x).
Definition first_rows (n : nat) (x : array2) : array2 := Array2 (Nat.min n (a_h x)) (a_w x) (a_complex x) (a_at x).
(** numpy.diag(s[:n]) where s has [len] entries (real numbers). *)
Definition diag (n len : nat) (s : vec) : array2 :=
  Array2 (Nat.min n len) (Nat.min n len) false (fun i j => if i =? j then s i else k0).

(** full_matrix: lines 315-319 (without dtype). *)
Definition lr_full (m : low_rank) : result array2 := np_matmul (lr_left m) (lr_right m).

(** __neg__: lines 363-364. *)
Definition lr_neg (m : low_rank) : result low_rank :=
  new_low_rank (Array2 (a_h (lr_left m)) (a_w (lr_left m)) (a_complex (lr_left m))
                  (fun i j => kopp (a_at (lr_left m) i j))) (lr_right m).
(** __truediv__: lines 369-374, by a number of inverse [inv]; [cplx]: the number is a complex. *)
Definition lr_truediv (m : low_rank) (cplx : bool) (inv : A) : result low_rank :=
  new_low_rank (lr_left m)
    (Array2 (a_h (lr_right m)) (a_w (lr_right m)) (a_complex (lr_right m) || cplx)
       (fun i j => kmul (a_at (lr_right m) i j) inv)).
(** Multiplication by a number: not defined, Python raises TypeError. *)
Definition lr_mul (m : low_rank) (x : A) : result low_rank := Err TypeError.

(** __matmul__ and __rmatmul__: lines 376-392. The operand is an array of one dimension (of length n)
    or of two; the latter is refused (NotImplemented, then TypeError, unless the other class
    accepts it). *)
Definition lr_matvec (m : low_rank) (n : nat) (v : vec) : result vec :=
  if n =? a_w (lr_right m) then
    Ok (fun i => ksum (a_w (lr_left m)) (fun p => kmul (a_at (lr_left m) i p)
                   (ksum (a_w (lr_right m)) (fun j => kmul (a_at (lr_right m) p j) (v j)))))
  else Err ValueError.
Definition lr_rmatvec (m : low_rank) (n : nat) (v : vec) : result vec :=
  if n =? a_h (lr_left m) then
    Ok (fun j => ksum (a_h (lr_right m)) (fun p => kmul
                   (ksum (a_h (lr_left m)) (fun i => kmul (v i) (a_at (lr_left m) i p)))
                   (a_at (lr_right m) p j)))
  else Err ValueError.
Definition lr_matmat (m : low_rank) (x : array2) : result array2 := Err TypeError.

(** numpy.linalg.svd(x): u (h x h), s (min(h, w) entries), v (w x w). *)
Variable svd : array2 -> array2 * vec * array2.
(** numpy.linalg.qr(x): q (h x min(h, w)), r (min(h, w) x w). *)
Variable qr : array2 -> array2 * array2.

(** from_full_matrix_with_SVD: lines 58-76. *)
Definition from_svd (x : array2) (max_rank : nat) : result low_rank :=
  let '(u, s, v) := svd x in
  bind (np_matmul (first_cols max_rank u) (diag max_rank (Nat.min (a_h x) (a_w x)) s)) (fun left =>
  new_low_rank left (first_rows max_rank v)).

(** recompress: lines 342-353, with an explicit new_rank (the tol argument is not modelled; the
    default is self.rank). *)
Definition recompress (m : low_rank) (new_rank : nat) : result low_rank :=
  let '(QA, RA) := qr (lr_left m) in
  let '(QB, RB) := qr (transpose (lr_right m)) in
  bind (np_matmul RA (transpose RB)) (fun x =>
  let '(U, s, Vh) := svd x in
  bind (np_matmul (first_cols new_rank U) (diag new_rank (Nat.min (a_h x) (a_w x)) s)) (fun us =>
  bind (np_matmul QA us) (fun left =>
  bind (np_matmul QB (first_cols new_rank Vh)) (fun B =>
  new_low_rank left (transpose B))))).

(** numpy.concatenate of two arrays along the columns (axis 1) or the lines (axis 0). *)
Definition concat_cols (x y : array2) : result array2 :=
  if a_h x =? a_h y then
    Ok (Array2 (a_h x) (a_w x + a_w y) (a_complex x || a_complex y)
          (fun i j => if j <? a_w x then a_at x i j else a_at y i (j - a_w x)))
  else Err ValueError.
Definition concat_rows (x y : array2) : result array2 :=
  if a_w x =? a_w y then
    Ok (Array2 (a_h x + a_h y) (a_w x) (a_complex x || a_complex y)
          (fun i j => if i <? a_h x then a_at x i j else a_at y (i - a_h x) j))
  else Err ValueError.
(** The matrix built by lines 357-359, before it is recompressed. *)
Definition lr_join (m n : low_rank) : result low_rank :=
  bind (concat_cols (lr_left m) (lr_left n)) (fun l =>
  bind (concat_rows (lr_right m) (lr_right n)) (fun r => new_low_rank l r)).
(** __add__ and __sub__: lines 355-361 and 366-367. *)
Definition lr_add (m n : low_rank) : result low_rank :=
  bind (lr_join m n) (fun x => recompress x (Nat.min (lr_rank m) (lr_rank n))).
Definition lr_sub (m n : low_rank) : result low_rank := bind (lr_neg n) (lr_add m).
End LowRank.
Arguments array2 : clear implicits.
Arguments low_rank : clear implicits.

(** ** Adaptive Cross Approximation: from_rows_and_cols_functions_with_multi_ACA, lines 190-309 *)

(** numpy.argmax: position of the first largest value; None: ValueError on an empty list. *)
Fixpoint argmax_from (best : nat) (value : R) (pos : nat) (l : list R) : nat :=
  match l with
  | [] => best
  | x :: l' => if Rlt_dec value x then argmax_from pos x (S pos) l' else argmax_from best value (S pos) l'
  end.
Definition argmax (l : list R) : option nat :=
  match l with [] => None | x :: l' => Some (argmax_from 0 x 1 l') end.
(** list.pop(n): None is IndexError. *)
Fixpoint pop (n : nat) (l : list nat) : option (nat * list nat) :=
  match l, n with
  | [], _ => None
  | x :: l', 0 => Some (x, l')
  | x :: l', S n => match pop n l' with Some (y, r) => Some (y, x :: r) | None => None end
  end.

Section ACA.
Local Notation "'CK'" := (K complexes).
(** get_row(i)[id][j] and get_col(j)[id][i]. *)
Variable get_row get_col : nat -> nat -> nat -> C.
Variables (nb_rows nb_cols id_main : nat) (tol : R).

(** The work arrays (line 240-247). [w_crosses] holds the pairs (i, j) chosen so far (not kept by
    the code). *)
Record work := Work {
  w_left : nat -> nat -> nat -> C;    (* left[id, i, l] *)
  w_right : nat -> nat -> nat -> C;   (* right[id, l, j] *)
  w_norm2 : R;
  w_rows : list nat; w_cols : list nat;
  w_crosses : list (nat * nat) }.
Definition work0 : work :=
  Work (fun _ _ _ => RtoC 0) (fun _ _ _ => RtoC 0) 0 (seq 0 nb_rows) (seq 0 nb_cols) [].

(** Line 279-280. *)
Definition clamp (pivot : C) : C := if Rlt_dec (Cmod pivot) (/ 10 ^ 12)%R then RtoC (/ 10 ^ 12)%R else pivot.

(** One iteration of the loop, lines 249-293: the new work arrays and squared_norm_of_increment. The
    loop over id_mat updates all the matrices. *)
Definition aca_step (l : nat) (s : work) : result (work * R) :=
  match (if l =? 0 then Some 0
         else argmax (map (fun i => Cmod (w_left s id_main i (l - 1))) (w_rows s))) with
  | None => Err ValueError
  | Some relative_i =>
  match pop relative_i (w_rows s) with
  | None => Err IndexError
  | Some (i, rows) =>
  let right := fun id p j =>
    if p =? l then Cminus (get_row i id j) (@ksum complexes l (fun p => Cmult (w_left s id i p) (w_right s id p j)))
    else w_right s id p j in
  match argmax (map (fun j => Cmod (right id_main l j)) (w_cols s)) with
  | None => Err ValueError
  | Some relative_j =>
  match pop relative_j (w_cols s) with
  | None => Err IndexError
  | Some (j, cols) =>
  let new_col := fun id i' =>
    Cminus (get_col j id i') (@ksum complexes l (fun p => Cmult (w_left s id i' p) (right id p j))) in
  let left := fun id i' p =>
    if p =? l then Cdiv (new_col id i') (clamp (new_col id i)) else w_left s id i' p in
  let increment2 := Re (Cmult
    (@ksum complexes nb_rows (fun i => Cmult (Cconj (left id_main i l)) (left id_main i l)))
    (@ksum complexes nb_cols (fun j => Cmult (Cconj (right id_main l j)) (right id_main l j)))) in
  let crossed := @ksum complexes l (fun p => Cmult
    (@ksum complexes nb_rows (fun i => Cmult (Cconj (left id_main i l)) (left id_main i p)))
    (@ksum complexes nb_cols (fun j => Cmult (Cconj (right id_main l j)) (right id_main p j)))) in
  Ok (Work left right (w_norm2 s + (increment2 + 2 * Re crossed)) rows cols (w_crosses s ++ [(i, j)]), increment2)
  end end end end.

(** How the loop ends: the test of line 295 is met at iteration [l], or never. *)
Inductive aca_end := Converged (l : nat) (s : work) | Exhausted (s : work) | Failed (e : pyexn).
(** The loop of lines 249-301: [n] iterations left, the next one being number [l]. *)
Fixpoint aca_loop (n l : nat) (s : work) : aca_end :=
  match n with
  | O => Exhausted s
  | S n =>
    match aca_step l s with
    | Err e => Failed e
    | Ok (s', increment2) =>
      if Rle_dec increment2 (tol ^ 2 * w_norm2 s')%R then Converged l s' else aca_loop n (S l) s'
    end
  end.

(** What the function returns: low-rank matrices of a common rank, NoConvergenceOfACA, or another
    exception. *)
Inductive aca_out :=
| Approx (rank : nat) (ms : nat -> low_rank complexes) (s : work)
| NoConvergence
| AcaError (e : pyexn).

(** left[id, :, :l] and right[id, :l, :] with the given dtype (arrays of max_rank columns). *)
Definition aca_matrix (cplx : bool) (l : nat) (s : work) (id : nat) : low_rank complexes :=
  LowRank (@Array2 complexes nb_rows l cplx (w_left s id)) (@Array2 complexes l nb_cols cplx (w_right s id)).

(** Lines 232-309. Line 306 formats squared_norm_of_increment, which does not exist when the loop
    did not run: UnboundLocalError (OtherException). *)
Definition aca (cplx : bool) (max_rank : option nat) : aca_out :=
  let max_rank := match max_rank with Some r => r | None => Nat.min nb_rows nb_cols / 2 end in
  match aca_loop max_rank 0 work0 with
  | Failed e => AcaError e
  | Converged l s => let l := if l =? 0 then 1 else l in Approx l (aca_matrix cplx l s) s
  | Exhausted s =>
      if Rlt_dec 0 tol then if max_rank =? 0 then AcaError OtherException else NoConvergence
      else Approx max_rank (aca_matrix cplx max_rank s) s
  end.
End ACA.
