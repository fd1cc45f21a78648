(** Shared vocabulary of the models over the reals. *)
From Coq Require Import Reals List String Bool.
From Coquelicot Require Import Complex.
Import ListNotations.
Open Scope R_scope.

(** Python exceptions, as values. *)
Inductive pyexn :=
| ValueError | NotImplementedError | TypeError | AttributeError | ZeroDivisionError
| KeyError | IndexError | AssertionError | RuntimeError | OtherException.

Inductive result (A : Type) :=
| Ok (a : A)
| Err (e : pyexn).
Arguments Ok {A}. Arguments Err {A}.

Definition bind {A B} (r : result A) (f : A -> result B) : result B :=
  match r with Ok a => f a | Err e => Err e end.

(** Floating point numbers without rounding: reals, the two infinities and nan. *)
Inductive ext := Fin (r : R) | PInf | NInf | NaN.

Definition Rleb (a b : R) : bool := if Rle_dec a b then true else false.
Definition Rltb (a b : R) : bool := if Rlt_dec a b then true else false.
Definition Reqb (a b : R) : bool := if Req_EM_T a b then true else false.

(** Comparisons of IEEE numbers: everything is false with a nan. *)
Definition ext_eqb (a b : ext) : bool :=
  match a, b with
  | Fin x, Fin y => Reqb x y
  | PInf, PInf | NInf, NInf => true
  | _, _ => false
  end.
Definition ext_ltb (a b : ext) : bool :=
  match a, b with
  | Fin x, Fin y => Rltb x y
  | Fin _, PInf | NInf, Fin _ | NInf, PInf => true
  | _, _ => false
  end.
Definition ext_leb (a b : ext) : bool :=
  match a, b with
  | Fin x, Fin y => Rleb x y
  | Fin _, PInf | NInf, Fin _ | NInf, PInf | PInf, PInf | NInf, NInf => true
  | _, _ => false
  end.

Definition ext_opp (a : ext) : ext :=
  match a with Fin x => Fin (- x) | PInf => NInf | NInf => PInf | NaN => NaN end.
Definition ext_add (a b : ext) : ext :=
  match a, b with
  | Fin x, Fin y => Fin (x + y)
  | PInf, NInf | NInf, PInf => NaN
  | NaN, _ | _, NaN => NaN
  | PInf, _ | _, PInf => PInf
  | NInf, _ | _, NInf => NInf
  end.
Definition ext_sub (a b : ext) : ext := ext_add a (ext_opp b).
Definition ext_mul_inf (a : R) (i : ext) : ext :=
  if Rlt_dec 0 a then i else if Rlt_dec a 0 then ext_opp i else NaN.
Definition ext_mul (a b : ext) : ext :=
  match a, b with
  | Fin x, Fin y => Fin (x * y)
  | NaN, _ | _, NaN => NaN
  | Fin x, i => ext_mul_inf x i
  | i, Fin x => ext_mul_inf x i
  | PInf, PInf | NInf, NInf => PInf
  | _, _ => NInf
  end.

(** Vectors of three coordinates. *)
Record vec := V { vx : R; vy : R; vz : R }.
Definition v0 : vec := V 0 0 0.
Definition vadd (a b : vec) : vec := V (vx a + vx b) (vy a + vy b) (vz a + vz b).
Definition vsub (a b : vec) : vec := V (vx a - vx b) (vy a - vy b) (vz a - vz b).
Definition vscale (k : R) (a : vec) : vec := V (k * vx a) (k * vy a) (k * vz a).
Definition vopp (a : vec) : vec := vscale (-1) a.
Definition dot (a b : vec) : R := vx a * vx b + vy a * vy b + vz a * vz b.
Definition cross (a b : vec) : vec :=
  V (vy a * vz b - vz a * vy b) (vz a * vx b - vx a * vz b) (vx a * vy b - vy a * vx b).
Definition norm (a : vec) : R := sqrt (dot a a).

(** Sums over lists. *)
Definition Rsum (l : list R) : R := fold_right Rplus 0 l.
Definition vsum (l : list vec) : vec := fold_right vadd v0 l.
Definition Csum (l : list C) : C := fold_right Cplus (RtoC 0) l.
