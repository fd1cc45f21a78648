(** Coefficients of the matrices, and the few numpy primitives on them.

    The matrices of /repo/capytaine/matrices hold numpy floats or complex numbers.
    They are modelled with exact coefficients: a structure with the operations numpy uses.
    [root n] is exp(-2 i pi/n), [rooti n] is exp(2 i pi/n), [ninv n] is 1/n, the constants of
    numpy.fft; [kconj] is numpy.conjugate.
    [junk] is the content of the uninitialised memory returned by numpy.empty.
    No law is assumed here: the laws are hypotheses of the theorems (see Spec_Ring.v). *)
From Coq Require Import List Arith Bool.
Import ListNotations.

Record coeffs := Coeffs {
  K :> Type;
  k0 : K; k1 : K;
  kadd : K -> K -> K; kmul : K -> K -> K; ksub : K -> K -> K; kopp : K -> K;
  kconj : K -> K;
  root : nat -> K; rooti : nat -> K; ninv : nat -> K;
  junk : K
}.
Arguments k0 {_}. Arguments k1 {_}. Arguments kadd {_}. Arguments kmul {_}.
Arguments ksub {_}. Arguments kopp {_}. Arguments kconj {_}.
Arguments root {_}. Arguments rooti {_}. Arguments ninv {_}. Arguments junk {_}.

(** Sum of n terms, x_0 + ... + x_(n-1). *)
Fixpoint ksum {A : coeffs} (n : nat) (f : nat -> A) : A :=
  match n with O => k0 | S n => kadd (ksum n f) (f n) end.

Fixpoint kpow {A : coeffs} (x : A) (n : nat) : A :=
  match n with O => k1 | S n => kmul x (kpow x n) end.

Fixpoint nsum (n : nat) (f : nat -> nat) : nat :=
  match n with O => O | S n => nsum n f + f n end.

(** numpy.fft.fft and numpy.fft.ifft of n values (definition of numpy's documentation). *)
Definition fft {A : coeffs} (n : nat) (x : nat -> A) (k : nat) : A :=
  ksum n (fun i => kmul (x i) (kpow (root n) (i * k))).
Definition ifft {A : coeffs} (n : nat) (x : nat -> A) (k : nat) : A :=
  kmul (ninv n) (ksum n (fun i => kmul (x i) (kpow (rooti n) (i * k)))).
