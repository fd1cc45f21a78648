(** Laws of the coefficients, used as hypotheses, and their instance: the complex numbers. *)
From Coq Require Import Reals.
From Coquelicot Require Import Complex.
From Coq Require Import List Arith Lia Lra Ring_theory.
From Verif Require Import Model_Ring.
Import ListNotations.

Definition ring_laws (A : coeffs) : Prop :=
  ring_theory (@k0 A) k1 kadd kmul ksub kopp eq.

(** [root n] is a principal n-th root of unity, with inverse [rooti n], and n is invertible. *)
Record fourier_laws (A : coeffs) : Prop := {
  root_inv : forall n, 0 < n -> kmul (@root A n) (rooti n) = k1;
  root_pow : forall n, 0 < n -> kpow (@root A n) n = k1;
  root_sum : forall n d, 0 < d < n -> ksum n (fun i => kpow (@root A n) (i * d)) = k0;
  ninv_law : forall n, 0 < n -> kmul (@ninv A n) (ksum n (fun _ => k1)) = k1
}.

Record conj_laws (A : coeffs) : Prop := {
  conj_add : forall x y : A, kconj (kadd x y) = kadd (kconj x) (kconj y);
  conj_mul : forall x y : A, kconj (kmul x y) = kmul (kconj x) (kconj y);
  conj_conj : forall x : A, kconj (kconj x) = x
}.

(** The complex numbers, with the constants of numpy.fft. *)
Definition complexes : coeffs :=
  Coeffs C (RtoC 0) (RtoC 1) Cplus Cmult Cminus Copp Cconj
    (fun n => (cos (2 * PI / INR n), - sin (2 * PI / INR n))%R)
    (fun n => (cos (2 * PI / INR n), sin (2 * PI / INR n))%R)
    (fun n => RtoC (/ INR n))
    (RtoC 0).
