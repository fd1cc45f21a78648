(** Specification of low-rank matrices and of cross approximations. *)
From Coq Require Import Reals.
From Coquelicot Require Import Complex.
From Coq Require Import List Arith Bool.
From Verif Require Import Model_Base Model_Ring Spec_Ring Model_LowRank.
Import ListNotations.
Open Scope nat_scope.

Section Spec.
Context {A : coeffs}.
(** A low-rank matrix whose factors have matching shapes: all those that can be built. *)
Definition lr_valid (m : low_rank A) : Prop :=
  a_w (lr_left m) = a_h (lr_right m) /\ a_complex (lr_left m) = a_complex (lr_right m).
(** [m] represents the h x w matrix F. *)
Definition represents (m : low_rank A) (h w : nat) (F : nat -> nat -> A) : Prop :=
  exists x, lr_full m = Ok x /\ a_h x = h /\ a_w x = w /\
    forall i j, i < h -> j < w -> a_at x i j = F i j.

(** F has rank at most r: it is a sum of r products of a column by a line. *)
Definition rank_at_most (r h w : nat) (F : nat -> nat -> A) : Prop :=
  exists u v : nat -> nat -> A, forall i j, i < h -> j < w -> F i j = ksum r (fun p => kmul (u p i) (v p j)).

(** A decomposition x = q r with the shapes of numpy. *)
Definition qr_shapes (qr : array2 A -> array2 A * array2 A) : Prop :=
  forall x q r, qr x = (q, r) ->
    let k := Nat.min (a_h x) (a_w x) in
    a_h q = a_h x /\ a_w q = k /\ a_h r = k /\ a_w r = a_w x /\
    a_complex q = a_complex x /\ a_complex r = a_complex x.
Definition svd_shapes (svd : array2 A -> array2 A * (nat -> A) * array2 A) : Prop :=
  forall x u s v, svd x = (u, s, v) ->
    a_h u = a_h x /\ a_w u = a_h x /\ a_h v = a_w x /\ a_w v = a_w x /\
    a_complex u = a_complex x /\ a_complex v = a_complex x.
(** The decomposition of x multiplies back to x. *)
Definition svd_product (x u : array2 A) (s : nat -> A) (v : array2 A) : Prop :=
  forall i j, i < a_h x -> j < a_w x ->
    a_at x i j = ksum (Nat.min (a_h x) (a_w x)) (fun p => kmul (kmul (a_at u i p) (s p)) (a_at v p j)).
Definition qr_product (x q r : array2 A) : Prop :=
  forall i j, i < a_h x -> j < a_w x ->
    a_at x i j = ksum (Nat.min (a_h x) (a_w x)) (fun p => kmul (a_at q i p) (a_at r p j)).
(** The n columns (or lines) of an array are orthonormal. *)
Definition orthonormal_cols (n : nat) (x : array2 A) : Prop :=
  forall p q, p < n -> q < n ->
    ksum (a_h x) (fun i => kmul (kconj (a_at x i p)) (a_at x i q)) = if p =? q then k1 else k0.
Definition orthonormal_rows (n : nat) (x : array2 A) : Prop :=
  forall p q, p < n -> q < n ->
    ksum (a_w x) (fun j => kmul (a_at x p j) (kconj (a_at x q j))) = if p =? q then k1 else k0.
End Spec.

(** Square of the Frobenius norm of a complex matrix. *)
Fixpoint rsum (n : nat) (f : nat -> R) : R := match n with O => 0%R | S n => (rsum n f + f n)%R end.
Definition frobenius2 (h w : nat) (F : nat -> nat -> C) : R :=
  rsum h (fun i => rsum w (fun j => (Cmod (F i j)) ^ 2)%R).

(** The functions given to the ACA describe the matrices M id. *)
Definition describes (get_row get_col : nat -> nat -> nat -> C) (nb_rows nb_cols : nat)
  (M : nat -> nat -> nat -> C) : Prop :=
  forall id i j, i < nb_rows -> j < nb_cols -> get_row i id j = M id i j /\ get_col j id i = M id i j.

(** Nonnegative real numbers in decreasing order. *)
Definition singular_values (n : nat) (s : nat -> C) : Prop :=
  (forall p, p < n -> Im (s p) = 0%R /\ (0 <= Re (s p))%R) /\
  (forall p, S p < n -> (Re (s (S p)) <= Re (s p))%R).
