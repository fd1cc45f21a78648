(** Vocabulary of the properties of the tabulation. *)
From Coq Require Import Reals.
From Coquelicot Require Import Complex.
From Coq Require Import List.
From Verif Require Import Model_Base Model_Assembly Model_Wave Model_Tabulation.
Import ListNotations.
Open Scope R_scope.

(** The coordinates of the entry (i, j) of the table, and its values. *)
Definition node (t : table) (i j : nat) (r z : R) : Prop := nth_error (t_r t) i = Some r /\ nth_error (t_z t) j = Some z.
Definition stored (t : table) (i j : nat) (v : integrals) : Prop := exists row, nth_error (t_values t) i = Some row /\ nth_error row j = Some v.
(** The point is in the range of the table: before the last coordinates. *)
Definition in_table (t : table) (r z : R) : Prop :=
  exists rlast zlast, node t (length (t_r t) - 1) (length (t_z t) - 1) rlast zlast /\ 0 <= r < rlast /\ zlast < z < 0.
(** The parameters of a table that can be interpolated. *)
Definition proper_grid (nr : nat) (rmax : R) (nz : nat) (zmin : R) (m : grid_shape) : Prop :=
  (3 <= nr)%nat /\ (3 <= nz)%nat /\ (m = ScaledGrid -> 1 < rmax /\ / 10000000000 < Rabs zmin).
(** A polynomial of degree at most two in each variable. *)
Definition biquadratic (p : R -> R -> R) : Prop :=
  exists a0 a1 a2 b0 b1 b2 c0 c1 c2, forall r z, p r z = (a0 + a1 * r + a2 * (r * r)) + (b0 + b1 * r + b2 * (r * r)) * z + (c0 + c1 * r + c2 * (r * r)) * (z * z).
(** The five integrals. *)
Definition component (F : integrals -> R) : Prop := In F [I1; I2; I3; I4; I5].
(** Lagrange's polynomials for three coordinates. *)
Definition lagrange_polynomial (other1 other2 own x : R) : R := (x - other1) * (x - other2) / ((own - other1) * (own - other2)).
(** Simpson's rule on m panels of width 2 h from a: each panel uses its ends and its middle. *)
Definition composite_simpson (m : nat) (a h : R) (f : R -> R) : R :=
  Rsum (map (fun p => h / 3 * (f (a + 2 * INR p * h) + 4 * f (a + (2 * INR p + 1) * h) + f (a + (2 * INR p + 2) * h))) (seq 0 m)).
(** The integrands, as functions of the angle. *)
Definition zeta_at (r z theta : R) : C := (z, r * cos theta).
Definition exponential_at (r z theta : R) : C := if Rle_dec z (-30) then RtoC 0 else (exp z * cos (r * cos theta), exp z * sin (r * cos theta)).
Definition j_at (exp_e1 : C -> C) (r z theta : R) : C :=
  Cplus (exp_e1 (zeta_at r z theta)) (Cmult (Cmult Ci (RtoC fortran_pi)) (exponential_at r z theta)).
