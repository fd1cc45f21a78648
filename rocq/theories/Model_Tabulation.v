(** Model of the tabulation of the elementary integrals of the wave part of the Green function
    (green_functions/libDelhommeau/src/Delhommeau_integrals.f90, Green_wave.f90:286-306, delhommeau.py:235-247).

    Simplifications:
    - floats are real numbers; [log10], [10**x], [cos], [sqrt], [exp] are the functions of the standard library;
    - integers are unbounded;
    - the function [exp_e1] (lines 93-141: rational approximations of the exponential integral) is an argument;
    - [None] is the result of a read outside of an array, of a division by zero and of the conversion to an integer of a number that
      is not finite (the logarithm of zero). *)
From Coq Require Import Reals ZArith.
From Coquelicot Require Import Complex.
From Coq Require Import List Bool.
From Flocq Require Import Core.Raux.
From Verif Require Import Model_Base Model_Assembly Model_Wave.
Import ListNotations.
Open Scope R_scope.

Definition log10 (x : R) : R := ln x / ln 10.
Definition pow10 (x : R) : R := exp (x * ln 10).
(** [nint]: to the nearest integer, half away from zero; [int] is [Ztrunc]. *)
Definition nint (x : R) : Z := if Rleb 0 x then Zfloor (x + 1 / 2) else Zceil (x - 1 / 2).
(** The division [x/y]. *)
Definition divided (x y : R) : option R := if Reqb y 0 then None else Some (x / y).
Definition obind {A B} (x : option A) (f : A -> option B) : option B := match x with Some a => f a | None => None end.
(** The read of [l(i)]; the first element is [l(1)]. *)
Definition elem {A} (l : list A) (i : Z) : option A := if (i <? 1)%Z then None else nth_error l (Z.to_nat (i - 1)).
Definition size {A} (l : list A) : Z := Z.of_nat (length l).
(** The values 1, ..., n of the index of a loop. *)
Definition indices (n : nat) : list Z := map (fun i => (Z.of_nat i + 1)%Z) (seq 0 n).

(** constants.f90:26-28. *)
Inductive grid_shape := LegacyGrid | ScaledGrid.

(** [default_r_spacing], lines 192-225: lines 204-211 and 213-223. The value given to the first element at line 205 is overwritten by the
    loop in the second case. *)
Definition index_of_1 (nr : nat) : Z := nint (INR nr * 1 / 676 * 81).
Definition r_spacing (nr : nat) (rmax : R) (m : grid_shape) : list R :=
  map (fun i =>
    match m with
    | LegacyGrid => if (i =? 1)%Z then 0 else Rmin (pow10 ((IZR i - 1) / 5 - 6)) (Rabs (IZR (i - 32)) / 3 + 4 / 3)
    | ScaledGrid => if (i <? index_of_1 nr)%Z then pow10 (-10 * (1 - IZR (i - 1) / IZR (index_of_1 nr - 1)))
                    else (rmax - 1) / IZR (Z.of_nat nr - index_of_1 nr) * IZR (i - index_of_1 nr) + 1
    end) (indices nr).
(** [default_z_spacing], lines 229-253. *)
Definition z_spacing (nz : nat) (zmin : R) (m : grid_shape) : list R :=
  map (fun j =>
    match m with
    | LegacyGrid => if (nz =? 46)%nat && (j =? 46)%Z then -16 else - Rmin (pow10 (IZR j / 5 - 6)) (pow10 (IZR j / 8 - 9 / 2))
    | ScaledGrid => let dz := (log10 (Rabs zmin) + 10) / INR nz in - Rmin (pow10 (dz * IZR j - 10)) (Rabs zmin)
    end) (indices nz).

(** [nearest_r_index], lines 289-322. *)
Definition nearest_r_index (r : R) (rs : list R) (m : grid_shape) : option Z :=
  match m with
  | LegacyGrid =>
    if Rltb r (/ 1000000) then Some 1%Z
    else if Rltb r 1 then Some (Ztrunc (5 * (log10 r + 6) + 1))
    else Some (Ztrunc (3 * r + 28))
  | ScaledGrid =>
    let i1 := nint (INR (length rs) * 81 / 676) in
    obind (elem rs (size rs)) (fun rmax =>
    if Rltb r (/ 10000000000) then Some 1%Z
    else if Rltb r 1 then Some (nint ((log10 r / 10 + 1) * IZR (i1 - 1) + 1))
    else obind (divided ((r - 1) * IZR (size rs - i1)) (rmax - 1)) (fun u => Some (nint (u + IZR i1))))
  end.
(** [nearest_z_index], lines 326-351. *)
Definition finite_log10 (x : R) : option R := if Reqb x 0 then None else Some (log10 x).
Definition nearest_z_index (z : R) (zs : list R) (m : grid_shape) : option Z :=
  let absz := Rabs z in
  match m with
  | LegacyGrid => obind (finite_log10 absz) (fun u => Some (if Rltb (1 / 100) absz then Ztrunc (8 * (u + 9 / 2)) else Ztrunc (5 * (u + 6))))
  | ScaledGrid =>
    obind (elem zs (size zs)) (fun last => obind (finite_log10 (Rabs last)) (fun v =>
    let dz := (v + 10) / IZR (size zs) in
    obind (finite_log10 absz) (fun u => obind (divided (u + 10) dz) (fun w => Some (nint w)))))
  end.

(** [pl2], lines 388-392. *)
Definition pl2 (u1 u2 u3 x : R) : option R := divided ((x - u1) * (x - u2)) ((u3 - u1) * (u3 - u2)).
(** The three values [l(i-1:i+1)]. *)
Definition around {A} (l : list A) (i : Z) : option (A * A * A) :=
  obind (elem l (i - 1)) (fun a => obind (elem l i) (fun b => obind (elem l (i + 1)) (fun c => Some (a, b, c)))).
Definition weights (us : R * R * R) (x : R) : option (R * R * R) :=
  let '(a, b, c) := us in obind (pl2 b c a x) (fun l1 => obind (pl2 c a b x) (fun l2 => obind (pl2 a b c x) (fun l3 => Some (l1, l2, l3)))).
Definition dot3 (u v : R * R * R) : R := fst (fst u) * fst (fst v) + snd (fst u) * snd (fst v) + snd u * snd v.
(** [dot_product(xl, matmul(t, zl))], line 381. *)
Definition combination (t : (R * R * R) * (R * R * R) * (R * R * R)) (xl zl : R * R * R) : R :=
  let '(t1, t2, t3) := t in dot3 xl (dot3 t1 zl, dot3 t2 zl, dot3 t3 zl).
Definition map3 {A B} (f : A -> B) (t : A * A * A) : B * B * B := (f (fst (fst t)), f (snd (fst t)), f (snd t)).
(** [lagrange_polynomial_interpolation], lines 355-394. *)
Definition lagrange (r z : R) (rs zs : R * R * R) (t : (integrals * integrals * integrals) * (integrals * integrals * integrals) * (integrals * integrals * integrals)) : option integrals :=
  obind (weights rs r) (fun xl => obind (weights zs z) (fun zl =>
  let value f := combination (map3 (map3 f) t) xl zl in
  Some (Integrals (value I1) (value I2) (value I3) (value I4) (value I5)))).

(** The tabulation kept by a Green function; [t_values] is [tabulated_integrals(i, j, :)]. *)
Record table := Table { t_shape : grid_shape; t_r : list R; t_z : list R; t_values : list (list integrals) }.
Definition clamp (n : Z) (i : Z) : Z := Z.max 2 (Z.min (n - 1) i).
(** [pick_in_default_tabulation], lines 257-285. *)
Definition pick (t : table) (r z : R) : option integrals :=
  obind (nearest_r_index r (t_r t) (t_shape t)) (fun i0 => obind (nearest_z_index z (t_z t) (t_shape t)) (fun j0 =>
  let i := clamp (size (t_r t)) i0 in let j := clamp (size (t_z t)) j0 in
  obind (around (t_r t) i) (fun rs => obind (around (t_z t) j) (fun zs =>
  obind (around (t_values t) i) (fun rows => let '(a, b, c) := rows in
  obind (around a j) (fun a => obind (around b j) (fun b => obind (around c j) (fun c => lagrange r z rs zs (a, b, c))))))))).

(** [asymptotic_approximations], lines 148-172; this is called with a positive r. *)
Definition asymptotic (r z : R) : integrals :=
  let r1 := sqrt (r * r + z * z) in
  let e := exp z * sqrt (2 * fortran_pi / r) in
  let c := cos (r - fortran_pi / 4) in let s := sin (r - fortran_pi / 4) in
  Integrals (2 * (- e * s + z / r1 ^ 3 - 1 / r1)) (2 * (- e * s + z / r1 ^ 3)) (2 * (e * c)) (2 * (- e * (c - s / (2 * r)) + r / r1 ^ 3)) (2 * (- e * (s + c / (2 * r)))).

Section Integration.
  Variable exp_e1 : C -> C.
  Definition Cexp (z : C) : C := (exp (fst z) * cos (snd z), exp (fst z) * sin (snd z)).
  (** The step of Simpson's rule, lines 58-65. *)
  Definition simpson_step (n k : nat) : R :=
    if (k =? 1)%nat || (k =? n)%nat then fortran_pi / (3 * (INR n - 1)) else if Nat.even k then 4 * fortran_pi / (3 * (INR n - 1)) else 2 * fortran_pi / (3 * (INR n - 1)).
  Definition simpson_angle (n k : nat) : R := - fortran_pi / 2 + fortran_pi * (INR k - 1) / (INR n - 1).
  Definition odd_number (nb : nat) : nat := if Nat.even nb then S nb else nb.
  Definition add_integrals (a b : integrals) : integrals := Integrals (I1 a + I1 b) (I2 a + I2 b) (I3 a + I3 b) (I4 a + I4 b) (I5 a + I5 b).
  (** The terms of the loop, lines 67-80. *)
  Definition simpson_term (n : nat) (r z : R) (k : nat) : option integrals :=
    let delta := simpson_step n k in
    let c := cos (simpson_angle n k) in
    let zeta : C := (z, r * c) in
    let exp_zeta := if Rleb z (-30) then RtoC 0 else Cexp zeta in
    let jzeta := Cplus (exp_e1 zeta) (Cmult (Cmult Ci (RtoC fortran_pi)) exp_zeta) in
    if Reqb z 0 && Reqb (r * c) 0 then None
    else let j := Cminus jzeta (Cinv zeta) in
      Some (Integrals (delta * fst jzeta) (delta * fst j) (delta * fst exp_zeta) (- (delta * c * snd j)) (- (delta * c * snd exp_zeta))).
  Definition zero_integrals : integrals := Integrals 0 0 0 0 0.
  (** [numerical_integration], lines 33-90; with one point the step is a division by zero. *)
  Definition numerical_integration (r z : R) (nb : nat) : option integrals :=
    let n := odd_number nb in
    if (n =? 1)%nat then None
    else
    obind (fold_left (fun acc k => obind acc (fun a => obind (simpson_term n r z k) (fun b => Some (add_integrals a b)))) (seq 1 n) (Some zero_integrals)) (fun s =>
    Some (Integrals (2 * (I1 s / fortran_pi)) (2 * (I2 s / fortran_pi)) (2 * I3 s) (2 * (I4 s / fortran_pi)) (2 * I5 s))).

  (** [construct_tabulation], lines 176-188, with the spacings (delhommeau.py:235-247). *)
  Fixpoint all_some {A} (l : list (option A)) : option (list A) :=
    match l with [] => Some [] | x :: r => obind x (fun a => obind (all_some r) (fun b => Some (a :: b))) end.
  Definition construct (rs zs : list R) (nb : nat) : option (list (list integrals)) :=
    all_some (map (fun r => all_some (map (fun z => numerical_integration r z nb) zs)) rs).
  Definition create_tabulation (nr : nat) (rmax : R) (nz : nat) (zmin : R) (nb : nat) (m : grid_shape) : option table :=
    let rs := r_spacing nr rmax m in let zs := z_spacing nz zmin m in
    obind (construct rs zs nb) (fun v => Some (Table m rs zs v)).

  (** The choice between the table, the asymptotic values and the integration, Green_wave.f90:286-306. *)
  Definition lookup (t : table) (nb : nat) (r z : R) : option integrals :=
    if (size (t_z t) <=? 1)%Z || (size (t_r t) <=? 1)%Z then numerical_integration r z nb
    else obind (elem (t_z t) (size (t_z t))) (fun zlast => obind (elem (t_r t) (size (t_r t))) (fun rlast =>
      if Rltb (Rabs z) (Rabs zlast) && Rltb r rlast then pick t r z
      else Some (asymptotic (Rmax r (/ 10000000000)) z))).
End Integration.
