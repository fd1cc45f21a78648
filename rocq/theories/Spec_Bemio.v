(** The data of another code and the rows that describe them. *)
From Coq Require Import Reals String.
From Coq Require Import List Bool Arith.
From Verif Require Import Model_Base Model_Mesh Model_Bemio.
Import ListNotations.
Open Scope R_scope.

(** An array with three axes given by its entries. *)
Definition table (n1 n2 n3 : nat) (f : nat -> nat -> nat -> R) : array3 :=
  map (fun i => map (fun j => map (f i j) (seq 0 n3)) (seq 0 n2)) (seq 0 n1).

(** The entries of the arrays of a body: excitation, Froude-Krylov forces if there are any, added mass and damping. *)
Record entries := Entries {
  e_re : nat -> nat -> nat -> R; e_im : nat -> nat -> nat -> R;
  e_fk : option ((nat -> nat -> nat -> R) * (nat -> nat -> nat -> R));
  e_am : nat -> nat -> nat -> R; e_rd : nat -> nat -> nat -> R }.
(** The arrays of a body have the right shapes, with six columns in the matrices. *)
Definition arrays_are (b : bemio_body) (e : entries) : Prop :=
  let nw := length (bm_w b) in let nd := length (bm_dirs b) in
  bm_ex_re b = table 6 nd nw (e_re e) /\ bm_ex_im b = table 6 nd nw (e_im e) /\
  bm_fk b = option_map (fun p => (table 6 nd nw (fst p), table 6 nd nw (snd p))) (e_fk e) /\
  bm_am b = table 6 6 nw (e_am e) /\ bm_rd b = table 6 6 nw (e_rd e).
(** The depth that was given. *)
Definition depth_given (b : bemio_body) (h : ext) : Prop := bm_depth b = Depth h \/ (bm_depth b = InfiniteWord /\ h = PInf).
(** The row is about this body and this frequency. *)
Definition labelled (b : bemio_body) (omega : R) (c : common) : Prop :=
  c_body c = bm_name b /\ depth_given b (c_depth c) /\ c_omega c = omega.
Definition body_of (r : row) : string :=
  match r with DiffractionRow c _ _ _ _ _ => c_body c | RadiationRow c _ _ _ _ => c_body c end.
Fixpoint ascending (l : list R) : Prop :=
  match l with x :: ((y :: _) as l') => x <= y /\ ascending l' | _ => True end.

(** The force of dof [i], direction [j], frequency [k], with the units of capytaine if the data come from WAMIT. *)
Definition force_value (rho g : R) (e : entries) (i j k : nat) : R * R := (e_re e i j k * rho * g, e_im e i j k * rho * g).
Definition fk_value (rho g : R) (e : entries) (i j k : nat) : R * R :=
  match e_fk e with Some (re, im) => (re i j k * rho * g, im i j k * rho * g) | None => (0, 0) end.
(** The rows that describe a body, when the frequency [k] is called [omegas k]. *)
Definition describes (rho g : R) (b : bemio_body) (e : entries) (omegas : list R) (r : row) : Prop :=
  (exists i j k dof dir omega c p, nth_error dofs i = Some dof /\ nth_error (bm_dirs b) j = Some dir /\ nth_error omegas k = Some omega /\
     labelled b omega c /\ r = DiffractionRow c p (dir * PI / 180) dof (force_value rho g e i j k) (fk_value rho g e i j k)) \/
  (exists i i' k dof dof' omega c, nth_error dofs i = Some dof /\ nth_error dofs i' = Some dof' /\ nth_error omegas k = Some omega /\
     labelled b omega c /\ r = RadiationRow c dof dof' (e_am e i i' k * rho) (e_rd e i i' k * rho * omega)).
(** There is a row for each force and each coefficient. *)
Definition complete (rho g : R) (b : bemio_body) (e : entries) (omegas : list R) (rows : list row) : Prop :=
  (forall i j k dof dir omega, nth_error dofs i = Some dof -> nth_error (bm_dirs b) j = Some dir -> nth_error omegas k = Some omega ->
     exists c p, labelled b omega c /\ In (DiffractionRow c p (dir * PI / 180) dof (force_value rho g e i j k) (fk_value rho g e i j k)) rows) /\
  (forall i i' k dof dof' omega, nth_error dofs i = Some dof -> nth_error dofs i' = Some dof' -> nth_error omegas k = Some omega ->
     exists c, labelled b omega c /\ In (RadiationRow c dof dof' (e_am e i i' k * rho) (e_rd e i i' k * rho * omega)) rows).
(** [k] is the wavenumber of [omega]: the relation of the deep water when the depth is infinite or large, otherwise that of the finite depth. *)
Definition wavenumber_is (g : R) (depth : ext) (omega k : R) : Prop :=
  match depth with
  | PInf => g * k = omega ^ 2
  | Fin d => (20 < omega ^ 2 * d / g -> g * k = omega ^ 2) /\ (omega ^ 2 * d / g <= 20 -> g * k * tanh (k * d) = omega ^ 2)
  | _ => False
  end.
(** 2 pi over [x], infinite for zero. *)
Definition turn_over (x : R) (y : ext) : Prop := (x = 0 -> y = PInf) /\ (x <> 0 -> y = Fin (2 * PI / x)).
(** The wavenumber and the wavelength of a row are there if and only if they were asked for, and are those of its frequency. *)
Definition waves_right (g : R) (wavenumber wavelength : bool) (c : common) : Prop :=
  (wavenumber = false -> c_wavenumber c = None) /\ (wavelength = false -> c_wavelength c = None)
  /\ (wavenumber = true -> exists k, c_wavenumber c = Some k /\ wavenumber_is g (c_depth c) (c_omega c) k)
  /\ (wavelength = true -> exists k l, c_wavelength c = Some l /\ turn_over k l /\ wavenumber_is g (c_depth c) (c_omega c) k).
Definition common_of_row (r : row) : common := match r with DiffractionRow c _ _ _ _ _ => c | RadiationRow c _ _ _ _ => c end.
Definition period_of_row (r : row) : option ext := match r with DiffractionRow _ p _ _ _ _ => Some p | RadiationRow _ _ _ _ _ => None end.
