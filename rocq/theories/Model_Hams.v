(** Model of [green_functions/hams.py]: the parameters given to the Fortran core by the Green functions [LiangWuNoblesseGF], [FinGreen3D] and [HAMS_GF].

    The positions, normals and matrices passed to the core and the test on nan that follows are those of [Delhommeau.evaluate] (Model_Assembly.v) and
    are not repeated here. *)
From Coq Require Import Reals List Bool Arith.
From Verif Require Import Model_Base Model_Mesh Model_Problem.
Import ListNotations.
Open Scope R_scope.

(** The dispersion roots are [None] for the dummy array of line 20. *)
Record core_call := CoreCall { k_coeffs : R * R * R; k_wavenumber : ext; k_depth : ext; k_roots : option (list R) }.

(** [LiangWuNoblesseGF.evaluate], lines 38-69: the depth given to the core is always infinite. *)
Definition evaluate_liang (free_surface h k : ext) : result core_call :=
  if ext_eqb free_surface PInf then Ok (CoreCall (1, 0, 0) k PInf None)
  else if ext_eqb free_surface (Fin 0) && ext_ltb h PInf then Err NotImplementedError
  else if ext_eqb k (Fin 0) then Ok (CoreCall (1, 1, 0) k PInf None)
  else if ext_eqb k PInf then Ok (CoreCall (1, -1, 0) k PInf None)
  else Ok (CoreCall (1, 1, 1) k PInf None).

Section FinGreen3D.
  (** [scipy.optimize.brentq]. *)
  Variable brentq : (R -> R) -> R -> R -> result R.
  Definition margin : R := / 10000000000.
  (** [root], lines 115-116. *)
  Definition root (k h : R) (i : nat) : result R :=
    let omega2_h_over_g := k * tanh (k * h) * h in
    bind (brentq (fun y => omega2_h_over_g + y * tan y) ((2 * INR i + 1) * PI / 2 + margin) ((2 * INR i + 2) * PI / 2 - margin)) (fun y => Ok (y / h)).
  (** [compute_dispersion_relation_roots], lines 113-117; [range(nk-1)] is empty when [nk] is 0. *)
  Definition dispersion_relation_roots (nk : nat) (k h : R) : result (list R) :=
    bind (mapM (root k h) (seq 0 (nk - 1))) (fun l => Ok (k :: l)).
  (** [FinGreen3D.evaluate], lines 119-147. With another free surface than 0 and infinity, [coeffs] is not defined when it is used. Simplification: a
      wavenumber or a depth that is not a number, which no problem has, gives a [ValueError]. *)
  Definition evaluate_fingreen (nk : nat) (free_surface h k : ext) : result core_call :=
    if ext_eqb free_surface PInf || ext_eqb h PInf then Err NotImplementedError
    else
      let known := ext_eqb free_surface (Fin 0) && ext_ltb h PInf in
      if known && (ext_eqb k (Fin 0) || ext_eqb k PInf) then Err NotImplementedError
      else match k, h with
           | Fin k', Fin h' => bind (dispersion_relation_roots nk k' h') (fun l => if known then Ok (CoreCall (1, 1, 1) k h (Some l)) else Err OtherException)
           | _, _ => Err ValueError
           end.
  (** [HAMS_GF.evaluate], lines 176-180, with the 200 roots of line 165. *)
  Definition evaluate_hams (free_surface h k : ext) : result core_call :=
    if ext_eqb h PInf then evaluate_liang free_surface h k else evaluate_fingreen 200 free_surface h k.
End FinGreen3D.
(** The size given with the array of roots to the routine of FinGreen3D, Green_wave.f90:599, whatever the size of this array. *)
Definition announced_roots : nat := 200.
