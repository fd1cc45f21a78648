(** Model of the wave part of the Green function (green_functions/libDelhommeau/src/Green_wave.f90), without the optional
    dependencies (LiangWuNoblesse and FinGreen3D).

    Simplifications:
    - floats are real numbers; a division by zero gives the unspecified value of the standard library;
    - the elementary integrals (Model_Tabulation.v) and the Prony decomposition are parameters. *)
From Coq Require Import Reals.
From Coquelicot Require Import Complex.
From Coq Require Import List Bool.
From Verif Require Import Model_Base Model_Mesh Model_Assembly Model_Rankine.
Import ListNotations.
Open Scope R_scope.

(** The result of [numerical_integration], [pick_in_default_tabulation] and [asymptotic_approximations]. *)
Record integrals := Integrals { I1 : R; I2 : R; I3 : R; I4 : R; I5 : R }.

Definition gradient := (C * C * C)%type.
Definition g_zero : gradient := (RtoC 0, RtoC 0, RtoC 0).
Definition g_add (a b : gradient) : gradient :=
  (Cplus (fst (fst a)) (fst (fst b)), Cplus (snd (fst a)) (snd (fst b)), Cplus (snd a) (snd b)).
Definition g_scale (k : R) (a : gradient) : gradient :=
  (Cmult (RtoC k) (fst (fst a)), Cmult (RtoC k) (snd (fst a)), Cmult (RtoC k) (snd a)).
Definition g_of (v : vec) : gradient := (RtoC (vx v), RtoC (vy v), RtoC (vz v)).
(** constants.f90:16-17. *)
Definition euler_gamma : R := 5772156649 / 10000000000.
Definition log_2 : R := ln 2.
(** [16*EPSILON(r)] in double precision. *)
Definition tiny : R := 16 * / 2 ^ 52.

Section Wave.
  Variable elementary : R -> R -> integrals.

  (** [norm2(x(1:2) - y(1:2))] *)
  Definition horizontal_distance (x y : vec) : R := norm (V (vx x - vx y) (vy x - vy y) 0).

  (** [WAVE_PART_INFINITE_DEPTH], lines 248-332. *)
  Definition wave_infinite (s : singularities) (k : R) (x y : vec) : C * gradient :=
    let r := k * horizontal_distance x y in
    let z := k * (vz x + vz y) in
    let r1 := sqrt (r * r + z * z) in
    let drdx1 := if Rltb tiny (Rabs r) then k * k * (vx x - vx y) / r else 0 in
    let drdx2 := if Rltb tiny (Rabs r) then k * k * (vy x - vy y) / r else 0 in
    let dzdx3 := k in
    let i := elementary r z in
    let dGdr := (I4 i, I5 i) in
    let '(g, d1, d2, d3) :=
      match s with
      | LowFreq =>
        let g : C := (I1 i, I3 i) in
        (g, Cmult (RtoC drdx1) dGdr, Cmult (RtoC drdx2) dGdr, Cmult (RtoC dzdx3) (Cplus g (RtoC (2 / r1))))
      | LowFreqWithRankine =>
        let g : C := (I1 i, I3 i) in
        (g, Cmult (RtoC drdx1) dGdr, Cmult (RtoC drdx2) dGdr, Cmult (RtoC dzdx3) g)
      | HighFreq =>
        let g : C := (I2 i, I3 i) in
        (g, Cminus (Cmult (RtoC drdx1) dGdr) (RtoC (2 * drdx1 * r / r1 ^ 3)),
            Cminus (Cmult (RtoC drdx2) dGdr) (RtoC (2 * drdx2 * r / r1 ^ 3)),
            Cminus (Cmult (RtoC dzdx3) g) (RtoC (2 * dzdx3 * z / r1 ^ 3)))
      end in
    (Cmult (RtoC k) g, g_scale k (d1, d2, d3)).

  (** [integral_of_singularity_on_free_surface], lines 190-226. *)
  Definition free_surface_singularity (area k : R) : C * gradient :=
    let int_G : C := Cmult (RtoC (k * area)) ((1 - ln (k * k * area / fortran_pi)) + 2 * (euler_gamma - log_2), - (2 * fortran_pi))%R in
    (int_G, (RtoC 0, RtoC 0, Cmult (RtoC k) (Cplus int_G (RtoC (4 * sqrt (fortran_pi * area)))))).

  (** The loop on the quadrature points, lines 157-176. *)
  Definition integrate (s : singularities) (k : R) (x : vec) (points : list (vec * R)) : C * gradient :=
    fold_left (fun acc pw =>
      let v := wave_infinite s k x (fst pw) in
      (Cplus (fst acc) (Cmult (fst v) (RtoC (snd pw))), g_add (snd acc) (g_scale (snd pw) (snd v)))) points (RtoC 0, g_zero).
  (** [integral_of_wave_part_infinite_depth], lines 112-186. *)
  Definition integral_infinite (s : singularities) (k : R) (first : bool) (x : vec) (center : vec) (area : R) (points : list (vec * R)) : C * gradient :=
    let r := k * horizontal_distance x center in
    let z := k * (vz x + vz center) in
    let v := if Rltb (Rabs r) (/ 10000000000) && Rltb (Rabs z) (/ 10000000000) then free_surface_singularity area k
             else integrate s k x points in
    if first then v else (fst v, (Copp (fst (fst (snd v))), Copp (snd (fst (snd v))), snd (snd v))).

  (** [symmetric_of_vector], lines 336-342. *)
  Definition symmetric_of_vector (g : gradient) : gradient := (fst (fst g), snd (fst g), Copp (snd g)).
  (** [sea_bottom_symmetric_of_point] and [sea_bottom_symmetric_of_face], lines 344-370. *)
  Definition sea_bottom_image (h : R) (x : vec) : vec := V (vx x) (vy x) (- vz x - 2 * h).
  Definition image_of_points (h : R) (points : list (vec * R)) : list (vec * R) :=
    map (fun pw => (sea_bottom_image h (fst pw), snd pw)) points.
  Definition add_scaled (k : R) (v : C * gradient) (acc : C * gradient) : C * gradient :=
    (Cplus (fst acc) (Cmult (RtoC k) (fst v)), g_add (snd acc) (g_scale k (snd v))).
  Definition symmetric_if (b : bool) (v : C * gradient) : C * gradient := if b then (fst v, symmetric_of_vector (snd v)) else v.
  Definition complex_of (v : R * vec) : C * gradient := (RtoC (fst v), g_of (snd v)).

  (** The four Rankine terms for a term of the Prony decomposition, lines 511-556. *)
  Definition prony_term (h : R) (first : bool) (x : vec) (q : source_panel) (acc : C * gradient) (la : R * R) : C * gradient :=
    let '(lambda, a) := la in
    let term c acc := add_scaled (a / 2) (complex_of (reflected_rankine first c x (sp_corners q) (sp_props q))) acc in
    term (1, - h * lambda + 2 * h) (term (-1, h * lambda - 4 * h) (term (-1, - h * lambda) (term (1, h * lambda - 2 * h) acc))).
  (** Lines 420-423. *)
  Definition depth_coefficient (k h : R) : R :=
    let amh := k * h in let akh := amh * tanh amh in (amh + akh) * (amh + akh) / (4 * amh * (amh * amh - akh * akh + akh)).
  (** [integral_of_wave_part_finite_depth], lines 372-558. *)
  Definition integral_finite (decomposition : list (R * R)) (k h : R) (first : bool) (x : vec) (q : source_panel) : C * gradient :=
    let a := depth_coefficient k h in
    let c := p_center (sp_props q) in
    let area := p_area (sp_props q) in
    let x' := sea_bottom_image h x in
    let c' := sea_bottom_image h c in
    let points := sp_quad q in
    let points' := image_of_points h points in
    let v1 := integral_infinite LowFreq k first x c area points in
    let v2 := integral_infinite LowFreq k first x' c area points in
    let v3 := integral_infinite LowFreq k first x c' area points' in
    let v4 := integral_infinite LowFreq k first x' c' area points' in
    let start := add_scaled a (symmetric_if true v4) (add_scaled a (symmetric_if (negb first) v3)
                   (add_scaled a (symmetric_if first v2) (add_scaled a v1 (RtoC 0, g_zero)))) in
    fold_left (prony_term h first x q) decomposition start.

  (** [integral_of_wave_part], lines 39-108; the result of [find_best_exponential_decomposition] is a function of the product of
      the wavenumber and the depth. This subroutine is not called for an infinite wavenumber (delhommeau.py:341-360). *)
  Variable decomposition : R -> list (R * R).
  Definition wave_part (s : singularities) (_ : depth_method) (k h : ext) (first : bool) (x : vec) (q : source_panel) : C * gradient :=
    match k, h with
    | Fin k, Fin h => integral_finite (decomposition (k * h)) k h first x q
    | Fin k, _ => integral_infinite s k first x (p_center (sp_props q)) (p_area (sp_props q)) (sp_quad q)
    | _, _ => (RtoC 0, g_zero)
    end.
End Wave.

(** The subroutines called by [BUILD_MATRICES] (Model_Assembly.v), with the arguments of that file. *)
Definition rankine_of (first : bool) (x : vec) (q : source_panel) : R * vec := rankine first x (sp_corners q) (sp_props q).
Definition reflected_of (first : bool) (c : R * R) (x : vec) (q : source_panel) : R * vec := reflected_rankine first c x (sp_corners q) (sp_props q).
Definition one_point_of (first : bool) (c : R * R) (x : vec) (q : source_panel) : R * vec := one_point_reflected first c x (sp_props q).
