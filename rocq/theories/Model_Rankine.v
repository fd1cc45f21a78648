(** Model of the integrals of the Rankine source over a face
    (green_functions/libDelhommeau/src/Green_Rankine.f90).

    Simplifications:
    - floats are real numbers; the tolerances written as single precision numbers are the decimal numbers of the source;
    - a division by zero (a point on the boundary of a face) gives an infinity or a nan in Fortran; here it gives the
      unspecified value of the standard library, and the properties of the values exclude these points. *)
From Coq Require Import Reals List Bool.
From Verif Require Import Model_Base Model_Mesh.
Import ListNotations.
Open Scope R_scope.

(** [sign(ONE, x)]. *)
Definition sign_of (x : R) : R := if Rltb x 0 then -1 else 1.
(** The sides of a face, [next_node], line 11. *)
Definition sides (q : quad) : list (vec * vec) := [(qa q, qb q); (qb q, qc q); (qc q, qd q); (qd q, qa q)].

Section Face.
  (** The point, and the center, normal vector and radius of the face. *)
  Variables (M center normal : vec) (radius : R).
  (** Line 88. *)
  Definition GZ : R := dot (vsub M center) normal.
  (** The body of the loop for the side from [a] to [b], lines 90-141: the terms added to [int_G] and to [int_nabla_G]. *)
  Definition DK (a b : vec) : R := norm (vsub b a).
  Definition RR (a : vec) : R := norm (vsub M a).
  Definition DRX (a : vec) : vec := vscale (/ RR a) (vsub M a).
  Definition PJ (a b : vec) : vec := vscale (/ DK a b) (vsub b a).
  Definition GYX (a b : vec) : vec := cross normal (PJ a b).
  Definition GY (a b : vec) : R := dot (vsub M a) (GYX a b).
  Definition ANT (a b : vec) : R := 2 * GY a b * DK a b.
  Definition DNT (a b : vec) : R := (RR b + RR a) * (RR b + RR a) - DK a b * DK a b + 2 * Rabs GZ * (RR b + RR a).
  Definition ANL (a b : vec) : R := RR b + RR a + DK a b.
  Definition DNL (a b : vec) : R := RR b + RR a - DK a b.
  Definition ALDEN (a b : vec) : R := ln (ANL a b / DNL a b).
  Definition AT (a b : vec) : R := if Rleb (/ 10000 * radius) (Rabs GZ) then atan (ANT a b / DNT a b) else 0.
  Definition ANLX (a b : vec) : vec := vadd (DRX b) (DRX a).
  Definition ANTX (a b : vec) : vec := vscale (2 * DK a b) (GYX a b).
  Definition DNTX (a b : vec) : vec :=
    vadd (vscale (2 * (RR b + RR a + Rabs GZ)) (ANLX a b)) (vscale (2 * sign_of GZ * (RR b + RR a)) normal).
  Definition side_G (a b : vec) : R :=
    if Rltb (Rabs (GY a b)) (/ 100000) then - (2 * AT a b * Rabs GZ)
    else GY a b * ALDEN a b - 2 * AT a b * Rabs GZ.
  Definition side_nabla (a b : vec) : vec :=
    vsub (vadd (vsub (vscale (ALDEN a b) (GYX a b))
                     (vscale (2 * sign_of GZ * AT a b) normal))
               (vscale (GY a b * (DNL a b - ANL a b) / (ANL a b * DNL a b)) (ANLX a b)))
         (vscale (2 * Rabs GZ / (ANT a b * ANT a b + DNT a b * DNT a b))
                 (vsub (vscale (DNT a b) (ANTX a b)) (vscale (ANT a b) (DNTX a b)))).
  Definition side (ab : vec * vec) : R * vec :=
    let '(a, b) := ab in if Rleb (/ 1000 * radius) (DK a b) then (side_G a b, side_nabla a b) else (0, v0).
  (** Lines 95-141. *)
  Definition sum_sides (q : quad) : R * vec := (Rsum (map (fun s => fst (side s)) (sides q)), vsum (map (fun s => snd (side s)) (sides q))).
End Face.

(** Lines 143-145: the derivative with respect to the second variable is the opposite one. *)
Definition oriented (first : bool) (g : R * vec) : R * vec := if first then g else (fst g, vscale (-1) (snd g)).

(** [exact_integral_of_Rankine], lines 57-146. *)
Definition exact_rankine (first : bool) (M : vec) (q : quad) (f : fprops) : R * vec :=
  oriented first (sum_sides M (p_center f) (p_normal f) (p_radius f) q).
(** [one_point_integral_of_Rankine], lines 150-187. *)
Definition one_point_rankine (first : bool) (M : vec) (f : fprops) : R * vec :=
  let vo := vsub (p_center f) M in
  let ro := norm vo in
  oriented first (if Rltb (/ 10000000) ro then (p_area f / ro, vscale (p_area f / ro / (ro * ro)) vo) else (0, v0)).
(** [integral_of_Rankine], lines 17-53. *)
Definition rankine (first : bool) (M : vec) (q : quad) (f : fprops) : R * vec :=
  if Rltb (7 * p_radius f) (norm (vsub M (p_center f))) then one_point_rankine first M f else exact_rankine first M q f.

(** The image of the point, lines 260-261 and 310-311. *)
Definition image_point (c : R * R) (M : vec) : vec := V (vx M) (vy M) (fst c * vz M + snd c).
(** Lines 275-283 and 318-325. *)
Definition reflected_gradient (first : bool) (c : R * R) (g : R * vec) : R * vec :=
  let v := V (vx (snd g)) (vy (snd g)) (fst c * vz (snd g)) in
  (fst g, if first then v else V (- vx v) (- vy v) (if Rltb 0 (fst c) then - vz v else vz v)).
(** [exact_integral_of_reflected_Rankine], lines 236-285. *)
Definition exact_reflected (first : bool) (c : R * R) (M : vec) (q : quad) (f : fprops) : R * vec :=
  reflected_gradient first c (exact_rankine true (image_point c M) q f).
(** [one_point_integral_of_reflected_Rankine], lines 289-327. *)
Definition one_point_reflected (first : bool) (c : R * R) (M : vec) (f : fprops) : R * vec :=
  reflected_gradient first c (one_point_rankine true (image_point c M) f).
(** [integral_of_reflected_Rankine], lines 191-232; [hypot(norm2(u(1:2)), u(3))] is the norm of u. *)
Definition reflected_rankine (first : bool) (c : R * R) (M : vec) (q : quad) (f : fprops) : R * vec :=
  if Rltb (7 * p_radius f) (norm (vsub (image_point c M) (p_center f))) then one_point_reflected first c M f
  else exact_reflected first c M q f.
