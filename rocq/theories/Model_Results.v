(** Model of the results in [capytaine/bem/problems_and_results.py] and of the
    integration of the pressure in [capytaine/bodies/bodies.py]. *)
From Coq Require Import Reals List String Bool.
From Coquelicot Require Import Complex.
From Coq Require Import List.
From Verif Require Import Model_Base Model_Symbolic Model_Problem.
Import ListNotations.
Open Scope R_scope.

(** [FloatingBody.integrate_pressure] for one dof (bodies.py, lines 234-239);
    [pressure], the dof, the normals and the areas have one entry per face. *)
Definition integrate_dof (b : body) (d : list (list C)) (pressure : list C) : C :=
  Csum (map2 (fun pa n => Cmult (Cmult (fst pa) n) (RtoC (snd pa)))
             (combine pressure (b_areas b))
             (map (fun rn => Copp (cdot (row3 (fst rn)) (snd rn))) (combine d (b_normals b)))).
(** [FloatingBody.integrate_pressure] (bodies.py, lines 232-240). *)
Definition integrate_pressure (b : body) (pressure : list C) : list (string * C) :=
  map (fun nd => (fst nd, integrate_dof b (snd nd) pressure)) (b_dofs b).

(** A complex force, possibly symbolic. *)
Inductive cnum := CFl (c : C) | CSym (s : symb) (v : cnum).
(** [np.real], [np.imag] ([__array_function__],
    tools/symbolic_multiplication.py lines 26-30). *)
Fixpoint c_real (v : cnum) : num :=
  match v with CFl c => Fl (Scal (Fin (Re c))) | CSym s w => Sym s (c_real w) end.
Fixpoint c_imag (v : cnum) : num :=
  match v with CFl c => Fl (Scal (Fin (Im c))) | CSym s w => Sym s (c_imag w) end.

Definition freq_num (f : freq) : num :=
  match f with
  | FZero => Sym SZero (Fl (Scal (Fin 1)))
  | FInf => Sym SInf (Fl (Scal (Fin 1)))
  | FVal x => Fl (Scal x)
  end.

(** [RadiationResult.added_mass] (lines 553-555), one entry. *)
Definition added_mass (om : freq) (force : cnum) : result ext :=
  bind (num_mul (freq_num om) (freq_num om)) (fun o2 =>
  bind (num_div (c_real force) o2) num_float).
(** [RadiationResult.radiation_damping] (lines 557-562), one entry. *)
Definition radiation_damping (om : freq) (speed : R) (force : cnum) : result ext :=
  if is_limit (ffloat om) && Reqb speed 0 then Ok (Fin 0)
  else bind (num_div (c_imag force) (freq_num om)) num_float.
