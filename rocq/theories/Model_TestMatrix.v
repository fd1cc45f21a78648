(** Model of [problems_from_dataset], io/xarray.py:45-156.

    The test matrix is modelled by the values of its coordinates, absent when [None]; a scalar coordinate is a list with one value
    ([_unsqueeze_dimensions], lines 35-42). The frequency coordinates are listed with their types. Coordinates with other
    names only give a warning. *)
From Coq Require Import Reals String List Bool Arith.
From Verif Require Import Model_Base Model_Mesh Model_Problem Model_Solver.
Import ListNotations.
Open Scope R_scope.

Record test_matrix := TM {
  tm_freqs : list (freq_type * list ext);
  tm_depth : option (list ext);
  tm_rho : option (list R); tm_g : option (list R);
  tm_speed : option (list R);
  tm_dirs : option (list R);
  tm_dofs : option (list string);
  tm_names : option (list string) }.

(** The dict [_default_parameters], problems_and_results.py:18-20. *)
Definition default_rho : R := 1000.
Definition default_g : R := 981 / 100.
Definition or_default {A} (o : option (list A)) (d : A) : list A := match o with Some l => l | None => [d] end.

Fixpoint all_different (l : list string) : bool :=
  match l with [] => true | x :: l' => negb (existsb (String.eqb x) l') && all_different l' end.
(** Lines 93-98: at most one kind of frequency. *)
Definition freq_range (m : test_matrix) : result (freq_type * list ext) :=
  match tm_freqs m with
  | [] => Ok (Omega, [Fin 1])
  | [x] => Ok x
  | _ => Err ValueError
  end.
(** Lines 110-116. *)
Definition body_range (m : test_matrix) (bodies : list body) : result (list body) :=
  match tm_names m with
  | None => Ok bodies
  | Some names =>
    if forallb (fun n => existsb (fun b => String.eqb n (b_name b)) bodies) names
    then Ok (filter (fun b => existsb (String.eqb (b_name b)) names) bodies)
    else Err AssertionError
  end.

Section TestMatrix.
  Variable newton : ext -> ext -> result ext.
  Variable immersed_part : body -> ext -> ext -> result body.

  (** The keyword arguments of the constructors of problems. *)
  Definition problem_args (t : freq_type) (f : ext) (dir : R) (h : ext) (b : body) (u rho g : R) : args :=
    let only t' := match t, t' with
                   | Omega, Omega | Period, Period | Wavenumber, Wavenumber | Wavelength, Wavelength => Some f
                   | _, _ => None
                   end in
    Args (Some b) (Fin 0) (Some h) None (only Omega) (only Period) (only Wavenumber) (only Wavelength) u rho g dir.
  (** [itertools.product] of the ranges, lines 121 and 139. *)
  Definition combinations {A} (fs : list ext) (xs : list A) (m : test_matrix) (bodies : list body) :=
    list_prod fs (list_prod xs (list_prod (or_default (tm_depth m) PInf) (list_prod bodies
      (list_prod (or_default (tm_speed m) 0) (list_prod (or_default (tm_rho m) default_rho) (or_default (tm_g m) default_g)))))).
  (** Lines 120-135. *)
  Definition diffraction_of (t : freq_type) (dofs_given : bool) (c : ext * (R * (ext * (body * (R * (R * R)))))) : result (list pb) :=
    let '(f, (dir, (h, (b, (u, (rho, g)))))) := c in
    if negb (is_limit f) then
      bind (diffraction_problem newton immersed_part (problem_args t f dir h b u rho g)) (fun p => Ok [Pb Diffraction p None])
    else if dofs_given then Ok [] else Err ValueError.
  (** Lines 137-158. *)
  Definition radiation_of (t : freq_type) (dirs : option (list R)) (c : ext * (string * (ext * (body * (R * (R * R)))))) : result (list pb) :=
    let '(f, (dof, (h, (b, (u, (rho, g)))))) := c in
    let build dir := bind (radiation_problem newton immersed_part (problem_args t f dir h b u rho g) (Some dof)) (fun p => Ok (Pb Radiation (fst p) (snd p))) in
    if Reqb u 0 then bind (build 0) (fun p => Ok [p])
    else mapM build (or_default dirs 0).
  Definition problems_from_dataset (m : test_matrix) (bodies : list body) : result (list pb) :=
    if negb (all_different (map b_name bodies)) then Err AssertionError else
    match tm_dofs m, tm_dirs m with
    | None, None => Err ValueError
    | _, _ =>
      bind (freq_range m) (fun tf =>
      bind (body_range m bodies) (fun bs =>
      bind (match tm_dirs m with
            | None => Ok []
            | Some dirs => mapM (diffraction_of (fst tf) (match tm_dofs m with Some _ => true | None => false end)) (combinations (snd tf) dirs m bs)
            end) (fun diffraction =>
      bind (match tm_dofs m with
            | None => Ok []
            | Some dofs => mapM (radiation_of (fst tf) (tm_dirs m)) (combinations (snd tf) dofs m bs)
            end) (fun radiation =>
      sorted_problems (List.concat diffraction ++ List.concat radiation)))))
    end.
End TestMatrix.
