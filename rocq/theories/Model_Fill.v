(** Model of [BEMSolver.fill_dataset], bem/solver.py:306-351, of the coefficients of the results that end up in the dataset,
    bem/problems_and_results.py:508-582 and bem/airy_waves.py:81-86, and of the far field coefficients, post_pro/kochin.py and
    io/xarray.py:272-309.

    Simplifications: exact complex numbers instead of floats; the dataset is assembled with the default values of the options;
    the hydrostatics found in the bodies and the attributes are not modelled; the far field coefficients are the records of
    io/xarray.py:285-290, not rearranged in an array. *)
From Coq Require Import Reals.
From Coquelicot Require Import Complex.
From Coq Require Import String Ascii List Bool ZArith.
From Verif Require Import Model_Base Model_Mesh Model_Symbolic Model_Problem Model_Results Model_Solver Model_TestMatrix Model_Dataset.
Import ListNotations.
Open Scope R_scope.

(** A number in the arrays of the dataset. *)
Inductive entry := Real (x : ext) | Complex (c : cnum) | NotANumber.
(** The sum of the two complex forces of the diffraction problems. *)
Definition entry_add (a b : entry) : entry :=
  match a, b with
  | Complex (CFl x), Complex (CFl y) => Complex (CFl (Cplus x y))
  | _, _ => NotANumber
  end.

(** One value of the dictionaries [added_mass] and [radiation_damping], problems_and_results.py:553-562; the force is [nan] in
    the failed results. *)
Definition mass_entry (om : freq) (f : force) : result ext :=
  match f with
  | Force c => added_mass om c
  | ForceNaN => bind (num_mul (freq_num om) (freq_num om)) (fun o2 => bind (num_div (Fl (Scal NaN)) o2) num_float)
  end.
Definition damping_entry (om : freq) (speed : R) (f : force) : result ext :=
  match f with
  | Force c => radiation_damping om speed c
  | ForceNaN => if is_limit (ffloat om) && Reqb speed 0 then Ok (Fin 0) else bind (num_div (Fl (Scal NaN)) (freq_num om)) num_float
  end.
(** [froude_krylov_force], airy_waves.py:81-86. *)
Definition froude_krylov_force (p : problem) : result (list (string * C)) :=
  match p_body p with
  | None => Err AttributeError
  | Some b =>
    match wave_of p with
    | None => Err OtherException
    | Some w => Ok (integrate_pressure b (map (airy_pressure w) (b_centers b)))
    end
  end.
Definition force_entry (f : force) : entry := match f with Force c => Complex c | ForceNaN => NotANumber end.
Definition entry_of {A} (l : list (string * A)) (make : A -> entry) (dof : string) : entry :=
  match assoc dof l with Some x => make x | None => NotANumber end.
Definition all_known {A} (l : list (string * A)) (dofs : list string) : bool :=
  forallb (fun d => existsb (String.eqb d) (map fst l)) dofs.

(** [records], problems_and_results.py:525-534 and 568-576: a result as it is read by [assemble_dataset]. A dof without force
    is a [KeyError]. *)
Definition read_result (r : pres) : result (res entry) :=
  let p := pb_data (r_problem r) in
  let influenced := match p_body p with Some b => map fst (b_dofs b) | None => [] end in
  let compute {A} (f : force -> result A) := mapM (fun nf => bind (f (snd nf)) (fun x => Ok (fst nf, x))) (r_forces r) in
  match pb_kind (r_problem r) with
  | Generic => Err AttributeError
  | Radiation =>
    let om := f_omega (p_enc p) in
    bind (compute (mass_entry om)) (fun masses =>
    bind (compute (damping_entry om (p_speed p))) (fun dampings =>
    if all_known (r_forces r) influenced then
      Ok (Res _ Radiation p (pb_dof (r_problem r)) (fun q dof =>
        match q with AddedMass => entry_of masses Real dof | RadiationDamping => entry_of dampings Real dof | _ => NotANumber end))
    else Err KeyError))
  | Diffraction =>
    bind (froude_krylov_force p) (fun fk =>
    if all_known (r_forces r) influenced then
      Ok (Res _ Diffraction p None (fun q dof =>
        match q with
        | DiffractionForce => entry_of (r_forces r) force_entry dof
        | FroudeKrylovForce => entry_of fk (fun c => Complex (CFl c)) dof
        | _ => NotANumber
        end))
    else Err KeyError)
  end.

(** [compute_kochin], kochin.py:9-54, for a list of angles. At the frequencies zero and infinity the exponential of a symbolic
    number is a [TypeError]. *)
Definition kochin_term (w : wave) (ref : R * R) (theta : R) (c : vec) : C :=
  Cmult (RtoC (cih w (vz c))) (cexp (- (w_k w * ((vx c - fst ref) * cos theta + (vy c - snd ref) * sin theta)))).
Definition kochin_at (w : wave) (b : body) (ref : R * R) (sources : list C) (theta : R) : C :=
  let zs := map2 (fun c a => Cmult (kochin_term w ref theta c) (RtoC a)) (b_centers b) (b_areas b) in
  Cdiv (Csum (map2 Cmult zs sources)) (RtoC (4 * PI)).
Definition compute_kochin (r : pres) (thetas : list R) (ref : R * R) : result (list C) :=
  match r_sources r with
  | None => Err OtherException
  | Some s =>
    let p := pb_data (r_problem r) in
    match p_body p, wave_of p with
    | None, _ => Err AttributeError
    | _, None => Err TypeError
    | Some b, Some w =>
      if Nat.eqb (List.length (sv_values s)) (nb_faces b) then Ok (map (kochin_at w b ref (sv_values s)) thetas)
      else Err ValueError
    end
  end.
(** [kochin_data_array], io/xarray.py:272-290. *)
Definition kochin_records (results : list pres) (thetas : list R) : result (list (pres * R * C)) :=
  bind (mapM (fun r => bind (compute_kochin r thetas (0, 0)) (fun hs => Ok (map (fun th => (r, fst th, snd th)) (combine thetas hs)))) results)
    (fun l => Ok (List.concat l)).

(** The keyword arguments of [assemble_dataset], io/xarray.py:312-314; [attrs] is already given by [fill_dataset]. *)
Definition assemble_keywords : list string :=
  ["omega"; "wavenumber"; "wavelength"; "period"; "mesh"; "hydrostatics"]%string.
Record filled := Filled { fd_data : assembled entry; fd_kochin : option (list (pres * R * C)) }.

Section Fill.
  Variable newton : ext -> ext -> result ext.
  Variable immersed_part : body -> ext -> ext -> result body.
  Variable st : Type.
  Variable build : st -> bkey -> st * result (matrix * matrix).
  Variable linsolve : st -> matrix -> list C -> st * result (list C).
  Variable gradient_x : body -> ext -> ext -> freq -> list C -> result (list C).
  Variable min_wavelength : body -> result ext.
  Variable irregular : body -> R -> result ext.
  Variable arrange : column -> list value -> list value.
  Let all := solve_all st build linsolve gradient_x min_wavelength irregular.

  (** [fill_dataset]. [joblib] tells whether the optional dependency is installed, [env] is the environment variable
      CAPYTAINE_PROGRESS_BAR, [kwargs] are the names of the other keyword arguments; those of [assemble_dataset] are given
      with their default values. *)
  Definition fill_dataset (direct check joblib : bool) (env : option string) (n_jobs : Z) (kwargs : list string)
      (s : st) (m : test_matrix) (thetas : option (list R)) (bodies : list body) : st * result filled :=
    let assemble results :=
      if forallb (fun n => existsb (String.eqb n) assemble_keywords) kwargs then
        bind (mapM read_result results) (assemble_dataset entry NotANumber entry_add arrange)
      else Err TypeError in
    match problems_from_dataset newton immersed_part m bodies with
    | Err e => (s, Err e)
    | Ok problems =>
      let keep := match thetas with Some _ => true | None => false end in
      let (s', out) := all direct keep check joblib None env n_jobs s problems in
      (s', bind out (fun results =>
           match thetas with
           | None => bind (assemble results) (fun a => Ok (Filled a None))
           | Some th =>
             bind (kochin_records results th) (fun k =>
             bind (assemble results) (fun a => Ok (Filled a (Some k))))
           end))
    end.
End Fill.
