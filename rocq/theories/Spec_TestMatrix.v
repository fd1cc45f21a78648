(** The problems described by a test matrix. *)
From Coq Require Import Reals String List Bool Arith.
From Verif Require Import Model_Base Model_Problem Model_Solver Model_TestMatrix.
Import ListNotations.
Open Scope R_scope.

(** The parameters of a problem; a diffraction problem has no dof. *)
Record request := Request {
  q_dof : option string; q_type : freq_type; q_freq : ext; q_dir : R; q_depth : ext; q_body : body;
  q_speed : R; q_rho : R; q_g : R }.
(** The value is in the range or, without range, is the default value. *)
Definition in_range {A} (o : option (list A)) (d x : A) : Prop := match o with Some l => In x l | None => x = d end.
Definition frequency_wanted (m : test_matrix) (t : freq_type) (f : ext) : Prop :=
  match tm_freqs m with [] => t = Omega /\ f = Fin 1 | _ => exists l, In (t, l) (tm_freqs m) /\ In f l end.
(** The combinations of the values of the test matrix: the wave direction is that of the test matrix for the diffraction
    problems, which are not defined at the frequencies zero and infinity, and for the radiation problems with forward speed
    (or else zero); it is zero for the radiation problems without forward speed. *)
Definition wanted (m : test_matrix) (bodies : list body) (q : request) : Prop :=
  frequency_wanted m (q_type q) (q_freq q) /\ in_range (tm_depth m) PInf (q_depth q) /\ in_range (tm_rho m) 1000 (q_rho q)
  /\ in_range (tm_g m) (981 / 100) (q_g q) /\ in_range (tm_speed m) 0 (q_speed q)
  /\ In (q_body q) bodies /\ (forall l, tm_names m = Some l -> In (b_name (q_body q)) l)
  /\ match q_dof q with
     | None => exists dirs, tm_dirs m = Some dirs /\ In (q_dir q) dirs /\ q_freq q <> Fin 0 /\ q_freq q <> PInf
     | Some dof => (exists dofs, tm_dofs m = Some dofs /\ In dof dofs)
                   /\ (if Req_EM_T (q_speed q) 0 then q_dir q = 0 else in_range (tm_dirs m) 0 (q_dir q))
     end.
(** No value is repeated in a range. *)
Definition distinct_values (m : test_matrix) : Prop :=
  let ok {A} (o : option (list A)) := forall l, o = Some l -> NoDup l in
  (forall t l, In (t, l) (tm_freqs m) -> NoDup l) /\ ok (tm_depth m) /\ ok (tm_rho m) /\ ok (tm_g m) /\ ok (tm_speed m)
  /\ ok (tm_dirs m) /\ ok (tm_dofs m).

Section Built.
  Variable newton : ext -> ext -> result ext.
  Variable immersed_part : body -> ext -> ext -> result body.
  (** The call of the constructor of a problem with these parameters. *)
  Definition call (q : request) : args :=
    let f t := match q_type q, t with
               | Omega, Omega | Period, Period | Wavenumber, Wavenumber | Wavelength, Wavelength => Some (q_freq q)
               | _, _ => None
               end in
    {| i_body := Some (q_body q); i_fs := Fin 0; i_water_depth := Some (q_depth q); i_sea_bottom := None;
       i_omega := f Omega; i_period := f Period; i_wavenumber := f Wavenumber; i_wavelength := f Wavelength;
       i_speed := q_speed q; i_rho := q_rho q; i_g := q_g q; i_dir := q_dir q |}.
  Definition built_as (q : request) (p : pb) : Prop :=
    match q_dof q with
    | None => exists d, diffraction_problem newton immersed_part (call q) = Ok d /\ p = Pb Diffraction d None
    | Some dof => exists d, radiation_problem newton immersed_part (call q) (Some dof) = Ok d /\ p = Pb Radiation (fst d) (snd d)
    end.
End Built.
