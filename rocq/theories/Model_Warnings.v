(** Model of the warnings displayed before a resolution: [_check_wavelength_and_mesh_resolution] and
    [_check_wavelength_and_irregular_frequencies] (bem/solver.py:249-305), with [FloatingBody.minimal_computable_wavelength]
    (bodies/bodies.py:1117-1124). A message is the list of the values it displays; the meshes are [Mesh] objects. *)
From Coq Require Import Reals List Bool Arith.
From Verif Require Import Model_Base Model_Problem Model_Geometry Model_Mesh Model_Quality Model_Clip Model_Lid.
Import ListNotations.
Open Scope R_scope.

(** What the two functions read of a problem: the mesh and the lid of the body, if there is a body, the frequencies and g. *)
Record wproblem := WProblem { w_body : option (mesh * option mesh); w_freqs : freqs; w_g : R }.

(** [pb.__getattribute__(freq_type)]. *)
Definition freq_attr (t : freq_type) (f : freqs) : freq :=
  match t with Omega => f_omega f | Period => f_period f | Wavenumber => f_wavenumber f | Wavelength => f_wavelength f end.

(** The two recommendations, solver.py:285-287. *)
Inductive advice := SetLid | RaiseLid.
(** The four messages: for one problem, the problem, the type and the value of the frequency, and the displayed radius or the
    recommendation; for several ones, their number, the type and the range of the frequencies. *)
Inductive warning :=
  | ResolutionOne (p : wproblem) (t : freq_type) (f : freq) (radius : R)
  | ResolutionMany (n : nat) (t : freq_type) (lo hi : ext)
  | IrregularOne (p : wproblem) (t : freq_type) (f : freq) (a : advice)
  | IrregularMany (n : nat) (t : freq_type) (lo hi : ext) (a : advice).

(** [np.minimum] and [np.maximum], which return nan if one of the two is nan. *)
Definition np_lowest (a b : ext) : ext :=
  match a, b with NaN, _ | _, NaN => NaN | _, _ => if ext_ltb b a then b else a end.
Definition np_highest (a b : ext) : ext :=
  match a, b with NaN, _ | _, NaN => NaN | _, _ => if ext_ltb a b then b else a end.
(** [freqs.min()] and [freqs.max()] of a non-empty array. *)
Definition range_of (l : list ext) : result (ext * ext) :=
  match l with [] => Err ValueError | x :: r => Ok (fold_left np_lowest r x, fold_left np_highest r x) end.

(** A list comprehension with a condition that may raise. *)
Fixpoint select {A} (f : A -> result bool) (l : list A) : result (list A) :=
  match l with
  | [] => Ok []
  | x :: l' => bind (f x) (fun b => bind (select f l') (fun r => Ok (if b then x :: r else r)))
  end.

(** [mesh.faces_radiuses.max()]. *)
Definition largest_radius (m : mesh) : result R := bind (faces_props m) (fun ps => array_max (map p_radius ps)).
(** [minimal_computable_wavelength], bodies.py:1117-1124. *)
Definition minimal_computable_wavelength (b : mesh * option mesh) : result R :=
  match snd b with
  | Some lid => bind (largest_radius (fst b)) (fun r => bind (largest_radius lid) (fun s => Ok (Rmax (8 * r) (8 * s))))
  | None => bind (largest_radius (fst b)) (fun r => Ok (8 * r))
  end.

(** solver.py:254-255: the second comparison is not evaluated if the first one is false. *)
Definition risky_resolution (p : wproblem) : result bool :=
  if ext_ltb (Fin 0) (ffloat (f_wavelength (w_freqs p))) then
    match w_body p with
    | None => Err AttributeError
    | Some b => bind (minimal_computable_wavelength b) (fun w => Ok (ext_ltb (ffloat (f_wavelength (w_freqs p))) (Fin w)))
    end
  else Ok false.
(** The first risky problem gives the type of frequency of the message, solver.py:258-270 and 288-299. *)
Definition displayed_range (t : freq_type) (l : list wproblem) : result (ext * ext) :=
  range_of (map (fun p => ffloat (freq_attr t (w_freqs p))) l).
(** solver.py:249-275. *)
Definition resolution_warning (problems : list wproblem) : result (option warning) :=
  bind (select risky_resolution problems) (fun risky =>
  match risky with
  | [] => Ok None
  | [p] => match w_body p with
           | None => Err AttributeError
           | Some b => bind (largest_radius (fst b)) (fun r => let t := f_type (w_freqs p) in Ok (Some (ResolutionOne p t (freq_attr t (w_freqs p)) r)))
           end
  | p :: _ => let t := f_type (w_freqs p) in bind (displayed_range t risky) (fun r => Ok (Some (ResolutionMany (length risky) t (fst r) (snd r))))
  end).

Section Irregular.
  Variable argsort : list R -> list nat.
  (** solver.py:280-281. *)
  Definition risky_irregular (p : wproblem) : result bool :=
    match w_body p with
    | None => Err AttributeError
    | Some b => bind (first_irregular_frequency_estimate argsort (w_g p) (fst b) (snd b)) (fun e =>
        Ok (ext_ltb e (ffloat (f_omega (w_freqs p))) && ext_ltb (ffloat (f_omega (w_freqs p))) PInf))
    end.
  (** solver.py:284: a body whose lid is None; all the problems have a body at this point. *)
  Definition without_lid (p : wproblem) : bool := match w_body p with Some (_, None) => true | _ => false end.
  (** solver.py:277-305. *)
  Definition irregular_warning (problems : list wproblem) : result (option warning) :=
    bind (select risky_irregular problems) (fun risky =>
    let recommendation := if existsb without_lid problems then SetLid else RaiseLid in
    match risky with
    | [] => Ok None
    | [p] => let t := f_type (w_freqs p) in Ok (Some (IrregularOne p t (freq_attr t (w_freqs p)) recommendation))
    | p :: _ => let t := f_type (w_freqs p) in bind (displayed_range t risky) (fun r => Ok (Some (IrregularMany (length risky) t (fst r) (snd r) recommendation)))
    end).
  (** The two checks done by [solve] and [solve_all] (solver.py:115-117 and 213-215): the messages, in their order. *)
  Definition listed (w : option warning) : list warning := match w with Some x => [x] | None => [] end.
  Definition warnings (problems : list wproblem) : result (list warning) :=
    bind (resolution_warning problems) (fun a => bind (irregular_warning problems) (fun b => Ok (listed a ++ listed b))).
End Irregular.
