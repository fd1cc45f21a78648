(** Model of [capytaine/bem/solver.py]: [solve], [_solve_and_catch_errors] and
    [solve_all], and of [_group_for_parallel_resolution]
    ([capytaine/bem/problems_and_results.py]). *)
From Coq Require Import Reals.
From Coquelicot Require Import Complex.
From Coq Require Import List String Bool ZArith.
From Verif Require Import Model_Base Model_Symbolic Model_Problem Model_Results.
Import ListNotations.
Open Scope R_scope.

(** The classes of problems: [LinearPotentialFlowProblem] itself and its two
    subclasses ([pb_dof] is the radiating dof). *)
Inductive pkind := Generic | Diffraction | Radiation.
Record pb := Pb { pb_kind : pkind; pb_data : problem; pb_dof : option string }.

(** A complex array multiplied by a stack of symbols, outermost first: nested
    [SymbolicMultiplication] objects around an array. *)
Record svec := SV { sv_symbols : list symb; sv_values : list C }.
Definition limit_symbol (f : freq) : list symb :=
  match f with FZero => [SZero] | FInf => [SInf] | FVal _ => [] end.
Definition sv_of_bc (c : bcond) : svec :=
  match c with BC l => SV [] l | BCSym f l => SV (limit_symbol f) l end.
Definition matrix := list (list C).
(** [M @ v] on ordinary arrays. The shapes are not checked. *)
Definition row_dot (r v : list C) : C := Csum (map2 Cmult r v).
Definition mat_vec (m : matrix) (v : list C) : list C := map (fun r => row_dot r v) m.
(** [M @ v] with [__rmatmul__] (symbolic_multiplication.py, lines 76-77). *)
Definition sv_matvec (m : matrix) (v : svec) : svec :=
  SV (sv_symbols v) (mat_vec m (sv_values v)).
(** [1j * omega * rho * v] (solver.py, lines 144 and 162). An infinite or nan
    float gives nan, which has no counterpart in the complex numbers of the
    model: [None]. *)
Definition sv_pressure (omega : freq) (rho : R) (v : svec) : option svec :=
  match omega with
  | FVal (Fin w) => Some (SV (sv_symbols v)
      (map (fun c => Cmult (Cmult (Cmult Ci (RtoC w)) (RtoC rho)) c) (sv_values v)))
  | FVal _ => None
  | f => Some (SV (limit_symbol f ++ sv_symbols v)
      (map (fun c => Cmult (Cmult Ci (RtoC rho)) c) (sv_values v)))
  end.
Definition cnum_of (s : list symb) (c : C) : cnum := fold_right CSym (CFl c) s.

(** The values of the dictionary [forces]. *)
Inductive force := Force (c : cnum) | ForceNaN.

(** [LinearPotentialFlowResult] and its subclasses (problems_and_results.py,
    lines 462-582): [r_exception] is set for failed results. *)
Record pres := Pres {
  r_problem : pb;
  r_forces : list (string * force);
  r_sources : option svec; r_potential : option svec; r_pressure : option svec;
  r_exception : option pyexn }.

Section Solver.
  (** State of the solver that survives a resolution: the cache of matrices of
      the engine and whatever the linear solver remembers. *)
  Variable st : Type.
  (** [engine.build_matrices(mesh, mesh, free_surface, water_depth, wavenumber,
      green_function, adjoint_double_layer)], the mesh being
      [mesh_including_lid] of the body. *)
  Definition bkey := (body * ext * ext * freq * bool)%type.
  Variable build : st -> bkey -> st * result (matrix * matrix).
  (** [engine.linear_solver]. *)
  Variable linsolve : st -> matrix -> list C -> st * result (list C).
  (** First component of [_compute_potential_gradient] on the mesh including
      the lid (solver.py, lines 380-391); it does not use the engine. *)
  Variable gradient_x : body -> ext -> ext -> freq -> list C -> result (list C).
  (** [minimal_computable_wavelength] and [first_irregular_frequency_estimate]
      (bodies.py, lines 1118-1162). *)
  Variable min_wavelength : body -> result ext.
  Variable irregular : body -> R -> result ext.

  (** Error-and-state sequencing. *)
  Definition andthen {A B} (x : st * result A) (f : st -> A -> st * result B) : st * result B :=
    match x with (s, Ok a) => f s a | (s, Err e) => (s, Err e) end.

  (** The values computed by [_check_wavelength_and_mesh_resolution] (lines
      254-255) and [_check_wavelength_and_irregular_frequencies] (lines 280-281)
      for one problem. Only the exceptions are kept, the outcome being a warning. *)
  Definition check_resolution (p : pb) : result unit :=
    if ext_ltb (Fin 0) (ffloat (f_wavelength (p_freqs (pb_data p)))) then
      match p_body (pb_data p) with
      | None => Err AttributeError
      | Some b => bind (min_wavelength b) (fun _ => Ok tt)
      end
    else Ok tt.
  Definition check_irregular (p : pb) : result unit :=
    match p_body (pb_data p) with
    | None => Err AttributeError
    | Some b => bind (irregular b (p_g (pb_data p))) (fun _ => Ok tt)
    end.
  Fixpoint check_each (f : pb -> result unit) (l : list pb) : result unit :=
    match l with
    | [] => Ok tt
    | p :: l' => bind (f p) (fun _ => check_each f l')
    end.
  Definition check_wavelength (l : list pb) : result unit :=
    bind (check_each check_resolution l) (fun _ => check_each check_irregular l).

  (** [make_results_container] (lines 327-328, 391-392 and 455-456): the one of
      the base class takes no argument. *)
  Definition make_results (p : pb) (r : pres) : result pres :=
    match pb_kind p with Generic => Err TypeError | _ => Ok r end.

  (** [linear_solver(A, x)] wrapped by [supporting_symbolic_multiplication]
      (solver.py line 122), followed by the check of the shape against that of
      the boundary condition (lines 141-143 and 157-159). *)
  Definition solve_system (s : st) (m : matrix) (x : svec) (bc : svec) : st * result svec :=
    andthen (linsolve s m (sv_values x)) (fun s v =>
      if Nat.eqb (List.length v) (List.length (sv_values bc)) then (s, Ok (SV (sv_symbols x) v))
      else (s, Err ValueError)).

  Definition forces_of (b : body) (pressure : svec) : list (string * force) :=
    map (fun nc => (fst nc, Force (cnum_of (sv_symbols pressure) (snd nc))))
        (integrate_pressure b (firstn (nb_faces b) (sv_values pressure))).

  (** Addition of the speed term to the pressure (line 167). When the encounter frequency is zero the pressure is the only
      symbolic factor and [__add__] replaces it with zeros (tools/symbolic_multiplication.py, lines 45-46 and 100-105); no other
      symbol occurs: the encounter frequency is finite and the boundary condition with a speed has no symbol. *)
  Definition concrete (v : svec) : svec :=
    match sv_symbols v with SZero :: _ => SV [] (map (fun _ => RtoC 0) (sv_values v)) | _ => v end.
  Definition add_speed_term (rho speed : R) (pressure : svec) (gx : list C) : svec :=
    SV (sv_symbols (concrete pressure))
       (map2 Cplus (sv_values (concrete pressure))
             (map (fun c => Cmult (Cmult (RtoC rho) (RtoC speed)) c) gx)).

  (** The end of [solve] (lines 169-175). *)
  Definition package (keep_details : bool) (p : pb) (b : body)
      (sources : option svec) (potential pressure : svec) : result pres :=
    let f := forces_of b pressure in
    make_results p
      (if keep_details then Pres p f sources (Some potential) (Some pressure) None
       else Pres p f None None None None).

  (** [solve] (lines 92-174). [direct] is [method == 'direct']. A missing
      boundary condition (possible for the base class only) is a [TypeError]. *)
  Definition solve (direct keep_details check : bool) (s : st) (p : pb) : st * result pres :=
    match (if check then check_wavelength [p] else Ok tt) with
    | Err e => (s, Err e)
    | Ok _ =>
    let d := pb_data p in
    let moving := negb (Reqb (p_speed d) 0) in
    let f := if moving then p_enc d else p_freqs d in
    if direct && moving then (s, Err NotImplementedError) else
    match p_body d with
    | None => (s, Err AttributeError)
    | Some b =>
      andthen (build s (b, p_fs d, p_depth d, f_wavenumber f, negb direct)) (fun s SK =>
      match p_bc d with
      | None => (s, Err TypeError)
      | Some bc =>
        if direct then
          let rhs := sv_matvec (fst SK) (sv_of_bc bc) in
          andthen (solve_system s (snd SK) rhs (sv_of_bc bc)) (fun s potential =>
          match sv_pressure (f_omega f) (p_rho d) potential with
          | None => (s, Err OtherException)
          | Some pressure => (s, package keep_details p b None potential pressure)
          end)
        else
          andthen (solve_system s (snd SK) (sv_of_bc bc) (sv_of_bc bc)) (fun s sources =>
          let potential := sv_matvec (fst SK) sources in
          match sv_pressure (f_omega f) (p_rho d) potential with
          | None => (s, Err OtherException)
          | Some pressure =>
            if moving then
              match make_results p (Pres p [] (Some sources) None None None) with
              | Err e => (s, Err e)
              | Ok _ =>
                match gradient_x b (p_fs d) (p_depth d) (f_wavenumber (p_enc d)) (sv_values sources) with
                | Err e => (s, Err e)
                | Ok gx => (s, package keep_details p b (Some sources) potential
                                       (add_speed_term (p_rho d) (p_speed d) pressure gx))
                end
              end
            else (s, package keep_details p b (Some sources) potential pressure)
          end)
      end)
    end
    end.

  (** [make_failed_results_container] (lines 394-395 and 458-459); the base
      class does not have this method. [influenced_dofs]: lines 322-325. *)
  Definition influenced (p : pb) : list string :=
    match p_body (pb_data p) with None => [] | Some b => map fst (b_dofs b) end.
  Definition make_failed (p : pb) (e : pyexn) : result pres :=
    match pb_kind p with
    | Generic => Err AttributeError
    | _ => Ok (Pres p (map (fun n => (n, ForceNaN)) (influenced p)) None None None (Some e))
    end.

  (** [_solve_and_catch_errors] (solver.py, lines 176-184). All the exceptions
      of the model are subclasses of [Exception]. *)
  Definition solve_catch (direct keep : bool) (s : st) (p : pb) : st * result pres :=
    match solve direct keep false s p with
    | (s', Ok r) => (s', Ok r)
    | (s', Err e) => (s', make_failed p e)
    end.
  (** The list comprehension of line 229. *)
  Fixpoint solve_list (direct keep : bool) (s : st) (l : list pb) : st * result (list pres) :=
    match l with
    | [] => (s, Ok [])
    | p :: l' =>
      andthen (solve_catch direct keep s p) (fun s r =>
      andthen (solve_list direct keep s l') (fun s rs => (s, Ok (r :: rs))))
    end.

  (** [sorted(problems)] (line 226): a stable sort using only [__lt__]. Insertion
      stands for Python's merge sort; both give the same list when [<] is a
      strict weak order. *)
  Fixpoint insert (p : pb) (l : list pb) : result (list pb) :=
    match l with
    | [] => Ok [p]
    | q :: l' =>
      bind (problem_ltb (pb_data p) (pb_data q)) (fun b =>
      if b then Ok (p :: q :: l') else bind (insert p l') (fun r => Ok (q :: r)))
    end.
  Fixpoint sort_from (acc : list pb) (l : list pb) : result (list pb) :=
    match l with
    | [] => Ok acc
    | p :: l' => bind (insert p acc) (fun acc' => sort_from acc' l')
    end.
  Definition sorted_problems (l : list pb) : result (list pb) := sort_from [] l.

  (** Lines 215-223: the progress bar. [env] is the environment variable
      CAPYTAINE_PROGRESS_BAR. *)
  Definition progress (arg : option bool) (env : option string) : result bool :=
    match arg with
    | Some b => Ok b
    | None =>
      match env with
      | None => Ok true
      | Some v =>
        let v := lower v in
        if existsb (String.eqb v) ["true"; "1"; "t"]%string then Ok true
        else if existsb (String.eqb v) ["false"; "0"; "f"]%string then Ok false
        else Err ValueError
      end
    end.

  (** The key of the grouping (problems_and_results.py, lines 229-246 and 255). *)
  Definition gkey := (string * list ext)%type.
  Definition group_key (p : pb) : gkey :=
    let d := pb_data p in
    (match p_body d with Some b => b_name b | None => "None"%string end,
     [p_depth d; ffloat (f_omega (p_freqs d)); Fin (p_rho d); Fin (p_g d)]).
  Definition gkey_eqb (a b : gkey) : bool :=
    String.eqb (fst a) (fst b) && list_eqb ext_eqb (snd a) (snd b).
  (** [DataFrame.groupby(...).groups.values()]: the rows with equal keys, in
      order. The order of the groups (pandas sorts the keys) is simplified to
      that of their first rows. A row with a nan key belongs to no group. *)
  Definition has_key (k : gkey) (p : pb) : bool := gkey_eqb k (group_key p).
  Fixpoint group_by (fuel : nat) (l : list pb) : list (list pb) :=
    match fuel, l with
    | S n, p :: l' =>
      let k := group_key p in
      if gkey_eqb k k then
        (p :: filter (has_key k) l') :: group_by n (filter (fun q => negb (has_key k q)) l')
      else group_by n l'
    | _, _ => []
    end.
  (** [_group_for_parallel_resolution] (lines 248-257). Without any row the
      data frame has no such columns. *)
  Definition group_for_parallel (l : list pb) : result (list (list pb)) :=
    match l with
    | [] => Err KeyError
    | _ => Ok (group_by (List.length l) l)
    end.

  (** Lines 225-229: sequential resolution. *)
  Definition solve_sequential (direct keep : bool) (s : st) (l : list pb) : st * result (list pres) :=
    match sorted_problems l with
    | Err e => (s, Err e)
    | Ok l' => solve_list direct keep s l'
    end.
  (** Lines 230-242: each group is solved by a copy of the solver. The results
      come back in the order of the groups. *)
  Fixpoint solve_groups (direct keep : bool) (s : st) (gs : list (list pb)) : result (list pres) :=
    match gs with
    | [] => Ok []
    | g :: gs' =>
      bind (snd (solve_sequential direct keep s g)) (fun r =>
      bind (solve_groups direct keep s gs') (fun rs => Ok (r ++ rs)))
    end.

  (** [solve_all] (lines 186-244). [joblib] tells whether the optional
      dependency is installed (its absence raises [ImportError]). *)
  Definition solve_all (direct keep check joblib : bool) (bar : option bool) (env : option string)
      (n_jobs : Z) (s : st) (l : list pb) : st * result (list pres) :=
    match (if check then check_wavelength l else Ok tt) with
    | Err e => (s, Err e)
    | Ok _ =>
      match progress bar env with
      | Err e => (s, Err e)
      | Ok _ =>
        if Z.eqb n_jobs 1 then solve_sequential direct keep s l
        else if joblib then
          (s, bind (group_for_parallel l) (fun gs => solve_groups direct keep s gs))
        else (s, Err OtherException)
      end
    end.
End Solver.
