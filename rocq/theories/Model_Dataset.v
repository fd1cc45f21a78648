(** Model of the assembly of results in datasets: [assemble_dataframe], [_dataset_from_dataframe] and [assemble_dataset],
    io/xarray.py:196-491, together with the records of results, bem/problems_and_results.py:233-246, 443-446, 525-534 and
    568-576.

    Not modelled: the options [mesh] and [hydrostatics], the attributes, the bemio import. The pandas and xarray functions are
    modelled by their documented effect. *)
From Coq Require Import Reals String List Bool Arith.
From Verif Require Import Model_Base Model_Mesh Model_Problem Model_Solver.
Import ListNotations.
Open Scope R_scope.

(** The columns of the dataframe which are not results. *)
Inductive column :=
| BodyName | WaterDepth | FreeSurface | COmega | EncounterOmega | CPeriod | CWavelength | CWavenumber | ForwardSpeed
| WaveDirection | EncounterWaveDirection | Rho | Gravity | RadiatingDof | InfluencedDof.
Scheme Equality for column.
Scheme Equality for freq_type.
(** The columns with results; [CoordinateValue] is the only variable of the datasets made for a coordinate; the last two are the
    matrices of the hydrostatics. *)
Inductive quantity := AddedMass | RadiationDamping | DiffractionForce | FroudeKrylovForce | ExcitationForce | CoordinateValue
  | InertiaMatrix | HydrostaticStiffness.
Scheme Equality for quantity.
(** The values of coordinates. *)
Inductive value := Num (x : ext) | Name (s : string) | Missing.
Definition value_eqb (a b : value) : bool :=
  match a, b with
  | Num NaN, Num NaN => true
  | Num x, Num y => ext_eqb x y
  | Name s, Name t => String.eqb s t
  | Missing, Missing => true
  | _, _ => false
  end.

Section Dataset.
  (** The numbers in the arrays. *)
  Variable cell : Type.
  Variable nan : cell.
  Variable cell_add : cell -> cell -> cell.
  (** The order of the labels of a coordinate: sorted, or in the order of the dofs in the bodies. *)
  Variable arrange : column -> list value -> list value.

  (** A result: its class, its problem, its radiating dof and the dictionaries of its coefficients. *)
  Record res := Res { s_kind : pkind; s_problem : problem; s_dof : option string; s_cell : quantity -> string -> cell }.
  (** A row of the dataframe: a result and an influenced dof. *)
  Definition row := (res * string)%type.
  Definition influenced_dofs (s : res) : list string :=
    match p_body (s_problem s) with Some b => map fst (b_dofs b) | None => [] end.
  Definition records (s : res) : result (list row) :=
    match s_kind s with
    | Generic => Err AttributeError
    | _ => Ok (map (fun dof => (s, dof)) (influenced_dofs s))
    end.
  (** [_asdict]. *)
  Definition column_of (r : row) (c : column) : value :=
    let p := s_problem (fst r) in
    match c with
    | BodyName => Name (match p_body p with Some b => b_name b | None => "None" end)
    | WaterDepth => Num (p_depth p)
    | FreeSurface => Num (p_fs p)
    | COmega => Num (ffloat (f_omega (p_freqs p)))
    | EncounterOmega => Num (ffloat (f_omega (p_enc p)))
    | CPeriod => Num (ffloat (f_period (p_freqs p)))
    | CWavelength => Num (ffloat (f_wavelength (p_freqs p)))
    | CWavenumber => Num (ffloat (f_wavenumber (p_freqs p)))
    | ForwardSpeed => Num (Fin (p_speed p))
    | WaveDirection => Num (Fin (p_dir p))
    | EncounterWaveDirection => Num (Fin (p_enc_dir p))
    | Rho => Num (Fin (p_rho p))
    | Gravity => Num (Fin (p_g p))
    | RadiatingDof => match s_dof (fst r) with Some d => Name d | None => Missing end
    | InfluencedDof => Name (snd r)
    end.
  Definition cell_of (r : row) (q : quantity) : cell := s_cell (fst r) q (snd r).

  (** A dataset: the labels of its dimensions, its scalar coordinates, and its arrays; the last dimension of an array runs
      first. *)
  Record dset (V X : Type) := DSet {
    d_coords : list (column * list value);
    d_scalars : list (column * value);
    d_vars : list (V * (list column * list X)) }.
  Arguments DSet {V X}. Arguments d_coords {V X}. Arguments d_scalars {V X}. Arguments d_vars {V X}.

  Fixpoint list_eqb (l l' : list value) : bool :=
    match l, l' with
    | [], [] => true
    | x :: l, y :: l' => value_eqb x y && list_eqb l l'
    | _, _ => false
    end.
  Definition key (index : list column) (r : row) : list value := map (column_of r) index.
  (** [drop_duplicates]: the first of the rows with the same key is kept. *)
  Fixpoint drop_duplicates (index : list column) (seen : list (list value)) (rows : list row) : list row :=
    match rows with
    | [] => []
    | r :: rows' =>
      if existsb (list_eqb (key index r)) seen then drop_duplicates index seen rows'
      else r :: drop_duplicates index (key index r :: seen) rows'
    end.
  Fixpoint unique (l : list value) : list value :=
    match l with
    | [] => []
    | x :: l' => x :: filter (fun y => negb (value_eqb x y)) (unique l')
    end.
  Fixpoint product (ls : list (list value)) : list (list value) :=
    match ls with
    | [] => [[]]
    | l :: ls' => flat_map (fun x => map (cons x) (product ls')) l
    end.
  Definition mem (c : column) (l : list column) : bool := existsb (column_beq c) l.
  Definition labels_in (coords : list (column * list value)) (c : column) : list value :=
    match find (fun cl => column_beq c (fst cl)) coords with Some (_, l) => l | None => [] end.

  (** [_dataset_from_dataframe], lines 228-254: [to_xarray] fills the missing combinations with nan; [_squeeze_dimensions],
      lines 218-225, only changes the shape. *)
  Definition from_dataframe {V X} (get : row -> V -> X) (missing : X) (rows : list row) (vars : list V) (dims optional : list column)
      : dset V X :=
    let index := optional ++ dims in
    let rows' := drop_duplicates index [] rows in
    let coords := map (fun c => (c, arrange c (unique (map (fun r => column_of r c) rows')))) index in
    let squeezed c := (mem c optional && Nat.eqb (List.length (labels_in coords c)) 1)%bool in
    let value v labels := match find (fun r => list_eqb (key index r) labels) rows' with Some r => get r v | None => missing end in
    {| d_coords := filter (fun cl => negb (squeezed (fst cl))) coords;
       d_scalars := map (fun c => (c, hd Missing (labels_in coords c))) (filter squeezed index);
       d_vars := map (fun v => (v, (filter (fun c => negb (squeezed c)) index, map (value v) (product (map (labels_in coords) index))))) vars |}.

  (** Selection of the value with the given labels, by [.sel]. *)
  Fixpoint position (x : value) (l : list value) : option nat :=
    match l with
    | [] => None
    | y :: l' => if value_eqb x y then Some O else option_map S (position x l')
    end.
  Fixpoint flat_position (ls : list (list value)) (labels : list value) : option nat :=
    match ls, labels with
    | [], [] => Some O
    | l :: ls', x :: labels' =>
      match position x l, flat_position ls' labels' with
      | Some i, Some j => Some (i * List.length (product ls') + j)%nat
      | _, _ => None
      end
    | _, _ => None
    end.
  Definition at_labels {X} (coords : list (column * list value)) (dims : list column) (xs : list X) (labels : list value) : option X :=
    match flat_position (map (labels_in coords) dims) labels with
    | Some i => nth_error xs i
    | None => None
    end.
  Definition find_var {X} (q : quantity) (ds : dset quantity X) : option (list column * list X) :=
    option_map snd (find (fun v => quantity_beq q (fst v)) (d_vars ds)).
  Definition sel {X} (ds : dset quantity X) (q : quantity) (s : column -> value) : result X :=
    match find_var q ds with
    | None => Err KeyError
    | Some (dims, xs) =>
      match at_labels (d_coords ds) dims xs (map s dims) with Some x => Ok x | None => Err KeyError end
    end.

  (** [xr.merge] of two datasets with different variables: the labels of the dimensions are united, the arrays are completed
      with nan. A scalar coordinate is forgotten when the other dataset has a dimension with this name; different scalar
      coordinates are refused by a [MergeError], which is a [ValueError]. *)
  Definition merge_labels {V X} (a b : dset V X) (c : column) : list value :=
    let la := labels_in (d_coords a) c in
    let lb := labels_in (d_coords b) c in
    if negb (mem c (map fst (d_coords a))) then lb else if negb (mem c (map fst (d_coords b))) then la
    else if list_eqb la lb then la else arrange c (unique (la ++ lb)).
  Definition reindex {X} (missing : X) (old new : list (column * list value)) (dims : list column) (xs : list X) : list X :=
    map (fun labels => match at_labels old dims xs labels with Some x => x | None => missing end) (product (map (labels_in new) dims)).
  Definition xmerge {V X} (missing : X) (a b : dset V X) : result (dset V X) :=
    let dims := map fst (d_coords a) ++ filter (fun c => negb (mem c (map fst (d_coords a)))) (map fst (d_coords b)) in
    let coords := map (fun c => (c, merge_labels a b c)) dims in
    let scalars d := filter (fun cs => negb (mem (fst cs) dims)) (d_scalars d) in
    let redo d := map (fun v => (fst v, (fst (snd v), reindex missing (d_coords d) coords (fst (snd v)) (snd (snd v))))) (d_vars d) in
    if forallb (fun ca => forallb (fun cb => negb (column_beq (fst ca) (fst cb)) || value_eqb (snd ca) (snd cb))%bool (scalars b)) (scalars a)
    then Ok {| d_coords := coords;
               d_scalars := scalars a ++ filter (fun cs => negb (mem (fst cs) (map fst (scalars a)))) (scalars b);
               d_vars := redo a ++ redo b |}
    else Err ValueError.

  (** [Counter(...).most_common(1)], line 347: the first met in case of a tie. *)
  Definition count (t : freq_type) (l : list freq_type) : nat := List.length (filter (freq_type_beq t) l).
  Fixpoint most_common_from (best : freq_type) (candidates l : list freq_type) : freq_type :=
    match candidates with
    | [] => best
    | t :: c => most_common_from (if Nat.ltb (count best l) (count t l) then t else best) c l
    end.
  Definition freq_column (t : freq_type) : column :=
    match t with Omega => COmega | Period => CPeriod | Wavenumber => CWavenumber | Wavelength => CWavelength end.
  Definition is_kind (k : pkind) (r : row) : bool := match s_kind (fst r), k with Radiation, Radiation | Diffraction, Diffraction => true | _, _ => false end.

  Definition optional_dims : list column := [Gravity; Rho; BodyName; WaterDepth; ForwardSpeed].
  Definition empty_set {V X} : dset V X := DSet [] [] [].
  (** The assembled dataset; the coordinates depending on dimensions, which are the other frequencies and the encounter
      frequency and direction, are kept apart. They are not aligned on the labels of the dataset here. *)
  Record assembled := Assembled { a_main : freq_type; a_data : dset quantity cell; a_coords : list (column * dset quantity value) }.
  Definition coordinate (rows : list row) (c : column) (dims optional : list column) : column * dset quantity value :=
    (c, from_dataframe (fun r _ => column_of r c) Missing rows [CoordinateValue] dims optional).
  (** [dataset['excitation_force'] = dataset['Froude_Krylov_force'] + dataset['diffraction_force']], line 391; both arrays
      have the same dimensions. *)
  Definition add_excitation (ds : dset quantity cell) : dset quantity cell :=
    match find_var FroudeKrylovForce ds, find_var DiffractionForce ds with
    | Some (dims, xs), Some (_, ys) =>
      {| d_coords := d_coords ds; d_scalars := d_scalars ds;
         d_vars := d_vars ds ++ [(ExcitationForce, (dims, map2 cell_add xs ys))] |}
    | _, _ => ds
    end.
  (** [assemble_dataset], lines 312-491, with the default values of the arguments. *)
  Definition assemble_dataset (results : list res) : result assembled :=
    match results with
    | [] => Err ValueError
    | s0 :: _ =>
      bind (mapM records results) (fun rows0 =>
      let types := map (fun s => f_type (p_freqs (s_problem s))) results in
      let main := most_common_from (f_type (p_freqs (s_problem s0))) types types in
      let m := freq_column main in
      let rows := filter (fun r => value_eqb (column_of r FreeSurface) (Num (Fin 0))) (List.concat rows0) in
      let radiation := filter (is_kind Radiation) rows in
      let diffraction := filter (is_kind Diffraction) rows in
      bind (match radiation with
            | [] => Ok empty_set
            | _ => xmerge nan empty_set (from_dataframe cell_of nan radiation [AddedMass; RadiationDamping]
                     [m; RadiatingDof; InfluencedDof] (optional_dims ++ [WaveDirection]))
            end) (fun ds =>
      bind (match diffraction with
            | [] => Ok ds
            | _ => bind (xmerge nan ds (from_dataframe cell_of nan diffraction [DiffractionForce; FroudeKrylovForce]
                     [m; WaveDirection; InfluencedDof] optional_dims)) (fun ds => Ok (add_excitation ds))
            end) (fun ds =>
      let long := match main with Wavelength | Wavenumber => true | _ => false end in
      let depend short := if Bool.eqb long short then [] else [Gravity; WaterDepth] in
      let other t short := if freq_type_beq main t then [] else [coordinate rows (freq_column t) [m] (depend short)] in
      let moving := negb (forallb (fun r => value_eqb (column_of r ForwardSpeed) (Num (Fin 0))) rows) in
      Ok {| a_main := main; a_data := ds;
            a_coords := other Omega false ++ other Period false ++ other Wavenumber true ++ other Wavelength true
              ++ (if moving then [coordinate rows EncounterOmega [ForwardSpeed; WaveDirection; m] [Gravity; WaterDepth];
                                  coordinate rows EncounterWaveDirection [ForwardSpeed; WaveDirection; m] []] else []) |})))
    end.
End Dataset.
