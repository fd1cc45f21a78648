(** Model of the files of results of io/legacy.py: [write_dataset_as_tecplot_files], lines 225-258, and [export_hydrostatics] with its writer,
    lines 261-316.

    A disk is a function from paths to the content of files (Model_Nemoh.v): creating the directories is not modelled, and the directory of the
    results is assumed to exist. A file opened for writing is emptied; when an exception is raised, it keeps what was written before. *)
From Coq Require Import Reals String Ascii.
From Coq Require Import List Bool ZArith Arith.
From Verif Require Import Model_Base Model_Geometry Model_Problem Model_Solver Model_Text Model_Files Model_Nemoh Model_Dataset.
Import ListNotations.
Open Scope nat_scope.

(** The successive arguments of [fi.write], until the first exception: the content of the file and the exception. *)
Fixpoint emit (l : list (result text)) : text * option pyexn :=
  match l with
  | [] => ([], None)
  | Ok t :: l' => let '(u, e) := emit l' in (t ++ u, e)
  | Err e :: _ => ([], Some e)
  end.

Section Tecplot.
  Variable cell : Type.
  Variable cell_add : cell -> cell -> cell.
  (** The formats [{:e}] of a coefficient and of a frequency, [str] of a wave direction, and the functions [np.abs] and [np.angle]. *)
  Variable show_cell : cell -> text.
  Variable show_freq : value -> text.
  Variable show_dir : value -> text.
  Variable modulus : cell -> cell.
  Variable argument : cell -> cell.

  Definition has_var (q : quantity) (ds : dset quantity cell) : bool := match find_var q ds with Some _ => true | None => false end.
  (** The labels of a coordinate met by a loop. A coordinate that is not a dimension cannot be used in a selection: [data.omega] always is a
      coordinate of an assembled dataset, and [.sel(omega=...)] raises a [KeyError] when it is not a dimension. Simplification: the text written
      between the beginning of the loop and this exception is forgotten. *)
  Definition loop_labels (ds : dset quantity cell) (c : column) : result (list value) :=
    if mem c (map fst (d_coords _ _ ds)) then Ok (labels_in (d_coords _ _ ds) c) else Err KeyError.
  (** [.sel(...).values] with labels for some dimensions, written in the format [e]: a label for something else than a dimension is refused, and an
      array that still has a dimension cannot be formatted. *)
  Definition picked (ds : dset quantity cell) (q : quantity) (labels : list (column * value)) : result cell :=
    match find_var q ds with
    | None => Err KeyError
    | Some (dims, _) =>
      if negb (forallb (fun cv => mem (fst cv) dims) labels) then Err KeyError
      else if negb (forallb (fun c => mem c (map fst labels)) dims) then Err TypeError
      else sel ds q (fun c => match find (fun cv => column_beq c (fst cv)) labels with Some (_, v) => v | None => Missing end)
    end.
  Definition shown (r : result cell) : result text := bind r (fun x => Ok (show_cell x)).
  (** [f'{dof.values}'] *)
  Definition dof_text (v : value) : text := match v with Name s => lit s | _ => lit "nan" end.
  Definition dots : result text := Ok (line (lit "...")).
  Definition gap : result text := Ok (lit "  ").

  (** The file of the added masses and dampings, lines 228-241. *)
  Definition radiation_items (ds : dset quantity cell) : list (result text) :=
    match loop_labels ds RadiatingDof with
    | Err e => [Err e]
    | Ok rads =>
      repeat dots (List.length rads + 1) ++
      flat_map (fun dof =>
        Ok (line (dof_text dof)) ::
        match loop_labels ds COmega with
        | Err e => [Err e]
        | Ok omegas =>
          flat_map (fun o =>
            Ok (lit "  " ++ show_freq o ++ lit "  ") ::
            match loop_labels ds InfluencedDof with
            | Err e => [Err e]
            | Ok infl => flat_map (fun dof2 =>
                let at_ := [(COmega, o); (RadiatingDof, dof); (InfluencedDof, dof2)] in
                [shown (picked ds AddedMass at_); gap; shown (picked ds RadiationDamping at_); gap]) infl
            end ++ [Ok [newline]]) omegas
        end) rads
    end.
  (** The file of the forces, lines 245-258: modulus and phase. *)
  Definition excitation_items (ds : dset quantity cell) : list (result text) :=
    match loop_labels ds InfluencedDof with
    | Err e => [Err e]
    | Ok infl =>
      repeat dots (List.length infl + 1) ++
      match loop_labels ds WaveDirection with
      | Err e => [Err e]
      | Ok dirs =>
        flat_map (fun b =>
          Ok (line (lit "angle=" ++ show_dir b)) ::
          match loop_labels ds COmega with
          | Err e => [Err e]
          | Ok omegas =>
            flat_map (fun o =>
              Ok (lit "  " ++ show_freq o ++ lit "  ") ::
              flat_map (fun dof =>
                let val := picked ds ExcitationForce [(COmega, o); (WaveDirection, b); (InfluencedDof, dof)] in
                [shown (bind val (fun x => Ok (modulus x))); gap; shown (bind val (fun x => Ok (argument x))); gap]) infl ++ [Ok [newline]]) omegas
          end) dirs
      end
    end.
  (** [data['excitation_force'] = data['Froude_Krylov_force'] + data['diffraction_force']], line 244, in the dataset of the caller; both arrays have
      the same dimensions. *)
  Definition set_excitation (ds : dset quantity cell) : result (dset quantity cell) :=
    match find_var FroudeKrylovForce ds, find_var DiffractionForce ds with
    | Some (dims, xs), Some (_, ys) =>
      Ok (DSet _ _ (d_coords _ _ ds) (d_scalars _ _ ds)
            (filter (fun v => negb (quantity_beq ExcitationForce (fst v))) (d_vars _ _ ds) ++ [(ExcitationForce, (dims, map2 cell_add xs ys))]))
    | _, _ => Err KeyError
    end.

  Definition radiation_name : text := lit "RadiationCoefficients.tec".
  Definition excitation_name : text := lit "ExcitationForce.tec".
  (** [write_dataset_as_tecplot_files]: the disk and the dataset of the caller afterwards, or the exception. *)
  Definition write_tecplot (dir : text) (ds : dset quantity cell) (d : disk) : disk * result (dset quantity cell) :=
    let '(d1, e1) :=
      if has_var AddedMass ds then let '(t, e) := emit (radiation_items ds) in (write_file (path_join dir radiation_name) t d, e) else (d, None) in
    match e1 with
    | Some e => (d1, Err e)
    | None =>
      if has_var DiffractionForce ds then
        match set_excitation ds with
        | Err e => (d1, Err e)
        | Ok ds' =>
          let '(t, e) := emit (excitation_items ds') in
          (write_file (path_join dir excitation_name) t d1, match e with Some e => Err e | None => Ok ds' end)
        end
      else (d1, Ok ds)
    end.
End Tecplot.

(** ** Hydrostatics *)

Section Hydrostatics.
  (** The formats [{:7.4f}] and [{:1.6E}] (also [%1.6E]). *)
  Variable show_length : R -> text.
  Variable show_e : R -> text.

  (** The quantities of a body: its centre of buoyancy and its volume are computed from the mesh; [None] for a centre of mass or a stiffness that was
      not given. *)
  Record hydro := Hydro { h_buoyancy : vec; h_mass : option vec; h_volume : R; h_stiffness : option (list (list R)) }.
  Definition row_of_matrix (l : list R) : text :=
    match l with [] => [newline] | x :: l' => show_e x ++ List.concat (map (fun y => lit " " ++ show_e y) l') ++ [newline] end.
  (** [_hydrostatics_writer], lines 261-270: the disk and the exception. *)
  Definition write_hydrostatics (file kh_file : text) (b : hydro) (d : disk) : disk * option pyexn :=
    match h_mass b with
    | None => (write_file file [] d, Some TypeError)
    | Some g =>
      let one (x : vec -> R) := line (lit "XF = " ++ show_length (x (h_buoyancy b)) ++ lit " - XG = " ++ show_length (x g) ++ lit " ") in
      let d1 := write_file file (one vx ++ one vy ++ one vz ++ lit "Displacement = " ++ show_e (h_volume b)) d in
      match h_stiffness b with
      | None => (d1, Some AttributeError)
      | Some k => (write_file kh_file (List.concat (map row_of_matrix k)) d1, None)
      end
    end.
  (** [export_hydrostatics], lines 273-312, given a list of bodies: one body alone has no number in the names of its files. *)
  Fixpoint write_all (dir : text) (i : nat) (bodies : list hydro) (d : disk) : disk * option pyexn :=
    match bodies with
    | [] => (d, None)
    | b :: bodies' =>
      let '(d1, e) := write_hydrostatics (path_join dir (lit "Hydrostatics_" ++ dec (Z.of_nat i) ++ lit ".dat"))
                        (path_join dir (lit "KH_" ++ dec (Z.of_nat i) ++ lit ".dat")) b d in
      match e with Some x => (d1, Some x) | None => write_all dir (S i) bodies' d1 end
    end.
  Definition export_hydrostatics (dir : text) (bodies : list hydro) (d : disk) : disk * option pyexn :=
    match bodies with
    | [b] => write_hydrostatics (path_join dir (lit "Hydrostatics.dat")) (path_join dir (lit "KH.dat")) b d
    | _ => write_all dir 0 bodies d
    end.
End Hydrostatics.
