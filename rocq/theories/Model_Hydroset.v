(** Model of [hydrostatics_dataset], io/xarray.py:257-268: the matrices of hydrostatics of several bodies in a dataset. *)
From Coq Require Import String Ascii Reals List Bool Arith.
From Verif Require Import Model_Base Model_Problem Model_Solver Model_Dataset.
Import ListNotations.
Open Scope nat_scope.

Section Hydroset.
  Variable cell : Type.
  Variable nan : cell.
  Variable arrange : column -> list value -> list value.

  (** A matrix with labels, the [DataArray] made by [compute_hydrostatic_stiffness] and [compute_rigid_body_inertia], bodies/bodies.py:503-573
      and 575-683: the influenced dofs of its lines, the radiating dofs of its columns, its values line by line. *)
  Record lmatrix := LMatrix { m_infl : list value; m_rad : list value; m_values : list cell }.
  (** The value with these labels, and nan without it, as done by the alignment of xarray. *)
  Definition value_at (m : lmatrix) (d e : value) : cell :=
    match at_labels [(InfluencedDof, m_infl m); (RadiatingDof, m_rad m)] [InfluencedDof; RadiatingDof] (m_values m) [d; e] with
    | Some x => x
    | None => nan
    end.
  (** A body: its name and the two attributes, [None] when the body does not have the attribute. *)
  Record hbody := HBody { h_name : string; h_inertia : option lmatrix; h_stiffness : option lmatrix }.
  Definition property (q : quantity) (b : hbody) : option lmatrix :=
    match q with InertiaMatrix => h_inertia b | HydrostaticStiffness => h_stiffness b | _ => None end.

  (** The dictionary by comprehension, line 263: a name met again replaces the value and keeps the place. *)
  Fixpoint dict_set {X} (k : string) (x : X) (d : list (string * X)) : list (string * X) :=
    match d with
    | [] => [(k, x)]
    | (k', y) :: d' => if String.eqb k k' then (k', x) :: d' else (k', y) :: dict_set k x d'
    end.
  Definition by_name (q : quantity) (bodies : list hbody) : list (string * lmatrix) :=
    fold_left (fun d b => match property q b with Some m => dict_set (h_name b) m d | None => d end) bodies [].

  (** [xr.concat], line 265: the labels of the matrices are united when they differ, then [_squeeze_dimensions], line 266. *)
  Definition join_labels (c : column) (ls : list (list value)) : list value :=
    match ls with
    | [] => []
    | l :: ls' => if forallb (list_eqb l) ls' then l else arrange c (unique (List.concat ls))
    end.
  Definition concatenated (q : quantity) (l : list (string * lmatrix)) : dset quantity cell :=
    let infl := join_labels InfluencedDof (map (fun nm => m_infl (snd nm)) l) in
    let rad := join_labels RadiatingDof (map (fun nm => m_rad (snd nm)) l) in
    let values := flat_map (fun nm => flat_map (fun d => map (fun e => value_at (snd nm) d e) rad) infl) l in
    match l with
    | [(n, _)] => DSet _ _ [(InfluencedDof, infl); (RadiatingDof, rad)] [(BodyName, Name n)] [(q, ([InfluencedDof; RadiatingDof], values))]
    | _ => DSet _ _ [(BodyName, map (fun nm => Name (fst nm)) l); (InfluencedDof, infl); (RadiatingDof, rad)] []
             [(q, ([BodyName; InfluencedDof; RadiatingDof], values))]
    end.
  (** One turn of the loop, lines 262-267. *)
  Definition add_property (bodies : list hbody) (ds : dset quantity cell) (q : quantity) : result (dset quantity cell) :=
    match by_name q bodies with
    | [] => Ok ds
    | l => xmerge arrange nan ds (concatenated q l)
    end.
  (** [hydrostatics_dataset]. *)
  Definition hydrostatics_dataset (bodies : list hbody) : result (dset quantity cell) :=
    bind (add_property bodies empty_set InertiaMatrix) (fun ds => add_property bodies ds HydrostaticStiffness).
End Hydroset.
