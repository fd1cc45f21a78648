(** Model of [assemble_matrices], io/xarray.py:494-530: the bare arrays of an assembled dataset. *)
From Coq Require Import Reals String List Bool Arith.
From Verif Require Import Model_Base Model_Problem Model_Solver Model_Dataset.
Import ListNotations.
Open Scope nat_scope.

Section Matrices.
  Variable cell : Type.
  Variable nan : cell.
  Variable cell_add : cell -> cell -> cell.
  Variable arrange : column -> list value -> list value.

  (** An array of numpy: its shape and its values, the last index running first. *)
  Definition ndarray : Type := (list nat * list cell)%type.
  (** [ds.added_mass.values], if this variable is in the dataset. *)
  Definition values_of (ds : dset quantity cell) (q : quantity) : option ndarray :=
    option_map (fun v => (map (fun c => List.length (labels_in (d_coords _ _ ds) c)) (fst v), snd v)) (find_var q ds).
  (** [squeeze], [np.atleast_1d] and [np.atleast_2d] of numpy. *)
  Definition squeeze (a : ndarray) : ndarray := (filter (fun n => negb (Nat.eqb n 1)) (fst a), snd a).
  Definition atleast_1d (a : ndarray) : ndarray := match fst a with [] => ([1], snd a) | _ => a end.
  Definition atleast_2d (a : ndarray) : ndarray := match fst a with [] => ([1; 1], snd a) | [n] => ([1; n], snd a) | _ => a end.
  (** [assemble_matrices]: the added mass, the radiation damping and the excitation force. *)
  Definition assemble_matrices (results : list (res cell)) : result (option ndarray * option ndarray * option ndarray) :=
    bind (assemble_dataset cell nan cell_add arrange results) (fun a => let ds := a_data _ a in
    Ok (option_map (fun v => atleast_2d (squeeze v)) (values_of ds AddedMass),
        option_map (fun v => atleast_2d (squeeze v)) (values_of ds RadiationDamping),
        option_map (fun v => atleast_1d (squeeze v)) (values_of ds ExcitationForce))).
End Matrices.
