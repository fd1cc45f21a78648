(** Model of post_pro/impedance.py and post_pro/rao.py.

    A dataset is modelled by the values of its variables at each combination of the coordinates other than the dofs (frequency,
    wave direction, density, body...), of type [P]; xarray matches the dimensions of the arrays by their names, whatever their
    order. The matrices are functions of the radiating dof then of the influenced dof. The optional matrices given as arguments
    have the same two named dimensions. *)
From Coq Require Import Reals String List Bool Arith.
From Coquelicot Require Import Complex.
From Verif Require Import Model_Base Model_Ring Spec_Ring Model_LinSolve Model_Mesh.
Import ListNotations.
Open Scope R_scope.

Section Rao.
  Variable P : Type.
  Variable lapack : nat -> (nat -> nat -> complexes) -> (nat -> complexes) -> option (nat -> complexes).

  Record dataset := DS {
    ds_points : list P;
    ds_radiating : list string;
    ds_influenced : list string;
    ds_omega : P -> R;
    ds_encounter_omega : option (P -> R);
    ds_added_mass : P -> string -> string -> R;
    ds_damping : P -> string -> string -> R;
    ds_inertia : option (P -> string -> string -> R);
    ds_stiffness : option (P -> string -> string -> R);
    ds_excitation : option (P -> string -> C)
  }.
  (** impedance.py:37-40. *)
  Definition frequency (d : dataset) : P -> R := match ds_encounter_omega d with Some w => w | None => ds_omega d end.
  Definition jC : C := (0, 1).
  (** [rao_transfer_function], impedance.py:11-53. *)
  Definition rao_transfer_function (d : dataset) (dissipation stiffness : option (string -> string -> R))
    : result (P -> string -> string -> C) :=
    match ds_inertia d with
    | None => Err AttributeError
    | Some m =>
      match ds_stiffness d with
      | None => Err AttributeError
      | Some k =>
        let w := frequency d in
        let H p r i := Cplus (Cminus (Cmult (RtoC (- (w p * w p))) (RtoC (m p r i + ds_added_mass d p r i)))
                                     (Cmult (Cmult jC (RtoC (w p))) (RtoC (ds_damping d p r i))))
                             (RtoC (k p r i)) in
        let H1 p r i := match dissipation with
                        | None => H p r i
                        | Some b => Cminus (H p r i) (Cmult (Cmult jC (RtoC (w p))) (RtoC (b r i)))
                        end in
        Ok (fun p r i => match stiffness with None => H1 p r i | Some s => Cplus (H1 p r i) (RtoC (s r i)) end)
      end
    end.
  (** [impedance], impedance.py:56-90: the values are infinite or nan ([None]) at the frequency zero. *)
  Definition impedance (d : dataset) (dissipation stiffness : option (string -> string -> R))
    : result (P -> string -> string -> option C) :=
    bind (rao_transfer_function d dissipation stiffness) (fun H =>
    Ok (fun p r i => if Reqb (frequency d p) 0 then None
                     else Some (Cmult (Cdiv (RtoC 1) (Cmult (Copp jC) (RtoC (frequency d p)))) (H p r i)))).
  (** The label of a coordinate. *)
  Definition label (l : list string) (k : nat) : string := nth k l EmptyString.
  (** [rao], rao.py:15-62, for all the wave directions: the values at each point, in the order of the radiating dofs. The
      systems are solved by one call of numpy, which raises if one of them is singular. *)
  Definition rao (d : dataset) (dissipation stiffness : option (string -> string -> R)) : result (list (P * list C)) :=
    bind (rao_transfer_function d dissipation stiffness) (fun H =>
    match ds_excitation d with
    | None => Err AttributeError
    | Some f =>
      let nr := List.length (ds_radiating d) in
      let ni := List.length (ds_influenced d) in
      mapM (fun p =>
        bind (np_solve (A := complexes) lapack nr ni
                (fun a b => H p (label (ds_radiating d) a) (label (ds_influenced d) b)) (fun b => f p (label (ds_influenced d) b)))
             (fun x => Ok (p, map x (seq 0 nr)))) (ds_points d)
    end).
End Rao.
