(** The equation of motion of a floating body. *)
From Coq Require Import Reals String List Bool Arith.
From Coquelicot Require Import Complex.
From Verif Require Import Model_Base Model_Ring Spec_Ring Model_Rao.
Import ListNotations.
Open Scope R_scope.

Section Spec.
  Context {P : Type}.
  Definition given (m : option (string -> string -> R)) (r i : string) : R := match m with Some f => f r i | None => 0 end.
  (** The coefficient of the motion of the dof [r] in the force on the dof [i]: for the frequency w, the mass and added mass
      times -w^2, plus the stiffnesses, minus i w times the dampings. *)
  Definition motion_coefficient (d : dataset P) (m k : P -> string -> string -> R) (dissipation stiffness : option (string -> string -> R))
    (p : P) (r i : string) : C :=
    let w := match ds_encounter_omega _ d with Some e => e p | None => ds_omega _ d p end in
    (- w ^ 2 * (m p r i + ds_added_mass _ d p r i) + k p r i + given stiffness r i,
     - w * (ds_damping _ d p r i + given dissipation r i)).
  (** The motions [x] (for the dofs in the order of the list) balance the forces [f]. *)
  Definition equation_of_motion (dofs : list string) (h : string -> string -> C) (f : string -> C) (x : list C) : Prop :=
    length x = length dofs
    /\ forall i, In i dofs -> fold_right Cplus (RtoC 0) (map (fun jx => Cmult (h (fst jx) i) (snd jx)) (combine dofs x)) = f i.
  Definition symmetric_on (dofs : list string) (m : string -> string -> R) : Prop :=
    forall r i, In r dofs -> In i dofs -> m r i = m i r.
End Spec.
