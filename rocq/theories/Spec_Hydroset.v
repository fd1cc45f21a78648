(** Vocabulary of the dataset of hydrostatics. *)
From Coq Require Import String Ascii Reals List Bool Arith.
From Verif Require Import Model_Base Model_Problem Model_Solver Model_Dataset Spec_Dataset Model_Hydroset.
Import ListNotations.
Open Scope nat_scope.

Section Spec.
  Variable cell : Type.
  (** The matrix of the body for this property. *)
  Definition has (q : quantity) (b : hbody cell) (m : lmatrix cell) : Prop :=
    (q = InertiaMatrix /\ h_inertia _ b = Some m) \/ (q = HydrostaticStiffness /\ h_stiffness _ b = Some m).
  Definition lacks (q : quantity) (b : hbody cell) : Prop := forall m, ~ has q b m.
  (** The matrix has this coefficient for these dofs: influenced dof first. *)
  Definition coefficient_of (m : lmatrix cell) (d e : value) (x : cell) : Prop :=
    exists i j, nth_error (m_infl _ m) i = Some d /\ nth_error (m_rad _ m) j = Some e /\ nth_error (m_values _ m) (i * length (m_rad _ m) + j) = Some x.
  (** No dof appears twice. *)
  Definition sound (m : lmatrix cell) : Prop := NoDup (m_infl _ m) /\ NoDup (m_rad _ m).
  (** Labels for a selection in the dataset. *)
  Definition at_body (n : string) (d e : value) (c : column) : value :=
    match c with BodyName => Name n | InfluencedDof => d | RadiatingDof => e | _ => Missing end.
  Definition several (q : quantity) (bodies : list (hbody cell)) : Prop :=
    exists b b' m m', In b bodies /\ In b' bodies /\ b <> b' /\ has q b m /\ has q b' m'.
  Definition only (q : quantity) (bodies : list (hbody cell)) (n : string) : Prop :=
    exists b m, In b bodies /\ h_name _ b = n /\ has q b m /\ forall b' m', In b' bodies -> has q b' m' -> b' = b.
End Spec.
