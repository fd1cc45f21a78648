(** Vocabulary of the properties of bodies that refer to mesh objects. *)
From Coq Require Import Reals.
From Coq Require Import List Bool Arith.
From Verif Require Import Model_Base Model_Bodies.
Import ListNotations.
Open Scope nat_scope.

Section Spec.
  Variable face_type estimate_type : Type.
  Notation world := (world face_type estimate_type).
  Notation op := (op face_type).
  Notation content := (content face_type).
  Variable perform : world -> op -> option (world * output face_type estimate_type).

  (** The faces of the mesh of a body, and of its lid. *)
  Definition hull (w : world) (x : hbody) : content := nth (hb_mesh x) (heap w) [].
  Definition lid (w : world) (x : hbody) : option content :=
    match hb_lid x with None => None | Some l => Some (nth l (heap w) []) end.
  Definition lid_faces (w : world) (x : hbody) : content := match lid w x with None => [] | Some c => c end.

  (** [reaches os w]: the operations [os], from nothing, lead to [w]. *)
  Inductive reaches : list op -> world -> Prop :=
  | reach_nil : reaches [] empty_world
  | reach_step os w o w' out : reaches os w -> perform w o = Some (w', out) -> reaches (os ++ [o]) w'.

  (** The transformations leave a mesh without faces empty. *)
  Definition neutral (o : op) : Prop :=
    match o with TransformMesh _ f | MoveBody _ f | ClipBody _ f => f [] = [] | _ => True end.
  Definition assignment (o : op) : Prop := match o with SetMesh _ _ | SetLid _ _ => True | _ => False end.
  (** The mesh and the lid of the bodies are only assigned before [mesh_including_lid] is read for the first time. *)
  Definition assigned_first (os : list op) : Prop :=
    forall p o q, os = p ++ o :: q -> assignment o -> forall b, ~ In (WholeMesh b) p.

  Definition uses (x : hbody) (m : nat) : Prop := hb_mesh x = m \/ hb_lid x = Some m.
  (** The operation modifies in place an object of the body number b, or gives it another mesh or lid. *)
  Definition disturbs (w : world) (o : op) (b : nat) (x : hbody) : Prop :=
    match o with
    | NewBody m _ => uses x m (** healed in place *)
    | TransformMesh m _ => uses x m
    | MoveBody b' _ | ClipBody b' _ => exists y m, nth_error (bodies w) b' = Some y /\ uses y m /\ uses x m
    | SetMesh b' _ | SetLid b' _ => b' = b
    | _ => False
    end.
  (** Nothing disturbs a body after its estimate has been asked for. *)
  Definition undisturbed (os : list op) : Prop :=
    forall p o q w b g x, os = p ++ o :: q -> reaches p w -> In (Estimate b g) p -> nth_error (bodies w) b = Some x -> ~ disturbs w o b x.

  (** A mesh object is given to at most one body. *)
  Definition not_shared (os : list op) : Prop :=
    forall p o q w, os = p ++ o :: q -> reaches p w -> ~ assignment o /\ forall m l b x, o = NewBody m l -> nth_error (bodies w) b = Some x -> ~ uses x m.
End Spec.
Arguments hull {face_type estimate_type}. Arguments lid {face_type estimate_type}. Arguments lid_faces {face_type estimate_type}.
Arguments reaches {face_type estimate_type}. Arguments neutral {face_type}. Arguments assignment {face_type}. Arguments assigned_first {face_type}.
Arguments disturbs {face_type estimate_type}. Arguments undisturbed {face_type estimate_type}. Arguments not_shared {face_type estimate_type}.
(** The body number b has the same mesh and lid objects in both worlds, with the same faces. *)
Definition unchanged_body {face_type estimate_type} (w w' : world face_type estimate_type) (b : nat) (x : hbody) : Prop :=
  exists x', nth_error (bodies w') b = Some x' /\ hb_mesh x' = hb_mesh x /\ hb_lid x' = hb_lid x /\ hull w' x' = hull w x /\ lid w' x' = lid w x.
