(** Partial derivatives of complex functions of a point, from Coquelicot. *)
From Coq Require Import Reals.
From Coquelicot Require Import Coquelicot.
From Verif Require Import Model_Base Model_Problem.
Open Scope R_scope.

Definition c_derive (f : R -> C) (x : R) (d : C) : Prop :=
  is_derive (fun t => fst (f t)) x (fst d) /\ is_derive (fun t => snd (f t)) x (snd d).
Definition partial_x (f : vec -> C) (p : vec) (d : C) : Prop :=
  c_derive (fun t => f (V t (vy p) (vz p))) (vx p) d.
Definition partial_y (f : vec -> C) (p : vec) (d : C) : Prop :=
  c_derive (fun t => f (V (vx p) t (vz p))) (vy p) d.
Definition partial_z (f : vec -> C) (p : vec) (d : C) : Prop :=
  c_derive (fun t => f (V (vx p) (vy p) t)) (vz p) d.

Definition is_gradient (f : vec -> C) (p : vec) (v : C * C * C) : Prop :=
  let '(a, b, c) := v in partial_x f p a /\ partial_y f p b /\ partial_z f p c.

(** The divergence of the field [v] at [p]. *)
Definition has_divergence (v : vec -> C * C * C) (p : vec) (d : C) : Prop :=
  exists dx dy dz, partial_x (fun q => fst (fst (v q))) p dx
    /\ partial_y (fun q => snd (fst (v q))) p dy
    /\ partial_z (fun q => snd (v q)) p dz
    /\ d = Cplus (Cplus dx dy) dz.
