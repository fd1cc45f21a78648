(** Vocabulary of the properties of lists of points. *)
From Coq Require Import Reals.
From Coquelicot Require Import Complex.
From Coq Require Import List Arith.
From Verif Require Import Model_Base Model_Mesh Model_Problem Model_Tree Model_Points.
Import ListNotations.
Open Scope nat_scope.

(** The array has as many elements as announced by its shape. *)
Definition wf_array {A} (a : ndarray A) : Prop := length (elements a) = fold_right Nat.mul 1 (shape a).
(** [idx] is the index of an element of an array of shape [sh]. *)
Definition index_in (sh idx : list nat) : Prop := Forall2 (fun n i => i < n) sh idx.
(** The element [a[idx]]. *)
Fixpoint position_of (sh idx : list nat) : nat :=
  match sh, idx with
  | _ :: sh', i :: idx' => i * fold_right Nat.mul 1 sh' + position_of sh' idx'
  | _, _ => 0
  end.
Definition element {A} (a : ndarray A) (idx : list nat) (x : A) : Prop :=
  index_in (shape a) idx /\ nth_error (elements a) (position_of (shape a) idx) = Some x.

(** The points described by an array: one point (x, y, z), a list of points, or a grid (x, y, z) of coordinates,
    which are themselves arrays of any shape with at least two dimensions. *)
Inductive describes : ndarray R -> list nat -> (list nat -> nat -> R -> Prop) -> Prop :=
| one_point d l : describes (Array [d] l) [1] (fun _ c x => element (Array [d] l) [c] x)
| list_of_points n d l : describes (Array [n; d] l) [n] (fun idx c x => element (Array [n; d] l) (idx ++ [c]) x)
| grid_of_points d out l : 2 <= length out -> describes (Array (d :: out) l) out (fun idx c x => element (Array (d :: out) l) (c :: idx) x).
(** The number of coordinates of the points of an array. *)
Definition dimension (a : ndarray R) (d : nat) : Prop :=
  match shape a with [n] => d = n | [_; n] => d = n | n :: _ => d = n | [] => False end.
(** The point number [idx] of the array, with three coordinates; [flat]: two coordinates are enough, the third one is zero. *)
Definition point_at (a : ndarray R) (flat : bool) (idx : list nat) (p : vec) : Prop :=
  exists out f, describes a out f /\ index_in out idx /\ f idx 0 (vx p) /\ f idx 1 (vy p)
  /\ (dimension a 3 /\ f idx 2 (vz p) \/ flat = true /\ dimension a 2 /\ vz p = 0%R).
(** The shape of the values at the points of the array. *)
Definition shape_of_points (a : ndarray R) (out : list nat) : Prop := exists f, describes a out f.
(** The array contains the values [f p] at the points, each at the place of its point. *)
Definition values_at {B} (a : ndarray R) (flat : bool) (f : vec -> B) (r : ndarray B) : Prop :=
  shape_of_points a (shape r) /\ wf_array r /\ forall idx p, point_at a flat idx p -> element r idx (f p).
(** The same for three components, in the last dimension. *)
Definition vectors_at (a : ndarray R) (f : vec -> C * C * C) (r : ndarray C) : Prop :=
  exists out, shape r = out ++ [3] /\ shape_of_points a out /\ wf_array r
  /\ forall idx p, point_at a false idx p -> let '(u, v, w) := f p in element r (idx ++ [0]) u /\ element r (idx ++ [1]) v /\ element r (idx ++ [2]) w.

(** The potential induced by the sources at a point, and its gradient. *)
Definition induced_potential (green : vec -> nat -> C) (n : nat) (s : nat -> C) (p : vec) : C :=
  Csum (map (fun j => Cmult (green p j) (s j)) (seq 0 n)).
Definition induced_gradient (grad : vec -> nat -> C * C * C) (n : nat) (s : nat -> C) (p : vec) : C * C * C :=
  (Csum (map (fun j => Cmult (s j) (fst (fst (grad p j)))) (seq 0 n)),
   Csum (map (fun j => Cmult (s j) (snd (fst (grad p j)))) (seq 0 n)),
   Csum (map (fun j => Cmult (s j) (snd (grad p j))) (seq 0 n))).
(** The dynamic pressure of the linear theory at a point, with the frequency of encounter and the forward speed. *)
Definition linear_pressure (green : vec -> nat -> C) (grad : vec -> nat -> C * C * C) (n : nat) (s : nat -> C) (r : solved) (p : vec) : C :=
  Cmult (RtoC (s_rho r)) (Cplus (Cmult (Cmult Ci (RtoC (encounter_omega r))) (induced_potential green n s p))
                                (Cmult (RtoC (forward_speed r)) (fst (fst (induced_gradient grad n s p))))).
(** Without forward speed, the frequency of encounter is the frequency (property C06). *)
Definition encounter_defined (r : solved) : Prop := forward_speed r = 0%R -> encounter_omega r = s_omega r.
