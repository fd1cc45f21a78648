(** Vocabulary of the properties of the influence matrices. *)
From Coq Require Import Reals List Bool ZArith Arith.
From Verif Require Import Model_Base Model_Ring Model_Block Spec_Block Model_Geometry Model_Mesh Spec_Mesh Model_Tree Spec_Tree
  Model_Engine.
Import ListNotations.
Open Scope nat_scope.

(** The image of a face; the corners are listed backwards after a reflection. *)
Definition moved_quad (f : vec -> vec) (q : quad) : quad := Q (f (qa q)) (f (qb q)) (f (qc q)) (f (qd q)).
Definition mirrored_quad (p : plane) (q : quad) : quad :=
  Q (mirror_point p (qd q)) (mirror_point p (qc q)) (mirror_point p (qb q)) (mirror_point p (qa q)).

(** At every depth, the parts of a symmetric mesh are the images of its first part. *)
Inductive regular : tree -> Prop :=
| regular_leaf m : regular (Leaf m)
| regular_plain l : (forall x, In x l -> regular x) -> regular (Node Plain l)
| regular_reflection p half other : regular half -> regular other -> t_mirror half p = Ok other ->
    regular (Node (Reflection p) [half; other])
| regular_translation v ints slice n :
    (forall x, In x (slice :: map (fun i => t_translate slice (vscale (INR i) v)) (seq 1 n)) -> regular x) ->
    regular (Node (Translation v ints) (slice :: map (fun i => t_translate slice (vscale (INR i) v)) (seq 1 n)))
| regular_axial a slice n :
    (forall x, In x (slice :: map (fun i => t_rotate slice a (2 * INR i * PI / (INR n + 1))) (seq 1 n)) -> regular x) ->
    regular (Node (Axial a) (slice :: map (fun i => t_rotate slice a (2 * INR i * PI / (INR n + 1))) (seq 1 n))).

(** The coefficients for two faces are not changed when both faces are moved. This has to hold for the faces of a family [P]
    (for instance those that are not degenerate) that contains their images; the boolean tells that the face is stored as a triangle. *)
Definition invariant_under {A : coeffs} (P : bool -> quad -> Prop) (G : bool -> panel -> panel -> A * A) (f : quad -> quad) : Prop :=
  (forall tri q, P tri q -> P tri (f q))
  /\ forall b tri1 tri2 q1 q2, P tri1 q1 -> P tri2 q2 ->
    G b (panel_of tri1 (f q1)) (panel_of tri2 (f q2)) = G b (panel_of tri1 q1) (panel_of tri2 q2).
Definition respects {A : coeffs} (P : bool -> quad -> Prop) (G : bool -> panel -> panel -> A * A) (k : kind) : Prop :=
  match k with
  | Plain => True
  | Reflection p => proper_plane p /\ invariant_under P G (mirrored_quad p)
  | Translation v _ => invariant_under P G (moved_quad (fun x => vadd x v))
  | Axial a => proper_axis a /\ forall theta, invariant_under P G (moved_quad (rotate_point a theta))
  end.
(** Every face of the mesh belongs to the family. *)
Definition faces_in (P : bool -> quad -> Prop) (t : tree) : Prop :=
  forall m f q, In m (leaves t) -> In f (m_faces m) -> face_points (m_vertices m) f = Ok q -> P (is_tri f) q.

(** Two symmetries that the engines take for the same one, and that are indeed the same. *)
Definition taken_as_same (k1 k2 : kind) : bool :=
  match k1, k2 with
  | Reflection p, Reflection q => plane_eqb p q
  | Translation u _, Translation v _ => vec_allclose u v
  | Axial a, Axial b => axis_eqb a b
  | _, _ => false
  end.
Definition same_motion (k1 k2 : kind) : Prop :=
  match k1, k2 with
  | Reflection p, Reflection q => forall x, mirror_point p x = mirror_point q x
  | Translation u _, Translation v _ => u = v
  | Axial a, Axial b => forall theta x, rotate_point a theta x = rotate_point b theta x
  | _, _ => True
  end.
Definition coherent (ks : list kind) : Prop :=
  forall k1 k2, In k1 ks -> In k2 ks -> taken_as_same k1 k2 = true -> same_motion k1 k2.

(** Two matrices of the same shape whose full matrices have related entries. *)
Definition same_entries {A : coeffs} (rel : A -> A -> Prop) (m m0 : mat A) : Prop :=
  shape m = shape m0 /\
  exists a a0, full_matrix m = Ok a /\ full_matrix m0 = Ok a0 /\
    forall i j, i < height m -> j < width m -> exists x x0, a i j = Some x /\ a0 i j = Some x0 /\ rel x x0.
(** A low rank approximation of the matrices whose lines and columns are given has entries related to theirs. *)
Definition accurate {A : coeffs} (rel : A -> A -> Prop)
  (aca : (nat -> result (mat A * mat A)) -> (nat -> result (mat A * mat A)) -> nat -> nat -> result (option (mat A * mat A)))
  : Prop :=
  forall rows cols n1 n2 FS FK S K,
    (forall i, i < n1 -> exists r, rows i = Ok r /\ shape (fst r) = (1, n2) /\ shape (snd r) = (1, n2)
        /\ represents (fst r) (fun _ j => FS i j) /\ represents (snd r) (fun _ j => FK i j)) ->
    (forall j, j < n2 -> exists c, cols j = Ok c /\ shape (fst c) = (n1, 1) /\ shape (snd c) = (n1, 1)
        /\ represents (fst c) (fun i _ => FS i j) /\ represents (snd c) (fun i _ => FK i j)) ->
    aca rows cols n1 n2 = Ok (Some (S, K)) ->
    (wf S /\ shape S = (n1, n2) /\ exists F, represents S F /\ forall i j, i < n1 -> j < n2 -> rel (F i j) (FS i j))
    /\ (wf K /\ shape K = (n1, n2) /\ exists F, represents K F /\ forall i j, i < n1 -> j < n2 -> rel (F i j) (FK i j)).
(** A low rank approximation that answers as long as the lines and the columns can be computed. *)
Definition responsive {A : coeffs}
  (aca : (nat -> result (mat A * mat A)) -> (nat -> result (mat A * mat A)) -> nat -> nat -> result (option (mat A * mat A)))
  : Prop :=
  forall rows cols n1 n2, (forall i, i < n1 -> exists r, rows i = Ok r) -> (forall j, j < n2 -> exists c, cols j = Ok c) ->
    exists o, aca rows cols n1 n2 = Ok o.
(** Every part that is not a collection has a face. *)
Definition faced (t : tree) : Prop := forall m, In m (leaves t) -> 0 < nb_faces m.
(** A mesh or a collection without symmetries. *)
Definition unstructured (t : tree) : Prop := forall k, In k (kinds t) -> k = Model_Tree.Plain.
