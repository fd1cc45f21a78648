(** Vocabulary of the properties of collections and symmetric meshes. *)
From Coq Require Import Reals List Bool ZArith Arith.
From Verif Require Import Model_Base Model_Geometry Model_Mesh Spec_Mesh Model_Tree.
Import ListNotations.
Open Scope R_scope.

(** The meshes of a collection, in order. *)
Fixpoint leaves (t : tree) : list mesh :=
  match t with Leaf m => [m] | Node _ l => concat (map leaves l) end.
(** No collection without any part. *)
Inductive filled : tree -> Prop :=
| filled_leaf m : filled (Leaf m)
| filled_node k l : l <> [] -> (forall x, In x l -> filled x) -> filled (Node k l).
Definition all_valid (t : tree) : Prop := forall m, In m (leaves t) -> valid m.
(** The number of faces (and vertices) of the meshes before the k-th one. *)
Fixpoint faces_before (ms : list mesh) (k : nat) : nat :=
  match ms, k with
  | m :: ms', S k' => (length (m_faces m) + faces_before ms' k')%nat
  | _, _ => 0%nat
  end.
(** One mesh with all the faces of a list of meshes, in the same order. *)
Definition gathers (ms : list mesh) (w : mesh) : Prop :=
  valid w
  /\ m_vertices w = concat (map m_vertices ms)
  /\ nb_faces w = list_sum (map nb_faces ms)
  /\ forall k m r a b c d, nth_error ms k = Some m -> face_is m r a b c d ->
       face_is w (faces_before ms k + r) a b c d.
(** The part of a tree reached by a path. *)
Fixpoint follow (t : tree) (path : list nat) : option tree :=
  match path with
  | [] => Some t
  | i :: rest =>
    match t with
    | Leaf _ => None
    | Node _ l => match nth_error l i with Some x => follow x rest | None => None end
    end
  end.
(** The same polygon, starting from another corner. *)
Definition same_polygon (p q : vec * vec * vec * vec) : Prop :=
  let '(a, b, c, d) := p in q = (a, b, c, d) \/ q = (b, c, d, a) \/ q = (c, d, a, b) \/ q = (d, a, b, c).

(** The parts of each symmetric mesh of the tree are the images of its first
    part by the symmetry it stores; the plane is vertical and the translation is
    horizontal. *)
Inductive symmetric : tree -> Prop :=
| sym_leaf m : symmetric (Leaf m)
| sym_plain l : (forall x, In x l -> symmetric x) -> symmetric (Node Plain l)
| sym_reflection p half other : symmetric half -> vz (pl_normal p) = 0 -> t_mirror half p = Ok other ->
    symmetric (Node (Reflection p) [half; other])
| sym_translation v ints slice n : symmetric slice -> vz v = 0 -> (1 <= n)%nat ->
    symmetric (Node (Translation v ints) (slice :: map (fun i => t_translate slice (vscale (INR i) v)) (seq 1 n)))
| sym_axial a slice n : symmetric slice -> (1 <= n)%nat ->
    symmetric (Node (Axial a) (slice :: map (fun i => t_rotate slice a (2 * INR i * PI / (INR n + 1))) (seq 1 n))).
(** The symmetries stored in a tree. *)
Fixpoint kinds (t : tree) : list kind :=
  match t with Leaf _ => [] | Node k l => k :: concat (map kinds l) end.
(** No reflection symmetric mesh inside an axisymmetric mesh. *)
Inductive unmixed : tree -> Prop :=
| unmixed_leaf m : unmixed (Leaf m)
| unmixed_node k l : (forall x, In x l -> unmixed x) ->
    (forall a, k = Axial a -> forall x p, In x l -> ~ In (Reflection p) (kinds x)) -> unmixed (Node k l).
(** The position of the plane along its normal is not negative. *)
Definition positive_plane (p : plane) : Prop := 0 <= dot (pl_normal p) (pl_point p).
Definition vertical_axis (a : axis) : Prop := proper_axis a /\ vx (ax_vector a) = 0 /\ vy (ax_vector a) = 0.
(** The polygon [a' b' c' d'] is the polygon [a b c d], maybe starting from another corner, up to a distance
    [tol] on each coordinate of each corner. *)
Definition near (tol : R) (u v : vec) : Prop :=
  Rabs (vx u - vx v) <= tol /\ Rabs (vy u - vy v) <= tol /\ Rabs (vz u - vz v) <= tol.
Definition near_polygon (tol : R) (p q : vec * vec * vec * vec) : Prop :=
  exists a b c d a' b' c' d', p = (a, b, c, d) /\ same_polygon (a', b', c', d') q
    /\ near tol a a' /\ near tol b b' /\ near tol c c' /\ near tol d d'.
