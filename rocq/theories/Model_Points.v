(** Model of the lists of points given to the post-processing functions
    (tools/lists_of_points.py), and of the functions evaluated at these points
    (bem/airy_waves.py and bem/solver.py). Exact real numbers instead of floats. *)
From Coq Require Import Reals.
From Coquelicot Require Import Complex.
From Coq Require Import List Bool Arith.
From Verif Require Import Model_Base Model_Mesh Model_Problem Model_Tree.
Import ListNotations.
Open Scope R_scope.

(** ** numpy arrays: the shape and the elements in row-major order *)
Record ndarray (A : Type) := Array { shape : list nat; elements : list A }.
Arguments Array {A}.
Arguments shape {A}.
Arguments elements {A}.

(** The number of elements of an array of the given shape. *)
Definition size_of (sh : list nat) : nat := fold_right Nat.mul 1%nat sh.
(** [a.reshape(sh)]. *)
Definition reshape {A} (a : ndarray A) (sh : list nat) : result (ndarray A) :=
  if Nat.eqb (size_of sh) (length (elements a)) then Ok (Array sh (elements a)) else Err ValueError.
(** [a.reshape(d, -1)]. *)
Definition reshape_rows {A} (a : ndarray A) (d : nat) : result (ndarray A) :=
  if Nat.eqb d 0 then Err ValueError
  else if Nat.eqb (length (elements a) mod d) 0 then Ok (Array [d; length (elements a) / d]%nat (elements a)) else Err ValueError.
(** [a.transpose()] of a matrix; the axes of the other arrays are not transposed in this code. *)
Definition transpose {A} (a : ndarray A) : result (ndarray A) :=
  match shape a with
  | [n; m] => bind (mapM (fun ij => get (elements a) (snd ij * m + fst ij)) (list_prod (seq 0 m) (seq 0 n))) (fun l => Ok (Array [m; n] l))
  | _ => Err OtherException
  end.
(** [np.concatenate([a, np.zeros((a.shape[0], 1))], axis=1)] for a matrix with two columns. *)
Fixpoint zero_column (l : list R) : list R :=
  match l with x :: y :: l' => x :: y :: 0 :: zero_column l' | _ => [] end.
(** [x, y, z = a.T] for a matrix: the points, if there are three columns. *)
Fixpoint triples (l : list R) : list vec :=
  match l with x :: y :: z :: l' => V x y z :: triples l' | _ => [] end.
Definition columns_xyz (a : ndarray R) : result (list vec) :=
  match shape a with [_; 3%nat] => Ok (triples (elements a)) | _ => Err ValueError end.
(** An array of shape (n,), and an array of shape (n, 3). *)
Definition vector {A} (l : list A) : ndarray A := Array [length l] l.
Definition matrix3 (l : list (C * C * C)) : ndarray C :=
  Array [length l; 3%nat] (flat_map (fun v => let '(a, b, c) := v in [a; b; c]) l).
Definition centers_array (cs : list vec) : ndarray R := Array [length cs; 3%nat] (flat_map (fun p => [vx p; vy p; vz p]) cs).

(** ** tools/lists_of_points.py *)

(** The argument of the functions: a body, a free surface, a mesh or a collection, given by its mesh, or something that
    [np.asarray] turns into an array. [own] tells that the mesh is the object that supports the sources ([mesh1 is mesh2] in
    delhommeau.py:389). *)
Inductive points_arg := OnObject (t : tree) (own : bool) | Coordinates (a : ndarray R).
(** The normalised points: a mesh that has been kept, or an array. *)
Inductive normalized := KeptMesh (t : tree) (own : bool) | PointsArray (a : ndarray R).
Definition faces_centers (t : tree) : result (list vec) := bind (t_props t) (fun ps => Ok (map p_center ps)).

(** [_normalize_points], lists_of_points.py:7-39. *)
Definition normalize_points (points : points_arg) (keep_mesh : bool) : result (normalized * list nat) :=
  match points with
  | OnObject t own =>
    if keep_mesh then Ok (KeptMesh t own, [t_nb_faces t])
    else bind (faces_centers t) (fun cs => Ok (PointsArray (centers_array cs), [t_nb_faces t]))
  | Coordinates a =>
    match shape a with
    | [] => Err ValueError
    | [d] => bind (reshape a [1%nat; d]) (fun b => Ok (PointsArray b, [1%nat]))
    | [n; _] => Ok (PointsArray a, [n])
    | d :: out => bind (reshape_rows a d) (fun b => bind (transpose b) (fun c => Ok (PointsArray c, out)))
    end
  end.
(** [_normalize_free_surface_points], lists_of_points.py:41-53. *)
Definition normalize_free_surface_points (points : points_arg) (keep_mesh : bool) : result (normalized * list nat) :=
  bind (normalize_points points keep_mesh) (fun r =>
  match r with
  | (PointsArray a, out) =>
    match shape a with
    | [n; 2%nat] => Ok (PointsArray (Array [n; 3%nat] (zero_column (elements a))), out)
    | _ => Ok (PointsArray a, out)
    end
  | kept => Ok kept
  end).
(** The argument of a second call. *)
Definition again (p : normalized) : points_arg := match p with KeptMesh t own => OnObject t own | PointsArray a => Coordinates a end.

(** ** bem/airy_waves.py *)
Definition array_points (p : normalized) : result (list vec) :=
  match p with PointsArray a => columns_xyz a | KeptMesh _ _ => Err OtherException end.
(** [airy_waves_potential], lines 8-39: the value at one point is [airy_potential] (Model_Problem). *)
Definition airy_waves_potential (points : points_arg) (w : wave) : result (ndarray C) :=
  bind (normalize_points points false) (fun r => bind (array_points (fst r)) (fun ps =>
  reshape (vector (map (airy_potential w) ps)) (snd r))).
(** [airy_waves_velocity], lines 42-78. *)
Definition airy_waves_velocity (points : points_arg) (w : wave) : result (ndarray C) :=
  bind (normalize_points points false) (fun r => bind (array_points (fst r)) (fun ps =>
  reshape (matrix3 (map (airy_velocity w) ps)) (snd r ++ [3%nat]))).
Definition scale_array (k : C) (a : ndarray C) : ndarray C := Array (shape a) (map (Cmult k) (elements a)).
(** [airy_waves_pressure], lines 81-82. *)
Definition airy_waves_pressure (points : points_arg) (w : wave) : result (ndarray C) :=
  bind (airy_waves_potential points w) (fun a => Ok (scale_array (Ci * RtoC (w_omega w) * RtoC (w_rho w))%C a)).
(** [airy_waves_free_surface_elevation], lines 89-106. *)
Definition airy_waves_free_surface_elevation (points : points_arg) (w : wave) : result (ndarray C) :=
  bind (normalize_free_surface_points points false) (fun r => bind (airy_waves_potential (again (fst r)) w) (fun a =>
  bind (reshape a (snd r)) (fun b => Ok (scale_array (Ci * RtoC (w_omega w) / RtoC (w_g w))%C b)))).

(** ** bem/solver.py *)
Section Postprocessing.
  (** The integrals of the Green function and of its gradient over the panel number j, seen from a point, without the
      term of the diagonal. *)
  Variable green : vec -> nat -> C.
  Variable grad : vec -> nat -> C * C * C.
  (** The panels that support the sources ([result.body.mesh_including_lid]). *)
  Variable panels2 : list fprops.
  (** The errors of [evaluate] that do not depend on the points (delhommeau.py:358-375). *)
  Variable ready : result unit.

  (** The fields of [LinearPotentialFlowResult] used here. *)
  Record solved := Solved {
    sources : option (nat -> C); forward_speed : R; s_omega : R; encounter_omega : R; s_rho : R; s_g : R }.

  Definition c3_add (a b : C * C * C) : C * C * C :=
    let '(a1, a2, a3) := a in let '(b1, b2, b3) := b in (Cplus a1 b1, Cplus a2 b2, Cplus a3 b3).
  Definition c3_scale (k : C) (a : C * C * C) : C * C * C := let '(a1, a2, a3) := a in (Cmult k a1, Cmult k a2, Cmult k a3).
  Definition c3_of (v : vec) : C * C * C := (RtoC (vx v), RtoC (vy v), RtoC (vz v)).
  Definition c3_0 : C * C * C := (RtoC 0, RtoC 0, RtoC 0).
  (** matrices.f90:108-122: the term of the diagonal, when the points are on the panels themselves; [n] is the normal of the face. *)
  Definition diagonal (i j : nat) (n : vec) (f : fprops) : C * C * C :=
    if Nat.eqb i j then c3_scale (RtoC (if Rltb (Rabs (vz (p_center f))) (/ 100000000) then 1 else 1 / 2)) (c3_of n) else c3_0.

  (** [_get_colocation_points_and_normals], abstract_green_function.py:15-40, for the adjoint double layer: the points, and the
      normals when they belong to the panels of the sources. *)
  Definition colocation (p : normalized) : result (list (vec * option vec)) :=
    match p with
    | KeptMesh t own => bind (t_props t) (fun ps => Ok (map (fun f => (p_center f, if own then Some (p_normal f) else None)) ps))
    | PointsArray a =>
      match shape a with [_; 3%nat] => Ok (map (fun p => (p, None)) (triples (elements a))) | _ => Err ValueError end
    end.
  Definition mapi {X Y} (f : nat -> X -> Y) (l : list X) : list Y := map (fun kx => f (fst kx) (snd kx)) (combine (seq 0 (length l)) l).
  (** [S @ sources], solver.py:376. *)
  Definition potential_at (s : nat -> C) (p : vec) : C := Csum (mapi (fun j _ => Cmult (green p j) (s j)) panels2).
  (** [np.einsum('ijk,j->ik', gradG, sources)], solver.py:390. *)
  Definition gradient_at (s : nat -> C) (i : nat) (pn : vec * option vec) : C * C * C :=
    fold_right c3_add c3_0 (mapi (fun j f =>
      c3_scale (s j) (c3_add (match snd pn with Some n => diagonal i j n f | None => c3_0 end) (grad (fst pn) j))) panels2).

  (** [compute_potential], solver.py:349-377. *)
  Definition compute_potential (points : points_arg) (r : solved) : result (ndarray C) :=
    bind (normalize_points points true) (fun q =>
    match sources r with
    | None => Err OtherException
    | Some s => bind ready (fun _ => bind (colocation (fst q)) (fun ps =>
                reshape (vector (map (fun pn => potential_at s (fst pn)) ps)) (snd q)))
    end).
  (** [_compute_potential_gradient], solver.py:379-391. *)
  Definition compute_potential_gradient (points : points_arg) (r : solved) : result (ndarray C) :=
    bind (normalize_points points true) (fun q =>
    match sources r with
    | None => Err OtherException
    | Some s => bind ready (fun _ => bind (colocation (fst q)) (fun ps =>
                reshape (matrix3 (mapi (gradient_at s) ps)) (snd q ++ [3%nat])))
    end).
  (** [a[..., 0]] of an array whose last dimension is 3, and [a[..., 0] -= u]. *)
  Fixpoint first_components (l : list C) : list C :=
    match l with x :: _ :: _ :: l' => x :: first_components l' | _ => [] end.
  Fixpoint add_first (u : C) (l : list C) : list C :=
    match l with x :: y :: z :: l' => Cplus x u :: y :: z :: add_first u l' | _ => l end.
  (** [compute_velocity], solver.py:393-415. *)
  Definition compute_velocity (points : points_arg) (r : solved) : result (ndarray C) :=
    bind (compute_potential_gradient points r) (fun a =>
    if Reqb (forward_speed r) 0 then Ok a else Ok (Array (shape a) (add_first (Copp (RtoC (forward_speed r))) (elements a)))).
  (** [a + k * b[..., 0]]: the sum of the potential and of the first component of its gradient, with coefficients. *)
  Definition combined (k1 : C) (a : ndarray C) (k2 : C) (b : ndarray C) : ndarray C :=
    Array (shape a) (map (fun xy => Cplus (Cmult k1 (fst xy)) (Cmult k2 (snd xy))) (combine (elements a) (first_components (elements b)))).
  (** [compute_pressure], solver.py:417-442. *)
  Definition compute_pressure (points : points_arg) (r : solved) : result (ndarray C) :=
    if Reqb (forward_speed r) 0 then
      bind (compute_potential points r) (fun a => Ok (scale_array (Ci * RtoC (s_omega r) * RtoC (s_rho r))%C a))
    else
      bind (compute_potential points r) (fun a => bind (compute_potential_gradient points r) (fun b =>
      Ok (combined (Ci * RtoC (encounter_omega r) * RtoC (s_rho r))%C a (RtoC (s_rho r * forward_speed r)) b))).
  (** [compute_free_surface_elevation], solver.py:445-474. *)
  Definition compute_free_surface_elevation (points : points_arg) (r : solved) : result (ndarray C) :=
    bind (normalize_free_surface_points points true) (fun q =>
    bind (if Reqb (forward_speed r) 0 then
            bind (compute_potential (again (fst q)) r) (fun a => Ok (scale_array (RtoC (- 1 / s_g r) * (Copp Ci * RtoC (s_omega r)))%C a))
          else
            bind (compute_potential (again (fst q)) r) (fun a => bind (compute_potential_gradient (again (fst q)) r) (fun b =>
            Ok (combined (RtoC (- 1 / s_g r) * (Copp Ci * RtoC (encounter_omega r)))%C a (RtoC (- 1 / s_g r * forward_speed r)) b))))
         (fun e => reshape e (snd q))).
End Postprocessing.
