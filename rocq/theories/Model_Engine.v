(** Model of the assembly of the influence matrices (bem/engines.py) and of the
    evaluation of the potential on a mesh (bem/solver.py).

    Simplifications:
    - the Green function is a parameter [G]: the coefficients of S and K (or D) for a pair of faces,
      as functions of the data read by the Fortran code (libDelhommeau/src/matrices.f90:97-271): the
      corners and the properties of the two faces, and whether it is the interaction of a face with itself
      (line 105). The frequency, the depth and the direct or indirect formulation are fixed. The
      exceptions raised by [evaluate] itself (free surface panels, nan) are not modelled;
    - the quadrature method is the default one (the points and weights are the centers and areas);
    - [same] tells that the two meshes are the same Python object. A part of a mesh is supposed to be
      stored only once in it, and two different meshes do not share parts;
    - the adaptive cross approximation (modelled in Model_LowRank.v) is a parameter [aca];
    - the cache of [build_matrices] (modelled in Model_Cache.v) and the cache of [diameter_of_nodes]
      are left out. *)
From Coq Require Import Reals List Bool ZArith Arith.
From Verif Require Import Model_Base Model_Ring Model_Block Model_Geometry Model_Mesh Model_Quality Model_Tree.
Import ListNotations.
Open Scope nat_scope.

(** The data of a face: corners, area, normal, center and radius. *)
Record panel := Panel { pn_corners : quad; pn_props : fprops }.
Definition panel_of (tri : bool) (q : quad) : panel := Panel q (props_of tri q).
Definition mesh_panels (m : mesh) : result (list panel) :=
  mapM (fun f => bind (face_points (m_vertices m) f) (fun q => Ok (panel_of (is_tri f) q))) (m_faces m).
(** The faces of a collection, collections.py:152-186. *)
Fixpoint t_panels (t : tree) : result (list panel) :=
  match t with
  | Leaf m => mesh_panels m
  | Node _ l => bind (sequence (map t_panels l)) concatenate
  end.

(** Applying a function to the elements of a list and their positions. *)
Section Mapi.
  Context {X Y : Type}.
  Variable f : nat -> X -> Y.
  Fixpoint mapi_from (k : nat) (l : list X) : list Y :=
    match l with [] => [] | x :: l' => f k x :: mapi_from (S k) l' end.
End Mapi.
Definition mapi {X Y} (f : nat -> X -> Y) (l : list X) : list Y := mapi_from f 0 l.

Section Engine.
Context {A : coeffs}.
Notation mat := (mat A).
Variable G : bool -> panel -> panel -> A * A.

(** [green_function.evaluate], delhommeau.py:364-399 and matrices.f90:97-271: the matrices S and K between
    two lists of faces. *)
Definition coefficient (same : bool) (ps1 ps2 : list panel) (i j : nat) : option (A * A) :=
  match nth_error ps1 i, nth_error ps2 j with
  | Some p, Some q => Some (G (same && (i =? j)) p q)
  | _, _ => None
  end.
Definition dense (same : bool) (ps1 ps2 : list panel) (proj : A * A -> A) : mat :=
  Dense (length ps1) (length ps2)
    (fun i j => match coefficient same ps1 ps2 i j with Some x => proj x | None => junk end).
Definition evaluate (same : bool) (t1 t2 : tree) : result (mat * mat) :=
  bind (t_panels t1) (fun ps1 => bind (t_panels t2) (fun ps2 =>
  Ok (dense same ps1 ps2 fst, dense same ps1 ps2 snd))).

(** A block matrix given by the list of its stored blocks, for S and for K. *)
Definition line (l : list mat) (_ k : nat) : mat := nth k l (Bad IndexError).
Definition structured (c : cls) (l : list (mat * mat)) : mat * mat :=
  (mk c 1 (length l) (line (map fst l)), mk c 1 (length l) (line (map snd l))).
Definition array (ls : list (list mat)) (i j : nat) : mat := nth j (nth i ls []) (Bad IndexError).
Definition width_of {X} (ls : list (list X)) : nat := match ls with [] => 0 | l :: _ => length l end.
Definition block_matrix (ls : list (list (mat * mat))) : mat * mat :=
  (mk Model_Block.Plain (length ls) (width_of ls) (array (map (map fst) ls)),
   mk Model_Block.Plain (length ls) (width_of ls) (array (map (map snd) ls))).

(** [BasicMatrixEngine.build_matrices], engines.py:94-136. *)
Fixpoint basic_matrices (same : bool) (t1 t2 : tree) {struct t1} : result (mat * mat) :=
  match t1, t2 with
  | Node (Reflection p) l1, Node (Reflection q) l2 =>
    if plane_eqb p q then
      match l1 with
      | [] => Err IndexError
      | x1 :: _ =>
        match l2 with
        | a2 :: b2 :: _ =>
          bind (basic_matrices same x1 a2) (fun A =>
          bind (basic_matrices false x1 b2) (fun B =>
          Ok (structured SymToeplitz [A; B])))
        | [a2] => bind (basic_matrices same x1 a2) (fun _ => Err IndexError)
        | [] => Err IndexError
        end
      end
    else evaluate same t1 t2
  | _, _ => evaluate same t1 t2
  end.

(** ** HierarchicalToeplitzMatrixEngine._build_matrices, engines.py:191-330 *)

Variable argsort : list R -> list nat.
Variable ACA_distance : R.
(** [LowRankMatrix.from_rows_and_cols_functions_with_multi_ACA] applied to the functions giving a row and a
    column of S and K. [None]: [NoConvergenceOfACA]. *)
Variable aca : (nat -> result (mat * mat)) -> (nat -> result (mat * mat)) -> nat -> nat -> result (option (mat * mat)).

(** [diameter_of_nodes], meshes.py:281-290 and collections.py:205-208: twice the largest distance to the
    mean of the nodes. *)
Definition diameter_of_nodes (t : tree) : result R :=
  bind (t_merged argsort t) (fun m =>
  match mean_point (m_vertices m) with
  | None => Err ValueError
  | Some c => Ok (2 * fold_right Rmax 0 (map (fun v => norm (vsub v c)) (m_vertices m)))%R
  end).
(** Line 269. The distance is nan when one of the meshes has no node. *)
Definition far (t1 t2 : tree) : result bool :=
  bind (diameter_of_nodes t1) (fun d1 =>
  let further d := match t_center t1, t_center t2 with
                   | Some c1, Some c2 => Rltb (ACA_distance * d) (norm (vsub c1 c2))
                   | _, _ => false
                   end in
  if further d1 then Ok true else bind (diameter_of_nodes t2) (fun d2 => Ok (further d2))).
(** Lines 273-287. *)
Definition one_row (t1 t2 : tree) (i : nat) : result (mat * mat) :=
  bind (t_extract_one_face t1 (Z.of_nat i)) (fun m => evaluate false (Leaf m) t2).
Definition one_col (t1 t2 : tree) (j : nat) : result (mat * mat) :=
  bind (t_extract_one_face t2 (Z.of_nat j)) (fun m => evaluate false t1 (Leaf m)).

Fixpoint hierarchical_matrices (same : bool) (t1 t2 : tree) {struct t1} : result (mat * mat) :=
  (* II) lines 301-330 *)
  let not_sparse (_ : unit) :=
    match t1, t2 with
    | Node _ l1, Node _ l2 =>
      bind (sequence (mapi (fun i x1 =>
              sequence (mapi (fun j x2 => hierarchical_matrices (same && (i =? j)) x1 x2) l2)) l1))
           (fun ls => Ok (block_matrix ls))
    | _, _ => evaluate same t1 t2
    end in
  (* I-ii) lines 267-296 *)
  let with_aca (_ : unit) :=
    bind (far t1 t2) (fun b =>
    if b : bool then
      bind (aca (one_row t1 t2) (one_col t1 t2) (t_nb_faces t1) (t_nb_faces t2)) (fun o =>
      match o with Some r => Ok r | None => not_sparse tt end)
    else not_sparse tt) in
  (* I-i) lines 216-265 *)
  match t1, t2 with
  | Node (Reflection p) l1, Node (Reflection q) l2 =>
    if plane_eqb p q then
      match l1 with
      | [] => Err IndexError
      | x1 :: _ =>
        match l2 with
        | a2 :: b2 :: _ =>
          bind (hierarchical_matrices same x1 a2) (fun A =>
          bind (hierarchical_matrices false x1 b2) (fun B =>
          Ok (structured SymToeplitz [A; B])))
        | [a2] => bind (hierarchical_matrices same x1 a2) (fun _ => Err IndexError)
        | [] => Err IndexError
        end
      end
    else with_aca tt
  | Node (Translation u _) l1, Node (Translation v _) l2 =>
    if vec_allclose u v && (length l1 =? length l2) then
      match l1 with
      | [] => Err IndexError
      | x1 :: others1 =>
        bind (sequence (mapi (fun j x2 => hierarchical_matrices (same && (0 =? j)) x1 x2) l2)) (fun upper =>
        match l2 with
        | [] => Err IndexError
        | x2 :: _ =>
          bind (sequence (rev (map (fun y1 => hierarchical_matrices false y1 x2) others1))) (fun lower =>
          Ok (structured Toeplitz (upper ++ lower)))
        end)
      end
    else with_aca tt
  | Node (Axial a) l1, Node (Axial b) l2 =>
    if axis_eqb a b && (length l1 =? length l2) then
      match l1 with
      | [] => Err IndexError
      | x1 :: _ =>
        bind (sequence (mapi (fun j x2 => hierarchical_matrices (same && (0 =? j)) x1 x2) l2)) (fun blocks =>
        Ok (structured Circulant blocks))
      end
    else with_aca tt
  | _, _ => with_aca tt
  end.

(** ** BEMSolver.get_potential_on_mesh, solver.py:478-534 *)

(** [engine.build_S_matrix] (engines.py:25-45) followed by the product with the sources. The number of
    sources is the number of faces of the second mesh. *)
Variable build : bool -> tree -> tree -> result (mat * mat).
Variable fuel : nat.
Definition potential_of (mesh1 mesh2 : tree) (sources : nat -> A) : result (nat -> A) :=
  bind (build false mesh1 mesh2) (fun sk => matvec fuel (fst sk) sources).
(** [list(range(a, b))]. *)
Definition zrange (a b : nat) : list Z := map Z.of_nat (seq a (b - a)).
(** [range(0, n, step)] for a positive step. *)
Definition starts (n step : nat) : list nat := map (fun k => k * step) (seq 0 ((n + step - 1) / step)).
(** [phi[i:i+chunk] = values]; [None] is a value that has not been written yet. *)
Definition set_slice (phi : nat -> option A) (i chunk : nat) (values : nat -> A) : nat -> option A :=
  fun k => if (i <=? k) && (k <? i + chunk) then Some (values (k - i)) else phi k.
Definition extract_part (t : tree) (ids : list Z) : result mesh :=
  match t with
  | Leaf m => bind (extract_faces m ids) (fun r => Ok (fst r))
  | Node _ _ => bind (t_extract_faces argsort t ids) (fun r => Ok (fst r))
  end.
Definition get_potential_on_mesh (mesh1 mesh2 : tree) (sources : option (nat -> A)) (chunk_size : Z)
  : result (nat -> option A) :=
  match sources with
  | None => Err OtherException
  | Some sources =>
    let n := t_nb_faces mesh1 in
    if (Z.of_nat n <? chunk_size)%Z then
      bind (potential_of mesh1 mesh2 sources) (fun phi => Ok (fun k => Some (phi k)))
    else if (chunk_size =? 0)%Z then Err ValueError
    else if (chunk_size <? 0)%Z then Ok (fun _ => None)
    else
      let chunk := Z.to_nat chunk_size in
      fold_left (fun acc i =>
        bind acc (fun phi =>
        bind (extract_part mesh1 (zrange i (Nat.min (i + chunk) n))) (fun part =>
        bind (potential_of (Leaf part) mesh2 sources) (fun values =>
        Ok (set_slice phi i chunk values))))) (starts n chunk) (Ok (fun _ => None))
  end.
End Engine.
