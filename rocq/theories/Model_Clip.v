(** Model of the clipping of meshes by a plane (meshes/clipper.py,
    meshes/meshes.py:602-608, meshes/collections.py:271-279) and of bodies
    (bodies/bodies.py:1010-1030).

    Simplifications:
    - floats are real numbers;
    - the three masks of [_vertices_positions_wrt_plane] are read from the distances, of which they are
      functions;
    - the boundary edges collected by [_clip_crown] are never used and are left out. *)
From Coq Require Import Reals List Bool ZArith Arith.
From Verif Require Import Model_Base Model_Geometry Model_Mesh Model_Quality Model_Tree.
Import ListNotations.
Open Scope nat_scope.

(** [_vertices_positions_wrt_plane], clipper.py:70-79. A distance equal to plus or minus the tolerance is in
    none of the three classes. *)
Inductive side := Above | On | Below | Neither.
Definition side_of (tol d : R) : side :=
  if Rltb tol d then Above else if Rltb (Rabs d) tol then On else if Rltb d (- tol) then Below else Neither.
Definition is_above (s : side) : bool := match s with Above => true | _ => false end.
Definition is_on (s : side) : bool := match s with On => true | _ => false end.
Definition is_below (s : side) : bool := match s with Below => true | _ => false end.
Definition count (test : side -> bool) (l : list side) : nat := length (filter test l).

(** [np.roll(face, -k)]. *)
Definition rolled {A} (k : nat) (l : list A) : list A := skipn k l ++ firstn k l.
(** The first and the second elements of [np.where(mask)[0]]. *)
Definition first_of (test : side -> bool) (l : list side) : nat := nth 0 (positions test l) 0.
Definition adjacent_firsts (test : side -> bool) (l : list side) : bool :=
  match positions test l with i :: j :: _ => j =? i + 1 | _ => false end.
Definition second_of (test : side -> bool) (l : list side) : nat := nth 1 (positions test l) 0.

Section Crown.
  Variable p : plane.
  Variable vs : list vec.       (* vertices *)
  Variable ds : list R.         (* vertices_distances *)
  Variable tol : R.

  (** [plane.get_edge_intersection] between two vertices. The branch without result (an edge parallel to the
      plane) is not reached, see [crossing_exists] in Proofs_Clip. *)
  Definition crossing (i j : nat) : result vec :=
    bind (get vs i) (fun a => bind (get vs j) (fun b => bind (edge_intersection p a b) (fun o =>
    match o with Some x => Ok x | None => Err OtherException end))).
  (** [vertices_distances[i] < 0.] *)
  Definition lower (i : nat) : result bool := bind (get ds i) (fun d => Ok (Rltb d 0)).

  (** One iteration of the loop of [_clip_crown], clipper.py:144-449: the new faces and the new vertices, whose
      numbers start at [n]. The face has three corners if it is a triangle. *)
  Definition clip_face (n : nat) (corners : list nat) : result (list face * list vec) :=
    bind (mapM (get ds) corners) (fun dists =>
    let sides := map (side_of tol) dists in
    match count is_above sides, count is_on sides, count is_below sides with
    (* 156-171 *)
    | 2, 0, 2 =>
      match (if adjacent_firsts is_above sides then rolled (second_of is_above sides) corners else corners) with
      | [f0; f1; f2; f3] =>
        bind (crossing f0 f1) (fun left => bind (crossing f2 f3) (fun right =>
        Ok ([F n f1 f2 (n + 1)], [left; right])))
      | _ => Err ValueError
      end
    (* 173-192 *)
    | 3, 0, 1 =>
      match rolled (first_of is_below sides) corners with
      | [f0; f1; _; f3] =>
        bind (crossing f0 f3) (fun left => bind (crossing f0 f1) (fun right =>
        Ok ([F n f0 (n + 1) n], [left; right])))
      | _ => Err IndexError
      end
    (* 194-215 *)
    | 1, 0, 3 =>
      match rolled (first_of is_above sides) corners with
      | [f0; f1; f2; f3] =>
        bind (crossing f0 f1) (fun left => bind (crossing f0 f3) (fun right =>
        Ok ([F n f1 f3 (n + 1); F f1 f2 f3 f1], [left; right])))
      | _ => Err IndexError
      end
    (* 217-231 *)
    | 1, 0, 2 =>
      match rolled (first_of is_above sides) corners with
      | [f0; f1; f2] =>
        bind (crossing f0 f1) (fun left => bind (crossing f0 f2) (fun right =>
        Ok ([F n f1 f2 (n + 1)], [left; right])))
      | _ => Err ValueError
      end
    (* 233-247 *)
    | 2, 0, 1 =>
      match rolled (first_of is_below sides) corners with
      | [f0; f1; f2] =>
        bind (crossing f0 f2) (fun left => bind (crossing f0 f1) (fun right =>
        Ok ([F n f0 (n + 1) n], [left; right])))
      | _ => Err ValueError
      end
    (* 249-274 *)
    | 2, 1, 1 =>
      match rolled (first_of is_on sides) corners with
      | [f0; f1; f2; f3] =>
        bind (lower f1) (fun low =>
        if low : bool then bind (crossing f1 f2) (fun right => Ok ([F f0 f1 n f0], [right]))
        else bind (crossing f2 f3) (fun left => Ok ([F n f3 f0 n], [left])))
      | _ => Err IndexError
      end
    (* 276-299 *)
    | 1, 1, 2 =>
      match rolled (first_of is_on sides) corners with
      | [f0; f1; f2; f3] =>
        bind (lower f1) (fun low =>
        if low : bool then bind (crossing f2 f3) (fun right => Ok ([F f0 f1 f2 n], [right]))
        else bind (crossing f1 f2) (fun left => Ok ([F n f2 f3 f0], [left])))
      | _ => Err IndexError
      end
    (* 301-311: the face is kept *)
    | 0, 1, 3 => match corners with [f0; f1; f2; f3] => Ok ([F f0 f1 f2 f3], []) | _ => Err ValueError end
    (* 313-320 *)
    | 2, 1, 0 | 3, 1, 0 => Ok ([], [])
    (* 322-345 *)
    | 1, 1, 1 =>
      match rolled (first_of is_on sides) corners with
      | f0 :: f1 :: f2 :: _ =>
        bind (lower f1) (fun low =>
        if low : bool then bind (crossing f1 f2) (fun right => Ok ([F f0 f1 n f0], [right]))
        else bind (crossing f1 f2) (fun left => Ok ([F n f2 f0 n], [left])))
      | _ => Err IndexError
      end
    (* 347-356 *)
    | 1, 2, 0 => Ok ([], [])
    (* 358-369: a face of four corners would get a fifth one and be refused by the constructor *)
    | 0, 2, 1 =>
      match rolled (first_of is_below sides) corners with
      | [f0; f1; f2] => Ok ([F f0 f1 f2 f0], [])
      | _ => Err ValueError
      end
    (* 371-380 *)
    | 0, 2, 2 =>
      match (if adjacent_firsts is_on sides then rolled (second_of is_on sides) corners else corners) with
      | [f0; f1; f2; f3] => Ok ([F f0 f1 f2 f3], [])
      | _ => Err ValueError
      end
    (* 382-392 *)
    | 0, 1, 2 => match corners with [f0; f1; f2] => Ok ([F f0 f1 f2 f0], []) | _ => Err ValueError end
    (* 394-404 *)
    | 2, 2, 0 => Ok ([], [])
    (* 406-418 *)
    | 1, 2, 1 =>
      match rolled (first_of is_above sides) corners with
      | [f0; f1; f2; f3] => Ok ([F f1 f2 f3 f1], [])
      | _ => Err IndexError
      end
    (* 420-426 *)
    | 3, 0, 0 | 4, 0, 0 => Ok ([], [])
    (* 428-437 *)
    | 0, 0, 3 => match corners with [f0; f1; f2] => Ok ([F f0 f1 f2 f0], []) | _ => Err ValueError end
    (* 439-446 *)
    | 0, 0, 4 => match corners with [f0; f1; f2; f3] => Ok ([F f0 f1 f2 f3], []) | _ => Err ValueError end
    (* 448-450 *)
    | 0, 3, 0 | 0, 4, 0 => Ok ([], [])
    (* 452-453 *)
    | _, _, _ => Err OtherException
    end).

  (** The loop: the new faces with the number of the face they come from, and the new vertices. *)
  Fixpoint clip_faces (n k : nat) (fs : list face) : result (list (face * nat) * list vec) :=
    match fs with
    | [] => Ok ([], [])
    | f :: fs' =>
      bind (clip_face n (if is_tri f then [fa f; fb f; fc f] else face_ids f)) (fun r =>
      bind (clip_faces (n + length (snd r)) (S k) fs') (fun r' =>
      Ok (map (fun g => (g, k)) (fst r) ++ fst r', snd r ++ snd r')))
    end.
  (** [_clip_crown], clipper.py:120-465. [ids] are the numbers of the faces of the crown in the source mesh. *)
  Definition clip_crown (fs : list face) (ids : list nat) : result (mesh * list nat) :=
    bind (clip_faces (length vs) 0 fs) (fun r =>
    bind (build_mesh (vs ++ snd r) (map fst (fst r))) (fun m =>
    bind (mapM (fun g => get ids (snd g)) (fst r)) (fun labels => Ok (m, labels)))).
End Crown.

Section Clip.
  Variable argsort : list R -> list nat.

  (** [_partition_mesh], clipper.py:82-117: the faces of each of the three parts. *)
  Definition four (test : side -> bool) (sides : list side) (f : face) : result bool :=
    bind (mapM (get sides) (face_ids f)) (fun l => Ok (count test l =? 4)).
  Definition partition_ids (sides : list side) (fs : list face) : result (list nat * list nat * list nat) :=
    bind (mapM (four is_above sides) fs) (fun above =>
    bind (mapM (four is_below sides) fs) (fun below =>
    Ok (positions (fun b => b) above,
        positions (fun b => negb (fst b || snd b)) (combine above below),
        positions (fun b => b) below))).

  (** [clip], clipper.py:17-67, with the default tolerance of [remove_degenerated_faces]: the mesh and the numbers of the
      faces in the source mesh. *)
  Definition finish (m : mesh) : result mesh := bind (remove_unused m) (remove_degenerated (/ 100000)).
  Definition clip (p : plane) (tol : R) (m : mesh) : result (mesh * list nat) :=
    let ds := map (distance_to_point p) (m_vertices m) in
    let sides := map (side_of tol) ds in
    if count is_above sides =? nb_vertices m then bind (finish (Mesh [] [])) (fun m' => Ok (m', []))
    else if count (fun s => is_below s || is_on s) sides =? nb_vertices m then
      bind (finish m) (fun m' => Ok (m', seq 0 (nb_faces m)))
    else
      bind (partition_ids sides (m_faces m)) (fun ids =>
      let '(up, mid, low) := ids in
      bind (extract_faces m (map Z.of_nat up)) (fun _ =>
      bind (extract_faces m (map Z.of_nat mid)) (fun crown =>
      bind (extract_faces m (map Z.of_nat low)) (fun lower =>
      if 0 <? nb_faces (fst crown) then
        bind (mapM (get ds) (snd crown)) (fun ds' =>
        bind (clip_crown p (m_vertices (fst crown)) ds' tol (m_faces (fst crown)) mid) (fun r =>
        bind (t_merged argsort (Node Plain [Leaf (fst lower); Leaf (fst r)])) (fun m' =>
        bind (finish m') (fun m'' => Ok (m'', low ++ snd r)))))
      else bind (finish (fst lower)) (fun m'' => Ok (m'', low)))))).

  (** [Mesh.clip] with the default tolerance, and [CollectionOfMeshes.clip], collections.py:271-279. *)
  Definition vicinity : R := (/ 1000000000000)%R.
  Fixpoint t_clip (p : plane) (t : tree) : result (tree * list nat) :=
    match t with
    | Leaf m => bind (clip p vicinity m) (fun r => Ok (Leaf (fst r), snd r))
    | Node k l =>
      bind (sequence (map (t_clip p) l)) (fun rs =>
      let shifts := map (fun i => list_sum (map t_nb_faces (firstn i l))) (seq 0 (length l)) in
      Ok (Node k (prune (map fst rs)),
          concat (map (fun sr => map (fun i => i + fst sr) (snd (snd sr))) (combine shifts rs))))
    end.

  (** [FloatingBody.clip], bodies.py:1010-1030: the mesh, the lid and the dofs (a list of rows for each name). *)
  Record clipped_body := Body { cb_mesh : tree; cb_lid : option tree; cb_dofs : list (nat * list vec) }.
  Definition body_clip (p : plane) (b : clipped_body) : result clipped_body :=
    if negb (forallb (fun d => length (snd d) =? t_nb_faces (cb_mesh b)) (cb_dofs b)) then Err ValueError else
    bind (t_clip p (cb_mesh b)) (fun r =>
    bind (match cb_lid b with
          | None => Ok None
          | Some lid => bind (t_clip p lid) (fun l => Ok (if t_nb_faces (fst l) =? 0 then None else Some (fst l)))
          end) (fun lid =>
    bind (mapM (fun d => bind (mapM (get (snd d)) (snd r)) (fun rows => Ok (fst d, rows))) (cb_dofs b)) (fun dofs =>
    Ok (Body (fst r) lid dofs)))).
End Clip.
