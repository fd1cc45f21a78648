(** Model of the merging of duplicate vertices (meshes/quality.py) and of the
    connected components of a mesh (meshes/properties.py). *)
From Coq Require Import Reals List Bool Arith.
From Verif Require Import Model_Base Model_Geometry Model_Mesh.
Import ListNotations.
Open Scope R_scope.

(** ** [merge_duplicate_rows], quality.py:54-144

    The array [iperm] cut at the positions [levels] is represented by the list
    of its segments. [argsort] stands for [ndarray.argsort]: a permutation that
    sorts the values (the default algorithm is not stable, so equal values may
    come in any order). *)
Section Merge.
  Variable argsort : list R -> list nat.

  (** Lines 100-106: one level, sorted along one coordinate. *)
  Definition sort_level (val : nat -> R) (level : list nat) : result (list nat) :=
    mapM (get level) (argsort (map val level)).
  (** Lines 108-115: the level is cut when the value is too far from the first
      value of the current part. *)
  Fixpoint split_level (atol : R) (val : nat -> R) (vref : R) (cur : list nat) (l : list nat) : list (list nat) :=
    match l with
    | [] => [cur]
    | i :: l' => if Rltb atol (Rabs (val i - vref))
                 then cur :: split_level atol val (val i) [i] l'
                 else split_level atol val vref (cur ++ [i]) l'
    end.
  (** Lines 97-118. *)
  Definition refine_level (atol : R) (val : nat -> R) (level : list nat) : result (list (list nat)) :=
    match level with
    | [] | [_] => Ok [level]
    | _ => bind (sort_level val level) (fun sorted =>
           match sorted with
           | [] => Ok [[]]
           | i :: _ => Ok (split_level atol val (val i) [] sorted)
           end)
    end.
  Definition refine (atol : R) (val : nat -> R) (levels : list (list nat)) : result (list (list nat)) :=
    bind (mapM (refine_level atol val) levels) (fun ls => Ok (concat ls)).
  (** Lines 129-135: the vertex kept for each level is the one at the position
      where the level starts, even if the level is empty. *)
  Fixpoint representatives (levels : list (list nat)) : result (list nat) :=
    match levels with
    | [] => Ok []
    | _ :: rest => bind (get (concat levels) 0) (fun i => bind (representatives rest) (fun is => Ok (i :: is)))
    end.
  Fixpoint level_of (levels : list (list nat)) (i : nat) : option nat :=
    match levels with
    | [] => None
    | l :: rest => if memb i l then Some 0%nat else option_map S (level_of rest i)
    end.
  Definition new_vertex_id (levels : list (list nat)) (i : nat) : nat :=
    match level_of levels i with Some k => k | None => i end.
  (** The rows kept, and the new number of each row. The coordinates of a row
      out of the array are not used. *)
  Definition coord (p : vec -> R) (vs : list vec) (i : nat) : R :=
    match nth_error vs i with Some v => p v | None => 0 end.
  Definition merge_levels (atol : R) (vs : list vec) : result (list (list nat)) :=
    bind (refine atol (coord vx vs) [seq 0 (length vs)]) (fun l1 =>
    bind (refine atol (coord vy vs) l1) (fun l2 =>
    refine atol (coord vz vs) l2)).
  Definition merge_duplicate_rows (atol : R) (vs : list vec) : result (list vec * list nat) :=
    bind (merge_levels atol vs) (fun levels =>
    bind (representatives levels) (fun reps =>
    bind (mapM (get vs) reps) (fun uniq =>
    Ok (uniq, map (new_vertex_id levels) (seq 0 (length vs)))))).

  (** [merge_duplicates], quality.py:18-51; [mesh.faces = ...] checks the faces. *)
  Definition renumber_face (new_id : list nat) (f : face) : result face :=
    bind (get new_id (fa f)) (fun a => bind (get new_id (fb f)) (fun b =>
    bind (get new_id (fc f)) (fun c => bind (get new_id (fd f)) (fun d => Ok (F a b c d))))).
  Definition merge_duplicates (atol : R) (m : mesh) : result (mesh * list nat) :=
    bind (merge_duplicate_rows atol (m_vertices m)) (fun r =>
    bind (mapM (renumber_face (snd r)) (m_faces m)) (fun fs =>
    bind (build_mesh (fst r) fs) (fun m' => Ok (m', snd r)))).
End Merge.

(** ** Connected components, properties.py:203-275 *)

(** [np.unique]: the distinct values, in increasing order. *)
Definition unique (l : list nat) : list nat := filter (fun i => memb i l) (seq 0 (S (list_max l))).
(** [faces_in_group], properties.py:203-218. *)
Definition touches (group : list nat) (f : face) : bool := existsb (fun i => memb i group) (face_ids f).
Definition faces_in_group (fs : list face) (group : list nat) : list bool := map (touches group) fs.
Definition select {A} (mask : list bool) (l : list A) : list A := map snd (filter fst (combine mask l)).
Definition vertices_of (fs : list face) : list nat := flat_map face_ids fs.

(** The loop of lines 243-247: [None] when it has not ended after [fuel] turns. *)
Fixpoint grow (fuel : nat) (fs : list face) (group : list nat) (mask : list bool) : option (list nat) :=
  match fuel with
  | O => None
  | S n => let new := faces_in_group fs group in
           if list_eq_dec Bool.bool_dec new mask then Some (unique (vertices_of (select new fs)))
           else grow n fs (unique (vertices_of (select new fs))) new
  end.
(** [clustering], lines 221-252. *)
Fixpoint cluster (fuel : nat) (fs : list face) (groups : list (list nat)) : option (list (list nat)) :=
  match filter (fun f => negb (existsb (fun g => touches g f) groups)) fs with
  | [] => Some groups
  | f :: rest =>
    match fuel with
    | O => None
    | S n =>
      match grow (S (S (length (f :: rest)))) (f :: rest) (face_ids f) (map (fun _ => true) (f :: rest)) with
      | None => None
      | Some g => cluster n fs (groups ++ [g])
      end
    end
  end.
Definition clustering (fs : list face) : option (list (list nat)) := cluster (length fs) fs [].
(** [connected_components], lines 255-268, for a mesh without cached properties.
    [None]: the loops do not end. *)
Definition connected_components (m : mesh) : option (result (list mesh)) :=
  match clustering (m_faces m) with
  | None => None
  | Some groups => Some (
    if negb (Nat.eqb (list_sum (map (@length nat) groups)) (length (nodup Nat.eq_dec (concat groups)))) then Err ValueError
    else mapM (fun g => extract m (positions (touches g) (m_faces m))) groups)
  end.
