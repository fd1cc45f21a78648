(** Model of collections of meshes (meshes/collections.py) and of symmetric
    meshes (meshes/symmetric.py).

    A collection is a tree whose leaves are meshes. The parts of a collection
    are supposed to be different objects (a mesh object stored twice in a
    collection is transformed twice by the code). Names, logging, plots and
    cached properties are left out. *)
From Coq Require Import Reals List Bool ZArith Arith.
From Verif Require Import Model_Base Model_Geometry Model_Mesh Model_Quality.
Import ListNotations.
Open Scope R_scope.

(** [CollectionOfMeshes] and its three subclasses, with the attributes [plane],
    [translation] and [axis]. [ints] tells that the translation was given as
    integers: the array then has an integer type (symmetric.py:130). *)
Inductive kind :=
| Plain
| Reflection (p : plane)
| Translation (t : vec) (ints : bool)
| Axial (a : axis).
Inductive tree :=
| Leaf (m : mesh)
| Node (k : kind) (parts : list tree).

(** The values of a list of calls, or the first exception. *)
Definition sequence {A} (l : list (result A)) : result (list A) := mapM (fun x => x) l.
(** [np.concatenate] of a list of arrays. *)
Definition concatenate {A} (l : list (list A)) : result (list A) :=
  match l with [] => Err ValueError | _ => Ok (concat l) end.
(** [accumulate(chain([0], sizes))]. *)
Fixpoint offsets (start : nat) (sizes : list nat) : list nat :=
  match sizes with
  | [] => []
  | n :: rest => start :: offsets (start + n) rest
  end.

(** ** Properties of a collection, collections.py:140-186 *)

Fixpoint t_nb_vertices (t : tree) : nat :=
  match t with Leaf m => nb_vertices m | Node _ l => list_sum (map t_nb_vertices l) end.
Fixpoint t_nb_faces (t : tree) : nat :=
  match t with Leaf m => nb_faces m | Node _ l => list_sum (map t_nb_faces l) end.
Fixpoint t_vertices (t : tree) : result (list vec) :=
  match t with
  | Leaf m => Ok (m_vertices m)
  | Node _ l => bind (sequence (map t_vertices l)) concatenate
  end.
Definition shift_faces (off : nat) (fs : list face) : list face := map (face_map (plus off)) fs.
Fixpoint t_faces (t : tree) : result (list face) :=
  match t with
  | Leaf m => Ok (m_faces m)
  | Node _ l =>
    bind (sequence (map t_faces l)) (fun fss =>
    concatenate (map (fun p => shift_faces (fst p) (snd p)) (combine (offsets 0 (map t_nb_vertices l)) fss)))
  end.
(** [faces_normals], [faces_areas], [faces_centers] and [faces_radiuses]. *)
Fixpoint t_props (t : tree) : result (list fprops) :=
  match t with
  | Leaf m => faces_props m
  | Node _ l => bind (sequence (map t_props l)) concatenate
  end.
(** [path_to_leaf], collections.py:104-113 and meshes.py:160-162. *)
Fixpoint path_to_leaf (t : tree) : list (list nat) :=
  match t with
  | Leaf _ => [[]]
  | Node _ l =>
    concat (map (fun ip => map (fun p => fst ip :: p) (snd ip))
                (combine (seq 0 (length l)) (map path_to_leaf l)))
  end.

(** ** Locating faces, collections.py:210-248 *)

(** [indices_of_mesh] for a non-negative index: the two ends of the slice. *)
Definition indices_of_mesh (l : list tree) (k : nat) : result (nat * nat) :=
  match nth_error l k with
  | None => Err IndexError
  | Some t => let start := list_sum (map t_nb_faces (firstn k l)) in Ok (start, (start + t_nb_faces t)%nat)
  end.
(** [submesh_containing_face]; [None] when the loop ends without returning. *)
Fixpoint containing (k total : nat) (id : Z) (sizes : list nat) : option (nat * Z) :=
  match sizes with
  | [] => None
  | n :: rest =>
    let total' := (total + n)%nat in
    if (id <? Z.of_nat total')%Z then Some (k, (id - (Z.of_nat total' - Z.of_nat n))%Z)
    else containing (S k) total' id rest
  end.
Definition submesh_containing_face (l : list tree) (id : Z) : option (nat * Z) :=
  containing 0 0 id (map t_nb_faces l).
(** [extract_one_face]: unpacking [None] is a [TypeError]. *)
Fixpoint t_extract_one_face (t : tree) : Z -> result mesh :=
  match t with
  | Leaf m => extract_one_face m
  | Node _ l => fun id =>
    match submesh_containing_face l id with
    | None => Err TypeError
    | Some (k, r) =>
      match nth_error (map t_extract_one_face l) k with
      | Some f => f r
      | None => Err IndexError
      end
    end
  end.

(** ** Transformations, collections.py:256-269 and symmetric.py *)

Fixpoint t_translate (t : tree) (v : vec) : tree :=
  match t with
  | Leaf m => Leaf (translate m v)
  | Node k l =>
    Node (match k with
          | Plain => Plain
          | Reflection p => Reflection (plane_translate p v)
          | Translation s i => Translation s i
          | Axial a => Axial (axis_translate a v)
          end) (map (fun x => t_translate x v) l)
  end.
Fixpoint t_rotate (t : tree) (b : axis) (theta : R) : tree :=
  match t with
  | Leaf m => Leaf (rotate m b theta)
  | Node k l =>
    Node (match k with
          | Plain => Plain
          | Reflection p => Reflection (plane_rotate p b theta)
          | Translation s i => Translation (rotate_vector b theta s) false
          | Axial a => Axial (axis_rotate a b theta)
          end) (map (fun x => t_rotate x b theta) l)
  end.
(** [self.translation -= ...] does not accept an array of integers. *)
Fixpoint t_mirror (t : tree) (q : plane) : result tree :=
  match t with
  | Leaf m => Ok (Leaf (mirror m q))
  | Node k l =>
    bind (match k with
          | Plain => Ok Plain
          | Reflection p => Ok (Reflection (plane_mirror p q))
          | Translation s true => Err TypeError
          | Translation s false => Ok (Translation (mirror_vector q s) false)
          | Axial a => Ok (Axial (axis_mirror a q))
          end) (fun k' =>
    bind (sequence (map (fun x => t_mirror x q) l)) (fun l' => Ok (Node k' l')))
  end.

(** ** Constructors of the symmetric meshes and copies

    The constructors copy the first part in order to transform it; the copy of
    a symmetric mesh calls its constructor on the copy of its first part. *)
Section Constructors.
  Variable copy : tree -> result tree.

  (** [ReflectionSymmetricMesh.__init__], symmetric.py:43-54. *)
  Definition make_reflection (half : tree) (p : plane) : result tree :=
    if negb (Reqb (vz (pl_normal p)) 0) then Err AssertionError else
    bind (copy half) (fun c => bind (t_mirror c p) (fun other => Ok (Node (Reflection p) [half; other]))).
  (** [TranslationalSymmetricMesh.__init__], symmetric.py:125-143. *)
  Definition make_translation (slice : tree) (v : vec) (ints : bool) (repetitions : nat) : result tree :=
    if Nat.ltb repetitions 1 then Err AssertionError else
    if negb (Reqb (vz v) 0) then Err AssertionError else
    bind (mapM (fun i => bind (copy slice) (fun c => Ok (t_translate c (vscale (INR i) v)))) (seq 1 repetitions))
         (fun others => Ok (Node (Translation v ints) (slice :: others))).
  (** [AxialSymmetricMesh.__init__], symmetric.py:250-266. *)
  Definition make_axial (slice : tree) (a : axis) (repetitions : nat) : result tree :=
    if Nat.ltb repetitions 1 then Err AssertionError else
    bind (mapM (fun i => bind (copy slice) (fun c => Ok (t_rotate c a (2 * INR i * PI / (INR repetitions + 1)))))
               (seq 1 repetitions))
         (fun others => Ok (Node (Axial a) (slice :: others))).
End Constructors.

(** [copy] and [__deepcopy__], collections.py:115-120, symmetric.py:84-85,
    176-177, 354-355. The first argument bounds the depth of the recursion; the
    depth of the tree is enough (see [copy_enough_depth] in Proofs_Tree). *)
Fixpoint depth (t : tree) : nat :=
  match t with Leaf _ => 0 | Node _ l => S (list_max (map depth l)) end.
Fixpoint copy_within (n : nat) (t : tree) : result tree :=
  match t with
  | Leaf m => Ok (Leaf m)
  | Node k l =>
    match n with
    | O => Err RuntimeError
    | S n' =>
      let first := match l with [] => Err IndexError | x :: _ => copy_within n' x end in
      match k with
      | Plain => bind (sequence (map (copy_within n') l)) (fun l' => Ok (Node Plain l'))
      | Reflection p => bind first (fun c => make_reflection (copy_within n') c p)
      | Translation v i => bind first (fun c => make_translation (copy_within n') c v i (length l - 1))
      | Axial a => bind first (fun c => make_axial (copy_within n') c a (length l - 1))
      end
    end
  end.
Definition copy (t : tree) : result tree := copy_within (depth t) t.

(** The constructors, as called by the user. *)
Definition ReflectionSymmetricMesh (half : tree) (p : plane) : result tree := make_reflection copy half p.
Definition TranslationalSymmetricMesh (slice : tree) (v : vec) (ints : bool) (repetitions : nat) : result tree :=
  make_translation copy slice v ints repetitions.
Definition AxialSymmetricMesh (slice : tree) (a : axis) (repetitions : nat) : result tree :=
  make_axial copy slice a repetitions.

(** [translated], [rotated] and [mirrored] (geometry.py:20-36 with [inplace=False]). *)
Definition translated (t : tree) (v : vec) : result tree := bind (copy t) (fun c => Ok (t_translate c v)).
Definition rotated (t : tree) (a : axis) (theta : R) : result tree := bind (copy t) (fun c => Ok (t_rotate c a theta)).
Definition mirrored (t : tree) (p : plane) : result tree := bind (copy t) (fun c => t_mirror c p).

(** ** Joining symmetric meshes, symmetric.py:87-94, 197-205, 357-366 *)

(** [np.allclose] on vectors: relative tolerance 1e-5, absolute tolerance 1e-8. *)
Definition allclose1 (a b : R) : bool := Rleb (Rabs (a - b)) (/ 100000000 + / 100000 * Rabs b).
Definition vec_allclose (a b : vec) : bool :=
  allclose1 (vx a) (vx b) && allclose1 (vy a) (vy b) && allclose1 (vz a) (vz b).
Definition first_part (t : tree) : result tree :=
  match t with Node _ (x :: _) => Ok x | _ => Err IndexError end.
Definition nb_parts (t : tree) : nat := match t with Leaf _ => 0 | Node _ l => length l end.
(** The call [type(ts[0]).join_meshes( *ts )] for symmetric meshes. *)
Definition join_symmetric (ts : list tree) : result tree :=
  match ts with
  | Node k0 l0 :: _ =>
    let same_kind t := match k0, t with
                       | Reflection _, Node (Reflection _) _ => true
                       | Translation _ _, Node (Translation _ _) _ => true
                       | Axial _, Node (Axial _) _ => true
                       | _, _ => false
                       end in
    let same_symmetry t := match k0, t with
                           | Reflection p, Node (Reflection q) _ => plane_eqb p q
                           | Translation u _, Node (Translation v _) l => vec_allclose u v && Nat.eqb (length l0) (length l)
                           | Axial a, Node (Axial b) l => axis_eqb a b && Nat.eqb (length l0) (length l)
                           | _, _ => false
                           end in
    if negb (forallb same_kind ts) then Err AssertionError else
    if negb (forallb same_symmetry ts) then Err AssertionError else
    bind (mapM first_part ts) (fun parts =>
    match k0 with
    | Plain => Err AttributeError
    | Reflection p => ReflectionSymmetricMesh (Node Plain parts) p
    | Translation v i => TranslationalSymmetricMesh (Node Plain parts) v i (length l0 - 1)
    | Axial a => AxialSymmetricMesh (Node Plain parts) a (length l0 - 1)
    end)
  | _ => Err AttributeError
  end.

(** [build_regular_array_of_meshes], symmetric.py:208-234. The numbers of bodies
    are integers. *)
Definition regular_line (base : tree) (v : vec) (n : Z) : result tree :=
  if (n =? 1)%Z then Ok base
  else if (n <? 1)%Z then Err AssertionError
  else TranslationalSymmetricMesh base v false (Z.to_nat (n - 1)).
Definition build_regular_array (base : tree) (distance : R) (nx ny : Z) : result tree :=
  bind (regular_line base (V distance 0 0) nx) (fun line => regular_line line (V 0 distance 0) ny).

(** ** Merging, extraction and pruning *)

(** [prune_empty_meshes], collections.py:286-293, on the parts. *)
Definition not_empty (t : tree) : bool := Nat.ltb 0 (t_nb_faces t) && Nat.ltb 0 (t_nb_vertices t).
Definition prune (l : list tree) : list tree :=
  match filter not_empty l with [] => [Leaf (Mesh [] [])] | l' => l' end.

Section Merged.
  Variable argsort : list R -> list nat.

  (** [merged], collections.py:226-235 and meshes.py:151-153. 1e-8 is the
      default tolerance of [merge_duplicates]. *)
  Definition t_merged (t : tree) : result mesh :=
    match t with
    | Leaf m => Ok m
    | Node _ _ =>
      bind (t_vertices t) (fun vs =>
      bind (t_faces t) (fun fs =>
      bind (build_mesh vs fs) (fun m =>
      bind (merge_duplicates argsort (/ 100000000) m) (fun r => Ok (heal_triangles (fst r))))))
    end.
  (** [extract_faces], collections.py:250-251. *)
  Definition t_extract_faces (t : tree) (ids : list Z) : result (mesh * list nat) :=
    bind (t_merged t) (fun m => extract_faces m ids).

  (** [AxialSymmetricMesh.from_profile], symmetric.py:276-326, for a profile
      given as a list of points or as a function. *)
  Definition profile_points (f : R -> R) (zs : list R) : list vec := map (fun z => V (f z) 0 z) zs.
  Definition slice_faces (n : nat) : list face := map (fun i => F i (i + n) (i + n + 1) (i + 1)) (seq 0 (n - 1)).
  Definition from_profile (profile : list vec) (a : axis) (nphi : nat) : result tree :=
    match profile with
    | [] => Err AssertionError
    | _ =>
      if Nat.eqb nphi 0 then Err ZeroDivisionError else
      let n := length profile in
      let nodes := profile ++ map (rotate_point a (2 * PI / INR nphi)) profile in
      bind (build_mesh nodes (slice_faces n)) (fun m =>
      bind (merge_duplicates argsort (/ 100000000) m) (fun r =>
      AxialSymmetricMesh (Leaf (heal_triangles (fst r))) a (nphi - 1)))
    end.
End Merged.

(** ** Other values computed on the parts *)

(** [center_of_mass_of_nodes], collections.py:201-203 and meshes.py:273-279: the
    sum over the parts weighted by the number of vertices. [None]: division by
    zero (an array of nan). *)
Definition mean_point (vs : list vec) : option vec :=
  match vs with [] => None | _ => Some (vscale (/ INR (length vs)) (vsum vs)) end.
Fixpoint all_some {A} (l : list (option A)) : option (list A) :=
  match l with
  | [] => Some []
  | Some a :: l' => option_map (cons a) (all_some l')
  | None :: _ => None
  end.
Fixpoint t_center (t : tree) : option vec :=
  match t with
  | Leaf m => mean_point (m_vertices m)
  | Node _ l =>
    match all_some (map (fun x => option_map (vscale (INR (t_nb_vertices x))) (t_center x)) l) with
    | None => None
    | Some cs => if Nat.eqb (t_nb_vertices t) 0 then None
                 else Some (vscale (/ INR (t_nb_vertices t)) (vsum cs))
    end
  end.
