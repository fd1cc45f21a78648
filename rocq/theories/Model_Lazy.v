(** Model of the lazily computed properties of a mesh: the dictionary
    [__internals__] of meshes/meshes.py, and everything that fills it, copies it
    or empties it. The meshes themselves are those of Model_Mesh, Model_Quality
    and Model_Clip. *)
From Coq Require Import Reals List Bool ZArith Arith.
From Verif Require Import Model_Base Model_Geometry Model_Mesh Model_Quality Model_Tree Model_Clip Model_Quadrature.
Import ListNotations.
Open Scope nat_scope.

(** An array of per-face values, of shape [(n, ...)], or of shape [(n, 1, ...)]
    when the indices were given as a column (see [ExtractColumn] below). *)
Inductive rows (A : Type) := Rows (l : list A) | Column (l : list A).
Arguments Rows {A}. Arguments Column {A}.

(** [__internals__]: an absent key is [None]. The four properties of the faces
    are always set together (meshes.py:293-319), and so are the ids of the
    triangles and of the quadrangles (meshes.py:359-364). *)
Record cache := Cache {
  c_ids : option (list nat * list nat);         (* 'triangles_ids', 'quadrangles_ids' *)
  c_props : option (rows fprops);               (* 'faces_areas', 'faces_normals', 'faces_centers', 'faces_radiuses' *)
  c_nodes : option (option vec);                (* 'center_of_mass_of_nodes'; [None] for nan *)
  c_diameter : option R;                        (* 'diameter_of_nodes' *)
  c_quadrature : option (list (list (vec * R)));(* 'quadrature' *)
  c_hash : option Z }.                          (* 'hash' *)
Definition empty_cache : cache := Cache None None None None None None.
(** A mesh object: vertices and faces, [__internals__], [quadrature_method]. *)
Record obj := Obj { o_mesh : mesh; o_cache : cache; o_method : qmethod }.

(** What a method call returns or raises, and the object afterwards. *)
Definition act (A : Type) := obj -> result A * obj.
Definition ret {A} (a : A) : act A := fun o => (Ok a, o).
Definition raise {A} (e : pyexn) : act A := fun o => (Err e, o).
Definition lift {A} (r : result A) : act A := fun o => (r, o).
Definition andthen {A B} (x : act A) (f : A -> act B) : act B := fun o =>
  match x o with (Ok a, o') => f a o' | (Err e, o') => (Err e, o') end.
Definition the_mesh : act mesh := fun o => (Ok (o_mesh o), o).
Definition put_mesh (m : mesh) : act unit := fun o => (Ok tt, Obj m (o_cache o) (o_method o)).
Definition clear : act unit := fun o => (Ok tt, Obj (o_mesh o) empty_cache (o_method o)).
Definition with_cache (f : cache -> cache) : act unit := fun o => (Ok tt, Obj (o_mesh o) (f (o_cache o)) (o_method o)).

(** ** The properties *)

(** [_compute_triangles_quadrangles] and the two properties, meshes.py:359-390. *)
Definition read_ids : act (list nat * list nat) := fun o =>
  match c_ids (o_cache o) with
  | Some ids => (Ok ids, o)
  | None =>
    let ids := (triangles_ids (o_mesh o), quadrangles_ids (o_mesh o)) in
    let c := o_cache o in
    (Ok ids, Obj (o_mesh o) (Cache (Some ids) (c_props c) (c_nodes c) (c_diameter c) (c_quadrature c) (c_hash c)) (o_method o))
  end.
(** [compute_faces_properties], properties.py:14-86, with the given ids of the
    triangles and of the quadrangles. *)
Definition props_with_ids (m : mesh) (ids : list nat * list nat) : result (list fprops) :=
  bind (mapM (get (m_faces m)) (fst ids)) (fun _ =>
  bind (mapM (get (m_faces m)) (snd ids)) (fun _ =>
  mapM (fun jf : nat * face => bind (face_points (m_vertices m) (snd jf)) (fun q =>
      Ok (let '(a, n, c) := if memb (fst jf) (snd ids) then quad_props q
                            else if memb (fst jf) (fst ids) then tri_props q else (0%R, v0, v0) in
          FProps a n c (radius c q))))
    (combine (seq 0 (nb_faces m)) (m_faces m)))).
(** [faces_areas], [faces_centers], [faces_normals], [faces_radiuses], meshes.py:293-319. *)
Definition store_props (ps : list fprops) : act unit :=
  with_cache (fun c => Cache (c_ids c) (Some (Rows ps)) (c_nodes c) (c_diameter c) (c_quadrature c) (c_hash c)).
Definition read_props : act (rows fprops) := fun o =>
  match c_props (o_cache o) with
  | Some ps => (Ok ps, o)
  | None => andthen read_ids (fun ids => andthen the_mesh (fun m => andthen (lift (props_with_ids m ids)) (fun ps =>
            andthen (store_props ps) (fun _ => ret (Rows ps))))) o
  end.

(** [center_of_mass_of_nodes] and [diameter_of_nodes], meshes.py:268-287. *)
Definition nodes_center (m : mesh) : option vec :=
  match m_vertices m with
  | [] => None
  | vs => Some (vscale (/ INR (length vs)) (vsum vs))
  end.
Definition nodes_diameter (m : mesh) : result R :=
  match nodes_center m, m_vertices m with
  | Some c, v :: vs => Ok (2 * fold_right Rmax (norm (vsub v c)) (map (fun p => norm (vsub p c)) vs))%R
  | _, _ => Err ValueError
  end.
Definition read_nodes : act (option vec) := fun o =>
  match c_nodes (o_cache o) with
  | Some x => (Ok x, o)
  | None =>
    let x := nodes_center (o_mesh o) in
    let c := o_cache o in
    (Ok x, Obj (o_mesh o) (Cache (c_ids c) (c_props c) (Some x) (c_diameter c) (c_quadrature c) (c_hash c)) (o_method o))
  end.
(** With the centre that is given. *)
Definition diameter_around (m : mesh) (x : option vec) : result R :=
  match x, m_vertices m with
  | Some c, v :: vs => Ok (2 * fold_right Rmax (norm (vsub v c)) (map (fun p => norm (vsub p c)) vs))%R
  | _, _ => Err ValueError
  end.
Definition read_diameter : act R := fun o =>
  match c_diameter (o_cache o) with
  | Some x => (Ok x, o)
  | None => andthen read_nodes (fun x => andthen the_mesh (fun m => andthen (lift (diameter_around m x)) (fun d =>
            andthen (with_cache (fun c => Cache (c_ids c) (c_props c) (c_nodes c) (Some d) (c_quadrature c) (c_hash c)))
              (fun _ => ret d)))) o
  end.

(** ** Transformations *)

(** The decorator [inplace_transformation], geometry.py:21-35: the properties are
    forgotten at the end, unless an exception was raised. *)
Definition inplace {A} (x : act A) : act unit := andthen x (fun _ => clear).
(** The two setters, meshes.py:103-130, for arrays of the right shape. *)
Definition set_vertices (vs : list vec) : act unit :=
  andthen the_mesh (fun m => andthen (put_mesh (Mesh vs (m_faces m))) (fun _ => clear)).
Definition set_faces (fs : list face) : act unit :=
  andthen the_mesh (fun m => andthen (lift (build_mesh (m_vertices m) fs)) (fun m' =>
  andthen (put_mesh m') (fun _ => clear))).

(** meshes.py:538-594: translate, rotate, flip_normals, mirror. *)
Definition do_translate (v : vec) : act unit :=
  inplace (andthen the_mesh (fun m => set_vertices (m_vertices (translate m v)))).
Definition do_rotate (a : axis) (theta : R) : act unit :=
  inplace (andthen the_mesh (fun m => put_mesh (rotate m a theta))).
Definition do_flip : act unit := inplace (andthen the_mesh (fun m => put_mesh (flip_normals m))).
Definition do_mirror (p : plane) : act unit :=
  inplace (andthen the_mesh (fun m =>
    andthen (set_vertices (map (mirror_point p) (m_vertices m))) (fun _ => do_flip))).
(** [triangulate_quadrangles], meshes.py:610-641, with the ids of the quadrangles. *)
Definition triangulate_ids (quads : list nat) (m : mesh) : result mesh :=
  bind (mapM (get (m_faces m)) quads) (fun fs =>
  Ok (Mesh (m_vertices m)
    (map (fun jf => if memb (fst jf) quads then second_half (snd jf) else snd jf)
         (combine (seq 0 (nb_faces m)) (m_faces m)) ++ map first_half fs))).
Definition do_triangulate : act unit :=
  inplace (andthen read_ids (fun ids => andthen the_mesh (fun m =>
    andthen (lift (triangulate_ids (snd ids) m)) put_mesh))).
(** quality.py:271-367. *)
Definition do_heal_triangles : act unit := inplace (andthen the_mesh (fun m => put_mesh (heal_triangles m))).
Definition do_remove_unused : act unit :=
  inplace (andthen the_mesh (fun m => andthen (lift (remove_unused m)) put_mesh)).
Definition remove_degenerated_areas (rtol : R) (ps : list fprops) (m : mesh) : mesh :=
  let mean := (Rsum (map p_area ps) / INR (length ps))%R in
  Mesh (m_vertices m)
    (map fst (filter (fun fp => negb (Rltb (p_area (snd fp)) (mean * rtol))) (combine (m_faces m) ps))).
Definition do_remove_degenerated (rtol : R) : act unit :=
  inplace (if negb (Rltb 0 rtol) then raise AssertionError else
    andthen read_props (fun ps =>
    match ps with
    | Column _ => raise IndexError      (* a mask with two dimensions *)
    | Rows l => andthen the_mesh (fun m =>
        if Nat.eqb (length l) (nb_faces m) then put_mesh (remove_degenerated_areas rtol l m) else raise IndexError)
    end)).

Section Oracles.
  (** [ndarray.argsort], as in Model_Quality, and [hash] of a set of faces. *)
  Variable argsort : list R -> list nat.
  Variable py_hash : list quad -> Z.

  (** [merge_duplicates], quality.py:18-51. It is not decorated, but the setters
      empty the dictionary. *)
  Definition do_merge_duplicates (atol : R) : act unit :=
    andthen the_mesh (fun m =>
    andthen (lift (merge_duplicate_rows argsort atol (m_vertices m))) (fun r =>
    andthen (set_vertices (fst r)) (fun _ =>
    andthen (lift (mapM (renumber_face (snd r)) (m_faces m))) set_faces))).
  (** [heal_mesh], meshes.py:730-747, with [closed_mesh=False]. *)
  Definition do_heal_mesh : act unit :=
    inplace (andthen do_remove_unused (fun _ => andthen (do_remove_degenerated (/ 100000)) (fun _ =>
      andthen (do_merge_duplicates (/ 100000000)) (fun _ => do_heal_triangles)))).
  (** [clip], meshes.py:601-608. *)
  Definition do_clip (p : plane) : act unit :=
    inplace (andthen the_mesh (fun m => andthen (lift (clip argsort p vicinity m)) (fun r =>
      andthen (set_vertices (m_vertices (fst r))) (fun _ => set_faces (m_faces (fst r)))))).
  (** [with_normal_vector_going_down], meshes.py:836-844. *)
  Definition do_normals_down : act unit :=
    inplace (andthen read_props (fun ps =>
      match ps with
      | Column _ => raise IndexError
      | Rows l => andthen the_mesh (fun m =>
          if forallb (fun p => allclose1 (vz (p_normal p)) 1) l then set_faces (map flip_face (m_faces m))
          else ret tt)
      end)).

  (** [compute_quadrature], meshes.py:330-341, and [quadrature_points], 321-328. *)
  Definition set_method (q : qmethod) : act unit := fun o => (Ok tt, Obj (o_mesh o) (o_cache o) q).
  Definition compute_quadrature (method : qmethod) : act (list (list (vec * R))) :=
    andthen do_heal_triangles (fun _ => andthen the_mesh (fun m =>
    andthen (lift (all_points m)) (fun qs =>
    andthen (match method with
             | NoMethod => andthen read_props (fun ps =>
                 match ps with
                 | Rows l | Column l => ret (map (fun p => [(p_center p, p_area p)]) l)
                 end)
             | _ => lift (compute_quadrature_on_faces qs method)
             end) (fun x =>
    andthen (with_cache (fun c => Cache (c_ids c) (c_props c) (c_nodes c) (c_diameter c) (Some x) (c_hash c))) (fun _ =>
    andthen (set_method method) (fun _ => ret x)))))).
  Definition read_quadrature : act (list (list (vec * R))) := fun o =>
    match c_quadrature (o_cache o) with
    | Some x => (Ok x, o)
    | None => compute_quadrature (o_method o) o
    end.
  (** [__hash__], meshes.py:705-708. *)
  Definition mesh_hash (m : mesh) : result Z := bind (all_points m) (fun qs => Ok (py_hash qs)).
  Definition read_hash : act Z := fun o =>
    match c_hash (o_cache o) with
    | Some x => (Ok x, o)
    | None => andthen (lift (mesh_hash (o_mesh o))) (fun h =>
        andthen (with_cache (fun c => Cache (c_ids c) (c_props c) (c_nodes c) (c_diameter c) (c_quadrature c) (Some h)))
          (fun _ => ret h)) o
    end.

  (** ** Extraction: the properties of the faces are extracted too *)

  Definition rows_at {A} (r : rows A) (ids : list Z) : result (rows A) :=
    match r with
    | Rows l => bind (mapM (geti l) ids) (fun x => Ok (Rows x))
    | Column l => bind (mapM (geti l) ids) (fun x => Ok (Column x))
    end.
  Definition cached_rows (o : obj) (ids : list Z) : result (option (rows fprops)) :=
    match c_props (o_cache o) with
    | None => Ok None
    | Some r => bind (rows_at r ids) (fun x => Ok (Some x))
    end.
  (** A new mesh object; the default [quadrature_method] is [None]. *)
  Definition new_obj (m : mesh) (ps : option (rows fprops)) : obj :=
    Obj m (Cache None ps None None None None) NoMethod.
  (** [extract_one_face], meshes.py:192-202. *)
  Definition obj_extract_one (o : obj) (i : Z) : result obj :=
    bind (extract_one_face (o_mesh o) i) (fun m => bind (cached_rows o [i]) (fun ps => Ok (new_obj m ps))).
  (** [extract_faces], meshes.py:204-254, for a flat array of indices. *)
  Definition obj_extract (o : obj) (ids : list Z) : result obj :=
    bind (extract_faces (o_mesh o) ids) (fun r => bind (cached_rows o ids) (fun ps => Ok (new_obj (fst r) ps))).
  (** The same for an array of shape [(n, 1)], as [connected_components] gives
      (properties.py:266-267): the faces are flattened, the properties are not. *)
  Definition obj_extract_column (o : obj) (ids : list Z) : result obj :=
    bind (extract_faces (o_mesh o) ids) (fun r =>
    bind (cached_rows o ids) (fun ps =>
    Ok (new_obj (fst r) (match ps with Some (Rows l) | Some (Column l) => Some (Column l) | None => None end)))).

  (** ** Programs *)

  Inductive access := Ids | Props | Nodes | Diameter | Hash.
  Inductive transformation :=
  | Translate (v : vec) | Rotate (a : axis) (theta : R) | Flip | Mirror (p : plane) | Clip (p : plane)
  | Triangulate | HealTriangles | RemoveUnused | RemoveDegenerated (rtol : R) | MergeDuplicates (atol : R)
  | HealMesh | NormalsDown | SetVertices (vs : list vec) | SetFaces (fs : list face)
  | ComputeQuadrature (method : qmethod) | Quadrature.
  Definition transform (t : transformation) : act unit :=
    match t with
    | Translate v => do_translate v
    | Rotate a theta => do_rotate a theta
    | Flip => do_flip
    | Mirror p => do_mirror p
    | Clip p => do_clip p
    | Triangulate => do_triangulate
    | HealTriangles => do_heal_triangles
    | RemoveUnused => do_remove_unused
    | RemoveDegenerated rtol => do_remove_degenerated rtol
    | MergeDuplicates atol => do_merge_duplicates atol
    | HealMesh => do_heal_mesh
    | NormalsDown => do_normals_down
    | SetVertices vs => set_vertices vs
    | SetFaces fs => set_faces fs
    | ComputeQuadrature q => andthen (compute_quadrature q) (fun _ => ret tt)
    | Quadrature => andthen read_quadrature (fun _ => ret tt)
    end.
  (** One statement of a program that handles several mesh objects, numbered in
      the order of their creation. *)
  Inductive command :=
  | New (m : mesh)
  | Access (k : nat) (a : access)
  | Transform (k : nat) (t : transformation)
  | Copy (k : nat)
  | Extract (k : nat) (ids : list Z)
  | ExtractOne (k : nat) (i : Z)
  | ExtractColumn (k : nat) (ids : list Z)
  | WriteVertex (k i : nat) (v : vec)       (* mesh.vertices[i] = v *)
  | AssignMethod (k : nat) (q : qmethod).   (* mesh.quadrature_method = q *)
  (** What the statement shows. *)
  Inductive output :=
  | ShowIds (r : result (list nat * list nat)) | ShowProps (r : result (rows fprops)) | ShowNodes (r : result (option vec))
  | ShowDiameter (r : result R) | ShowHash (r : result Z) | ShowQuadrature (r : result (list (list (vec * R))))
  | Done (r : result unit) | NoObject.
  Definition do_access (a : access) (o : obj) : output * obj :=
    match a with
    | Ids => let (r, o') := read_ids o in (ShowIds r, o')
    | Props => let (r, o') := read_props o in (ShowProps r, o')
    | Nodes => let (r, o') := read_nodes o in (ShowNodes r, o')
    | Diameter => let (r, o') := read_diameter o in (ShowDiameter r, o')
    | Hash => let (r, o') := read_hash o in (ShowHash r, o')
    end.
  Definition do_transform (t : transformation) (o : obj) : output * obj :=
    match t with
    | ComputeQuadrature q => let (r, o') := compute_quadrature q o in (ShowQuadrature r, o')
    | Quadrature => let (r, o') := read_quadrature o in (ShowQuadrature r, o')
    | _ => let (r, o') := transform t o in (Done r, o')
    end.
  Definition set_nth {A} (k : nat) (x : A) (l : list A) : list A := firstn k l ++ x :: skipn (S k) l.
  Definition on_object (s : list obj) (k : nat) (f : obj -> output * obj) : output * list obj :=
    match nth_error s k with
    | None => (NoObject, s)
    | Some o => let (v, o') := f o in (v, set_nth k o' s)
    end.
  Definition create (s : list obj) (k : nat) (f : obj -> result obj) : output * list obj :=
    match nth_error s k with
    | None => (NoObject, s)
    | Some o => match f o with Ok o' => (Done (Ok tt), s ++ [o']) | Err e => (Done (Err e), s) end
    end.
  Definition write_vertex (i : nat) (v : vec) : act unit := fun o =>
    if Nat.ltb i (nb_vertices (o_mesh o))
    then (Ok tt, Obj (Mesh (set_nth i v (m_vertices (o_mesh o))) (m_faces (o_mesh o))) (o_cache o) (o_method o))
    else (Err IndexError, o).
  Definition step (s : list obj) (c : command) : output * list obj :=
    match c with
    | New m => (Done (Ok tt), s ++ [new_obj m None])
    | Access k a => on_object s k (do_access a)
    | Transform k t => on_object s k (do_transform t)
    | Copy k => create s k (fun o => Ok o)
    | Extract k ids => create s k (fun o => obj_extract o ids)
    | ExtractOne k i => create s k (fun o => obj_extract_one o i)
    | ExtractColumn k ids => create s k (fun o => obj_extract_column o ids)
    | WriteVertex k i v => on_object s k (fun o => let (r, o') := write_vertex i v o in (Done r, o'))
    | AssignMethod k q => on_object s k (fun o => let (r, o') := set_method q o in (Done r, o'))
    end.
  Fixpoint run (s : list obj) (p : list command) : list output * list obj :=
    match p with
    | [] => ([], s)
    | c :: p' => let (v, s') := step s c in let (vs, s'') := run s' p' in (v :: vs, s'')
    end.
End Oracles.
