(** Model of bodies/bodies.py: construction of bodies, degrees of freedom, rotation centre, joins, arrays, transformations,
    inertia and hydrostatic stiffness. The dofs are arrays of real vectors, one row for each face. *)
From Coq Require Import Reals List Bool ZArith Arith String Ascii DecimalString.
From Verif Require Import Model_Base Model_Geometry Model_Mesh Model_Quality Model_Tree Model_Integrals.
Import ListNotations.
Open Scope R_scope.

(** ** Dictionaries and strings *)

(** [d[k] = v] and [d[k]] for a Python dict, which keeps the order of the first insertions. *)
Fixpoint dset {A} (k : string) (v : A) (d : list (string * A)) : list (string * A) :=
  match d with
  | [] => [(k, v)]
  | (k', v') :: d' => if String.eqb k k' then (k, v) :: d' else (k', v') :: dset k v d'
  end.
Fixpoint dget {A} (k : string) (d : list (string * A)) : result A :=
  match d with
  | [] => Err KeyError
  | (k', v) :: d' => if String.eqb k k' then Ok v else dget k d'
  end.
(** [str.lower], on ASCII letters. *)
Definition ascii_lower (c : ascii) : ascii :=
  let n := nat_of_ascii c in if Nat.leb 65 n && Nat.leb n 90 then ascii_of_nat (n + 32) else c.
Fixpoint str_lower (s : string) : string :=
  match s with EmptyString => EmptyString | String c s' => String (ascii_lower c) (str_lower s') end.
(** ['__' in name]. *)
Fixpoint has_dunder (s : string) : bool :=
  match s with
  | EmptyString => false
  | String c s' =>
    match s' with
    | String c' _ => (Ascii.eqb c "_" && Ascii.eqb c' "_") || has_dunder s'
    | EmptyString => false
    end
  end.
Definition str_nat (n : nat) : string := NilZero.string_of_uint (Nat.to_uint n).

(** ** Bodies *)

(** A matrix labelled by dofs names (an [xarray.DataArray] with the same labels for the rows and the columns). [None]: nan. *)
Record lmatrix := LM { lm_labels : list string; lm_rows : list (list (option R)) }.
(** The attributes of a [FloatingBody]. [rotation_center], [geometric_center], [inertia_matrix] and [hydrostatic_stiffness]
    are [None] when the attribute does not exist. *)
Record fbody := FB {
  fb_name : string;
  fb_mesh : tree;
  fb_lid : option tree;
  fb_dofs : list (string * list vec);
  fb_mass : option R;
  fb_com : option vec;
  fb_rc : option vec;
  fb_gc : option vec;
  fb_inertia : option lmatrix;
  fb_stiffness : option lmatrix
}.
Definition set_dofs (b : fbody) (d : list (string * list vec)) : fbody :=
  FB (fb_name b) (fb_mesh b) (fb_lid b) d (fb_mass b) (fb_com b) (fb_rc b) (fb_gc b) (fb_inertia b) (fb_stiffness b).
Definition set_name (b : fbody) (n : string) : fbody :=
  FB n (fb_mesh b) (fb_lid b) (fb_dofs b) (fb_mass b) (fb_com b) (fb_rc b) (fb_gc b) (fb_inertia b) (fb_stiffness b).
Definition set_mesh (b : fbody) (t : tree) : fbody :=
  FB (fb_name b) t (fb_lid b) (fb_dofs b) (fb_mass b) (fb_com b) (fb_rc b) (fb_gc b) (fb_inertia b) (fb_stiffness b).
Definition set_matrices (b : fbody) (i s : option lmatrix) : fbody :=
  FB (fb_name b) (fb_mesh b) (fb_lid b) (fb_dofs b) (fb_mass b) (fb_com b) (fb_rc b) (fb_gc b) i s.
Definition fb_nb_faces (b : fbody) : nat := t_nb_faces (fb_mesh b).
Definition fb_centers (b : fbody) : result (list vec) := bind (t_props (fb_mesh b)) (fun ps => Ok (map p_center ps)).

(** [_check_dofs_shape_consistency], bodies.py:269-274, for dofs with three columns. *)
Definition fb_check (b : fbody) : result unit :=
  if forallb (fun d => Nat.eqb (List.length (snd d)) (fb_nb_faces b)) (fb_dofs b) then Ok tt else Err ValueError.

(** ** Degrees of freedom *)

(** [TRANSLATION_DOFS_DIRECTIONS] and [ROTATION_DOFS_AXIS], bodies.py:25-26. *)
Definition translation_directions : list (string * vec) :=
  [("surge"%string, V 1 0 0); ("sway"%string, V 0 1 0); ("heave"%string, V 0 0 1)].
Definition rotation_directions : list (string * vec) :=
  [("roll"%string, V 1 0 0); ("pitch"%string, V 0 1 0); ("yaw"%string, V 0 0 1)].
Definition direction_of (table : list (string * vec)) (name : option string) : result vec :=
  match name with
  | None => Err ValueError
  | Some n => match dget (str_lower n) table with Ok d => Ok d | Err _ => Err ValueError end
  end.
Definition default_name (b : fbody) (suffix : string) (name : option string) : string :=
  match name with
  | Some n => n
  | None => ("dof_" ++ str_nat (List.length (fb_dofs b)) ++ suffix)%string
  end.
(** [add_translation_dof], bodies.py:153-180. *)
Definition add_translation_dof (b : fbody) (direction : option vec) (name : option string) (amplitude : R) : result fbody :=
  bind (match direction with Some d => Ok d | None => direction_of translation_directions name end) (fun d =>
  Ok (set_dofs b (dset (default_name b "_translation" name) (repeat (vscale amplitude d) (fb_nb_faces b)) (fb_dofs b)))).
(** The first attribute that is set, bodies.py:199-210. *)
Definition default_rotation_point (b : fbody) : vec :=
  match fb_rc b, fb_com b, fb_gc b with
  | Some p, _, _ => p
  | None, Some p, _ => p
  | None, None, Some p => p
  | None, None, None => V 0 0 0
  end.
(** [add_rotation_dof], bodies.py:182-221. *)
Definition add_rotation_dof (b : fbody) (ax : option axis) (name : option string) (amplitude : R) : result fbody :=
  bind (match ax with
        | Some a => Ok (ax_point a, ax_vector a)
        | None => bind (direction_of rotation_directions name) (fun d => Ok (default_rotation_point b, d))
        end) (fun pd =>
  bind (if Nat.eqb (fb_nb_faces b) 0 then Ok []
        else bind (fb_centers b) (fun cs => Ok (map (fun c => vscale amplitude (cross (vsub (fst pd) c) (snd pd))) cs))) (fun rows =>
  Ok (set_dofs b (dset (default_name b "_rotation" name) rows (fb_dofs b))))).
(** [add_all_rigid_body_dofs], bodies.py:223-230. *)
Definition add_all_rigid_body_dofs (b : fbody) : result fbody :=
  bind (add_translation_dof b None (Some "Surge"%string) 1) (fun b =>
  bind (add_translation_dof b None (Some "Sway"%string) 1) (fun b =>
  bind (add_translation_dof b None (Some "Heave"%string) 1) (fun b =>
  bind (add_rotation_dof b None (Some "Roll"%string) 1) (fun b =>
  bind (add_rotation_dof b None (Some "Pitch"%string) 1) (fun b =>
  add_rotation_dof b None (Some "Yaw"%string) 1))))).

(** [DataArray.sel] with a list of labels for both dimensions. *)
Fixpoint label_position (s : string) (l : list string) : result nat :=
  match l with
  | [] => Err KeyError
  | x :: l' => if String.eqb s x then Ok 0%nat else bind (label_position s l') (fun k => Ok (S k))
  end.
Definition select_labels (labels : list string) (m : lmatrix) : result lmatrix :=
  bind (mapM (fun s => label_position s (lm_labels m)) labels) (fun ids =>
  bind (mapM (get (lm_rows m)) ids) (fun rows =>
  bind (mapM (fun r => mapM (get r) ids) rows) (fun rows' => Ok (LM labels rows')))).
Definition option_bind {A B} (o : option A) (f : A -> result B) : result (option B) :=
  match o with None => Ok None | Some a => bind (f a) (fun b => Ok (Some b)) end.
(** [keep_only_dofs], bodies.py:242-253. *)
Definition keep_only_dofs (b : fbody) (names : list string) : result fbody :=
  let kept := filter (fun d => existsb (String.eqb (fst d)) names) (fb_dofs b) in
  bind (option_bind (fb_inertia b) (select_labels names)) (fun i =>
  bind (option_bind (fb_stiffness b) (select_labels names)) (fun s =>
  Ok (set_matrices (set_dofs b kept) i s))).
(** [add_dofs_labels_to_matrix], bodies.py:262-267: [ValueError] when the shape is not that of the labels. *)
Definition add_dofs_labels_to_matrix (b : fbody) (rows : list (list (option R))) : result lmatrix :=
  let labels := map fst (fb_dofs b) in
  let n := List.length labels in
  if Nat.eqb (List.length rows) n && forallb (fun r => Nat.eqb (List.length r) n) rows then Ok (LM labels rows)
  else Err ValueError.

(** ** Rotation centre, bodies.py:353-387 *)

(** Elementwise operation on two one-dimensional arrays: an array with a single element is repeated. *)
Definition broadcast {A B C} (f : A -> B -> C) (xs : list A) (ys : list B) : result (list C) :=
  if Nat.eqb (List.length xs) (List.length ys) then Ok (map (fun p => f (fst p) (snd p)) (combine xs ys))
  else match xs, ys with
       | [x], _ => Ok (map (f x) ys)
       | _, [y] => Ok (map (fun x => f x y) xs)
       | _, _ => Err ValueError
       end.
(** Any exception inside the [try] becomes a [ValueError]. *)
Definition infer_from_dofs (b : fbody) : result vec :=
  bind (fb_centers b) (fun cs =>
  bind (dget "Roll"%string (fb_dofs b)) (fun roll =>
  bind (dget "Pitch"%string (fb_dofs b)) (fun pitch =>
  bind (dget "Yaw"%string (fb_dofs b)) (fun yaw =>
  bind (broadcast (fun d c => vz d + vx c) pitch cs) (fun xc1 =>
  bind (broadcast (fun d c => - vy d + vx c) yaw cs) (fun xc2 =>
  bind (broadcast (fun d c => vx d + vy c) yaw cs) (fun yc1 =>
  bind (broadcast (fun d c => - vz d + vy c) roll cs) (fun yc2 =>
  bind (broadcast (fun d c => - vx d + vz c) pitch cs) (fun zc1 =>
  bind (broadcast (fun d c => vy d + vz c) roll cs) (fun zc2 =>
  bind (get xc1 0) (fun x =>
  bind (get yc1 0) (fun y =>
  bind (get zc1 0) (fun z =>
  bind (broadcast allclose1 xc1 xc2) (fun ex =>
  bind (broadcast allclose1 yc1 yc2) (fun ey =>
  bind (broadcast allclose1 zc1 zc2) (fun ez =>
  if forallb (fun v => allclose1 v x) xc1 && forallb (fun v => allclose1 v y) yc1 && forallb (fun v => allclose1 v z) zc1
     && forallb (fun e => e) ex && forallb (fun e => e) ey && forallb (fun e => e) ez
  then Ok (V x y z) else Err AssertionError)))))))))))))))).
Definition infer_rotation_center (b : fbody) : result vec :=
  match fb_rc b with
  | Some p => Ok p
  | None => match infer_from_dofs b with Ok p => Ok p | Err _ => Err ValueError end
  end.

(** ** Construction of bodies, bodies.py:64-115 *)

Inductive dofs_arg := NoDofs | RigidDofs (rotation_center : option vec) | GivenDofs (dofs : list (string * list vec)).

(** [argsort] stands for [ndarray.argsort], [heal_normals] for the function of quality.py:158-268 and [set_order] for the
    order of the elements of a Python set. *)
Section Bodies.
  Variable argsort : list R -> list nat.
  Variable heal_normals : mesh -> result mesh.
  Variable set_order : list nat -> list nat.

  (** [Mesh.heal_mesh], meshes.py:730-747, with the default tolerances. *)
  Definition heal_leaf (closed : bool) (m : mesh) : result mesh :=
    bind (remove_unused m) (fun m1 =>
    bind (remove_degenerated (/ 100000) m1) (fun m2 =>
    bind (merge_duplicates argsort (/ 100000000) m2) (fun r =>
    if closed then heal_normals (heal_triangles (fst r)) else Ok (heal_triangles (fst r))))).
  (** [CollectionOfMeshes.heal_mesh], collections.py:122-125. *)
  Fixpoint heal_parts (t : tree) : result tree :=
    match t with
    | Leaf m => bind (heal_leaf false m) (fun m' => Ok (Leaf m'))
    | Node k l => bind (sequence (map heal_parts l)) (fun l' => Ok (Node k l'))
    end.
  Definition t_heal (t : tree) : result tree :=
    match t with
    | Leaf m => bind (heal_leaf true m) (fun m' => Ok (Leaf m'))
    | Node _ _ => heal_parts t
    end.
  (** [with_normal_vector_going_down], meshes.py:836-844 and collections.py:127-130. *)
  Fixpoint going_down (t : tree) : result tree :=
    match t with
    | Leaf m => bind (faces_props m) (fun ps =>
                if forallb (fun p => allclose1 (vz (p_normal p)) 1) ps then Ok (Leaf (flip_normals m)) else Ok t)
    | Node k l => bind (sequence (map going_down l)) (fun l' => Ok (Node k l'))
    end.

  (** [FloatingBody.__init__] for a mesh that is a [Mesh] or a [CollectionOfMeshes], with a name. *)
  Definition new_body (t : tree) (dofs : dofs_arg) (mass : option R) (com : option vec) (name : string) (lid : option tree)
    : result fbody :=
    bind (match lid with
          | None => Ok None
          | Some l => if Nat.eqb (t_nb_faces l) 0 then Ok None
                      else bind (copy l) (fun c => bind (going_down c) (fun c' => Ok (Some c')))
          end) (fun lid' =>
    bind (if Nat.ltb 0 (t_nb_vertices t) && Nat.ltb 0 (t_nb_faces t) then t_heal t else Ok t) (fun t' =>
    let body d rc := FB name t' lid' d mass com rc None None None in
    bind (match dofs with
          | NoDofs => Ok (body [] None)
          | RigidDofs rc => add_all_rigid_body_dofs (body [] rc)
          | GivenDofs d => Ok (body d None)
          end) (fun b =>
    bind (fb_check b) (fun _ => Ok b)))).

  (** ** Joining bodies *)

  (** [combine_dofs], bodies.py:807-828. *)
  Definition joined_name (body_name dof_name : string) : string :=
    if has_dunder dof_name then dof_name else (body_name ++ "__" ++ dof_name)%string.
  Definition padded_dof (offset total : nat) (rows : list vec) : list vec :=
    repeat (V 0 0 0) offset ++ rows ++ repeat (V 0 0 0) (total - offset - List.length rows).
  Fixpoint combine_from (total offset : nat) (bodies : list fbody) (dofs : list (string * list vec)) : list (string * list vec) :=
    match bodies with
    | [] => dofs
    | b :: rest =>
      combine_from total (offset + fb_nb_faces b) rest
        (fold_left (fun acc d => dset (joined_name (fb_name b) (fst d)) (padded_dof offset total (snd d)) acc) (fb_dofs b) dofs)
    end.
  Definition combine_dofs (bodies : list fbody) : result (list (string * list vec)) :=
    bind (mapM fb_check bodies) (fun _ => Ok (combine_from (list_sum (map fb_nb_faces bodies)) 0 bodies [])).
  (** [scipy.linalg.block_diag] of matrices with the same number of rows and columns. *)
  Fixpoint block_diag (ms : list (list (list (option R)))) : list (list (option R)) :=
    match ms with
    | [] => []
    | m :: rest =>
      let below := block_diag rest in
      map (fun r => r ++ repeat (Some 0) (List.length below)) m ++ map (fun r => repeat (Some 0) (List.length m) ++ r) below
    end.
  Fixpoint all_set {A B} (f : A -> option B) (l : list A) : option (list B) :=
    match l with
    | [] => Some []
    | x :: l' => match f x, all_set f l' with Some y, Some ys => Some (y :: ys) | _, _ => None end
    end.
  Fixpoint somes {A} (l : list (option A)) : list A :=
    match l with [] => [] | Some x :: l' => x :: somes l' | None :: l' => somes l' end.
  (** [join_bodies], bodies.py:765-804. The centre of mass of bodies with a total mass of zero, an array of nan, is not
      modelled: [ZeroDivisionError] here. *)
  Definition join_bodies (bodies : list fbody) (name : option string) : result fbody :=
    let name' := match name with Some n => n | None => String.concat "+" (map fb_name bodies) end in
    bind (mapM (fun b => copy (fb_mesh b)) bodies) (fun meshes =>
    bind (match somes (map fb_lid bodies) with
          | [] => Ok None
          | lids => bind (mapM copy lids) (fun l => Ok (Some (Node Plain l)))
          end) (fun lid =>
    bind (combine_dofs bodies) (fun dofs =>
    let masses := all_set fb_mass bodies in
    let new_mass := option_map Rsum masses in
    bind (match masses, all_set fb_com bodies with
          | Some ms, Some cs =>
            if Reqb (Rsum ms) 0 then Err ZeroDivisionError
            else Ok (Some (vscale (/ Rsum ms) (vsum (map (fun mc => vscale (fst mc) (snd mc)) (combine ms cs)))))
          | _, _ => Ok None
          end) (fun com =>
    bind (new_body (Node Plain meshes) (GivenDofs dofs) new_mass com name' lid) (fun b =>
    let matrix f := option_bind (all_set f bodies) (fun ms => add_dofs_labels_to_matrix b (block_diag (map lm_rows ms))) in
    bind (matrix fb_inertia) (fun i =>
    bind (matrix fb_stiffness) (fun s => Ok (set_matrices b i s)))))))).

  (** ** Transformations *)

  (** [translate], bodies.py:988-996. *)
  Definition fb_translate (b : fbody) (v : vec) : fbody :=
    let move := option_map (fun p => vadd p v) in
    FB (fb_name b) (t_translate (fb_mesh b) v) (option_map (fun l => t_translate l v) (fb_lid b)) (fb_dofs b) (fb_mass b)
       (move (fb_com b)) (move (fb_rc b)) (move (fb_gc b)) (fb_inertia b) (fb_stiffness b).
  (** [rotate], bodies.py:998-1008. *)
  Definition fb_rotate (b : fbody) (a : axis) (theta : R) : fbody :=
    let move := option_map (rotate_point a theta) in
    FB (fb_name b) (t_rotate (fb_mesh b) a theta) (option_map (fun l => t_rotate l a theta) (fb_lid b))
       (map (fun d => (fst d, map (rotate_vector a theta) (snd d))) (fb_dofs b)) (fb_mass b)
       (move (fb_com b)) (move (fb_rc b)) (move (fb_gc b)) (fb_inertia b) (fb_stiffness b).
  (** [mirror], bodies.py:974-986. *)
  Definition fb_mirror (b : fbody) (p : plane) : result fbody :=
    let move := option_map (mirror_point p) in
    bind (t_mirror (fb_mesh b) p) (fun t =>
    bind (option_bind (fb_lid b) (fun l => t_mirror l p)) (fun lid =>
    Ok (FB (fb_name b) t lid
       (map (fun d => (fst d, map (fun r => vsub r (vscale (2 * dot r (pl_normal p)) (pl_normal p))) (snd d))) (fb_dofs b)) (fb_mass b)
       (move (fb_com b)) (move (fb_rc b)) (move (fb_gc b)) (fb_inertia b) (fb_stiffness b)))).
  (** [copy], bodies.py:830-847: the symmetric meshes are built again from their first part. *)
  Definition fb_copy (b : fbody) (name : option string) : result fbody :=
    bind (fb_check b) (fun _ =>
    bind (copy (fb_mesh b)) (fun t =>
    bind (option_bind (fb_lid b) copy) (fun lid =>
    Ok (FB (match name with Some n => n | None => ("copy_of_" ++ fb_name b)%string end) t lid (fb_dofs b) (fb_mass b)
           (fb_com b) (fb_rc b) (fb_gc b) (fb_inertia b) (fb_stiffness b))))).
  Definition fb_translated (b : fbody) (v : vec) (name : option string) : result fbody :=
    bind (fb_copy b name) (fun c => Ok (fb_translate c v)).

  (** ** Arrays *)

  (** [range] of an integer. *)
  Definition zrange (n : Z) : list nat := seq 0 (Z.to_nat n).
  Definition array_indices (nx ny : Z) : list (nat * nat) :=
    List.concat (map (fun j => map (fun i => (i, j)) (zrange nx)) (zrange ny)).
  (** [assemble_regular_array], bodies.py:849-867. *)
  Definition assemble_regular_array (b : fbody) (distance : R) (nx ny : Z) : result fbody :=
    bind (mapM (fun ij => fb_translated b (V (INR (fst ij) * distance) (INR (snd ij) * distance) 0)
                            (Some (str_nat (fst ij) ++ "_" ++ str_nat (snd ij))%string)) (array_indices nx ny)) (fun bodies =>
    bind (join_bodies bodies None) (fun a =>
    bind (build_regular_array (fb_mesh b) distance nx ny) (fun t =>
    Ok (set_name (set_mesh a t) ("array_of_" ++ fb_name b)%string)))).
  (** [assemble_arbitrary_array], bodies.py:869-884, for an array with two columns. *)
  Definition two_digits (n : nat) : string := if Nat.ltb n 10 then ("0" ++ str_nat n)%string else str_nat n.
  Definition assemble_arbitrary_array (b : fbody) (locations : list (R * R)) : result fbody :=
    bind (mapM (fun il => fb_translated b (V (fst (snd il)) (snd (snd il)) 0) (Some ("arbitrary_array_body" ++ two_digits (fst il))%string))
               (combine (seq 0 (List.length locations)) locations)) (fun bodies =>
    match bodies with [] => Err IndexError | _ => join_bodies bodies None end).

  (** ** Extraction of faces and slices *)

  (** [extract_faces], bodies.py:886-908, for indices of an integer array (negative indices count from the end). *)
  Definition fb_extract_faces (b : fbody) (ids : list Z) : result fbody :=
    match fb_mesh b with
    | Node _ _ => Err NotImplementedError
    | Leaf m =>
      bind (extract_faces m ids) (fun r =>
      bind (new_body (Leaf (fst r)) NoDofs None None (fb_name b) None) (fun b' =>
      bind (mapM (fun d => bind (mapM (geti (snd d)) ids) (fun rows => Ok (fst d, rows))) (fb_dofs b)) (fun dofs =>
      Ok (set_dofs b' dofs))))
    end.
  (** [sliced_by_plane] of meshes and collections, meshes.py:256-265 and collections.py:253-254. *)
  Fixpoint t_sliced (p : plane) (t : tree) : result tree :=
    match t with
    | Leaf m => bind (sliced_by_plane set_order m p) (fun l =>
                match l with [m'] => Ok (Leaf m') | _ => Ok (Node Plain (map Leaf l)) end)
    | Node _ l => bind (sequence (map (t_sliced p) l)) (fun l' => Ok (Node Plain l'))
    end.
  (** [sliced_by_plane], bodies.py:910-916. *)
  Definition fb_sliced (b : fbody) (p : plane) : result fbody :=
    bind (t_sliced p (fb_mesh b)) (fun t =>
    bind (option_bind (fb_lid b) (t_sliced p)) (fun lid =>
    new_body t (GivenDofs (fb_dofs b)) None None (fb_name b) lid)).
End Bodies.

(** ** Forces, bodies.py:232-240: real pressures, one for each face. *)
Definition fb_integrate_pressure (b : fbody) (pressure : list R) : result (list (string * R)) :=
  bind (t_props (fb_mesh b)) (fun ps =>
  mapM (fun d =>
    bind (broadcast (fun r p => - dot r (p_normal p)) (snd d) ps) (fun amplitudes =>
    bind (broadcast Rmult pressure amplitudes) (fun l =>
    bind (broadcast (fun x p => x * p_area p) l ps) (fun l' => Ok (fst d, Rsum l'))))) (fb_dofs b)).

(** ** Inertia, bodies.py:575-684 *)

Definition rigid_names : list string :=
  ["Surge"%string; "Sway"%string; "Heave"%string; "Roll"%string; "Pitch"%string; "Yaw"%string].
(** [integrals[axis, combination]]. *)
Definition inertia_integral (ps : list fprops) (rc : vec) (axis : vec -> R) (comb : vec -> R) : R :=
  Rsum (map (fun p => let f := vsub (p_center p) rc in axis (p_normal p) * axis f * comb f * p_area p) ps).
(** The matrix before the multiplication by the density. *)
Definition volumic_inertia (ps : list fprops) (rc com : vec) (vol : R) : list (list R) :=
  let xx f := vx f * vx f in let yy f := vy f * vy f in let zz f := vz f * vz f in
  let xy f := vx f * vy f in let yz f := vy f * vz f in let zx f := vz f * vx f in
  let I := inertia_integral ps rc in
  let i0 := (I vx yy + I vx zz + I vy yy / 3 + I vy zz + I vz yy + I vz zz / 3) / 3 in
  let i1 := (I vx xx / 3 + I vx zz + I vy xx + I vy zz + I vz xx + I vz zz / 3) / 3 in
  let i2 := (I vx xx / 3 + I vx yy + I vy xx + I vy yy / 3 + I vz xx + I vz yy) / 3 in
  let i3 := I vz xy in
  let i4 := I vx yz in
  let i5 := I vy zx in
  let cog := vsub com rc in
  [[vol; 0; 0; 0; vol * vz cog; - vol * vy cog];
   [0; vol; 0; - vol * vz cog; 0; vol * vx cog];
   [0; 0; vol; vol * vy cog; - vol * vx cog; 0];
   [0; - vol * vz cog; vol * vy cog; i0; - i3; - i5];
   [vol * vz cog; 0; - vol * vx cog; - i3; i1; - i4];
   [- vol * vy cog; vol * vx cog; 0; - i5; - i4; i2]].
(** The volume is zero with a mass: the coefficients are nan or infinite, [None] here. *)
Definition inertia_density (rho : R) (mass : option R) (vol : R) : option R :=
  match mass with None => Some rho | Some m => if Reqb vol 0 then None else Some (m / vol) end.
Definition rigid_inertia (b : fbody) (rho : R) : result (list (list (option R))) :=
  match fb_com b with
  | None => Err ValueError
  | Some com =>
    bind (infer_rotation_center b) (fun rc =>
    bind (t_props (fb_mesh b)) (fun ps =>
    bind (volume (fb_mesh b)) (fun vol =>
    Ok (map (map (fun x => option_map (fun d => d * x) (inertia_density rho (fb_mass b) vol))) (volumic_inertia ps rc com vol)))))
  end.
Inductive output_type := BodyDofs | RigidBodyDofs | AllDofs | UnknownOutput.
(** The value for two names: nan unless both are names of rigid dofs. *)
Definition inertia_entry (m : list (list (option R))) (i j : string) : option R :=
  match label_position i rigid_names, label_position j rigid_names with
  | Ok k, Ok l => match nth_error m k with Some r => match nth_error r l with Some x => x | None => None end | None => None end
  | _, _ => None
  end.
(** The order of the labels of [xr.merge] for [all_dofs] is not modelled: the rigid dofs then the others here. *)
Definition compute_rigid_body_inertia (b : fbody) (rho : R) (o : output_type) : result lmatrix :=
  bind (rigid_inertia b rho) (fun m =>
  let body_names := map fst (fb_dofs b) in
  let table names := LM names (map (fun i => map (inertia_entry m i) names) names) in
  match o with
  | BodyDofs => Ok (table body_names)
  | RigidBodyDofs => Ok (table rigid_names)
  | AllDofs => Ok (table (rigid_names ++ filter (fun n => negb (existsb (String.eqb n) rigid_names)) body_names))
  | UnknownOutput => Err ValueError
  end).

(** ** Hydrostatic stiffness, bodies.py:389-573 *)

Definition is_rigid (n : string) : bool := existsb (String.eqb n) rigid_names.
(** [np.isclose(a, b, rtol=1e-4)]. *)
Definition isclose4 (a b : R) : bool := Rleb (Rabs (a - b)) (/ 100000000 + / 10000 * Rabs b).
Definition pair_is (i j a b : string) : bool := String.eqb i a && String.eqb j b.
Definition pair_in (i j a b : string) : bool := pair_is i j a b || pair_is i j b a.
(** The volume times the coordinate of the centre of buoyancy, relative to the rotation centre, minus that of the mass:
    nan ([None]) when the volume or the density is zero. *)
Definition moment_term (vol : R) (cob : option vec) (mass rho : R) (com rc : vec) (x : vec -> R) : option R :=
  match cob with
  | None => None
  | Some c => if Reqb rho 0 then None else Some (vol * (x c - x rc) - mass / rho * (x com - x rc))
  end.
Definition rigid_stiffness (b : fbody) (com : vec) (rho : R) (i j : string) : result (option R) :=
  let t := fb_mesh b in
  bind (volume t) (fun vol =>
  let mass := match fb_mass b with Some m => m | None => rho * vol end in
  bind (infer_rotation_center b) (fun rc =>
  bind (fb_centers b) (fun cs =>
  bind (center_of_buoyancy t) (fun cob =>
  let moment := moment_term vol cob mass rho com rc in
  if pair_is i j "Heave" "Heave" then bind (waterplane_area t) (fun a => Ok (Some a))
  else if pair_in i j "Heave" "Roll" then
    bind (waterplane_integral t (map (fun c => vy c - vy rc) cs)) (fun x => Ok (Some (- x)))
  else if pair_in i j "Heave" "Pitch" then
    bind (waterplane_integral t (map (fun c => vx c - vx rc) cs)) (fun x => Ok (Some x))
  else if pair_is i j "Roll" "Roll" then
    bind (waterplane_integral t (map (fun c => (vy c - vy rc) * (vy c - vy rc)) cs)) (fun x =>
    Ok (option_map (fun m => - x + m) (moment vz)))
  else if pair_in i j "Roll" "Pitch" then
    bind (waterplane_integral t (map (fun c => (vx c - vx rc) * (vy c - vy rc)) cs)) (fun x => Ok (Some x))
  else if pair_is i j "Roll" "Yaw" then Ok (option_map Ropp (moment vx))
  else if pair_is i j "Pitch" "Pitch" then
    bind (waterplane_integral t (map (fun c => (vx c - vx rc) * (vx c - vx rc)) cs)) (fun x =>
    Ok (option_map (fun m => - x + m) (moment vz)))
  else if pair_is i j "Pitch" "Yaw" then Ok (option_map Ropp (moment vy))
  else Ok (Some 0))))).
(** The formula of Newman; [divergence] is that of the influenced dof. *)
Definition flexible_stiffness (b : fbody) (divergence : list R) (rho : R) (i j : string) : result (option R) :=
  let t := fb_mesh b in
  bind (match fb_mass b with
        | None => Ok tt
        | Some m => bind (disp_mass t rho) (fun d => if isclose4 m d then Ok tt else Err NotImplementedError)
        end) (fun _ =>
  bind (dget i (fb_dofs b)) (fun influenced =>
  bind (dget j (fb_dofs b)) (fun radiating =>
  bind (t_props t) (fun ps =>
  bind (broadcast (fun p r => dot (p_normal p) r) ps radiating) (fun normals =>
  bind (broadcast (fun p x => vz (p_center p) * x) ps divergence) (fun zdiv =>
  bind (broadcast (fun r x => vz r + x) influenced zdiv) (fun w =>
  bind (broadcast (fun x y => - x * y) normals w) (fun data =>
  bind (surface_integral t data) (fun x => Ok (Some x)))))))))).
(** [each_hydrostatic_stiffness], bodies.py:389-501. *)
Definition each_hydrostatic_stiffness (b : fbody) (i j : string) (divergence : list R) (rho g : R) : result (option R) :=
  bind (if is_rigid i && is_rigid j then
          match fb_com b with
          | None => Err ValueError
          | Some com => rigid_stiffness b com rho i j
          end
        else flexible_stiffness b divergence rho i j) (fun x => Ok (option_map (fun x => rho * g * x) x)).
(** [compute_hydrostatic_stiffness], bodies.py:503-573; [divergence] is a dict. The divergence [0.0] is an array of one
    element. *)
Definition divergence_dof (divergence : list (string * list R)) (i : string) : list R :=
  if existsb (fun d => String.eqb (str_lower i) (fst d)) (translation_directions ++ rotation_directions) then [0]
  else match dget i divergence with Ok d => d | Err _ => [0] end.
Definition compute_hydrostatic_stiffness (b : fbody) (divergence : list (string * list R)) (rho g : R) : result lmatrix :=
  let names := map fst (fb_dofs b) in
  match names with
  | [] => Err AttributeError
  | _ =>
    bind (mapM (fun i => mapM (fun j => each_hydrostatic_stiffness b i j (divergence_dof divergence i) rho g) names) names)
         (fun rows => Ok (LM names rows))
  end.
