(** Model of the floating bodies as Python objects that refer to mesh objects: which objects are shared, modified in place and
    remembered ([cached_property] and [lru_cache]). bodies/bodies.py:64-145, 765-803, 830-847, 974-1030, 1126-1162.

    Simplifications:
    - the content of a mesh is its list of faces, of any type; a collection of meshes created by a join is one object;
    - a transformation, the healing and the choice of downward normals are functions of the content;
    - the dofs, the centres and the names of the bodies are not in this model (they are in Model_Body);
    - an [lru_cache] may forget any of its values at any time. *)
From Coq Require Import Reals.
From Coq Require Import List Bool Arith.
From Verif Require Import Model_Base.
Import ListNotations.
Open Scope nat_scope.

Section Bodies.
  Variable face_type : Type.
  Variable estimate_type : Type.
  Definition content := list face_type.
  (** [Mesh.heal_mesh] and [with_normal_vector_going_down]. *)
  Variable heal : content -> content.
  Variable downwards : content -> content.
  (** The computation in [first_irregular_frequency_estimate], from the mesh, the lid and g. *)
  Variable estimate : R -> content -> option content -> estimate_type.

  (** A body: the mesh object, the lid object, and the value in [__dict__["mesh_including_lid"]]: the mesh object alone, or the two
      objects of the [CollectionOfMeshes] (lines 137-142). *)
  Record hbody := HBody { hb_mesh : nat; hb_lid : option nat; hb_cached : option (nat * option nat) }.
  (** The mesh objects, the body objects, and the values of [lru_cache] (the keys are the body object and g). *)
  Record world := World { heap : list content; bodies : list hbody; memo : list ((nat * R) * estimate_type) }.

  (** What a user can do; the objects are designated by their number in the order of creation. *)
  Inductive op :=
  | NewMesh (c : content)
  | NewBody (m : nat) (lid : option nat) (** [FloatingBody(mesh=m, lid_mesh=lid)] *)
  | TransformMesh (m : nat) (f : content -> content) (** in place *)
  | MoveBody (b : nat) (f : content -> content) (** [translate], [rotate] or [mirror] in place *)
  | ClipBody (b : nat) (f : content -> content) (** [clip] or [keep_immersed_part] in place *)
  | CopyBody (b : nat)
  | JoinBodies (bs : list nat)
  | SetMesh (b : nat) (m : nat) (** [body.mesh = m] *)
  | SetLid (b : nat) (lid : option nat) (** [body.lid_mesh = lid] *)
  | WholeMesh (b : nat) (** [body.mesh_including_lid] *)
  | Estimate (b : nat) (g : R) (** [body.first_irregular_frequency_estimate(g=g)] *)
  | Forget (k : nat). (** the [lru_cache] forgets one of its values *)
  Inductive output := Done | Faces (c : content) | Estimated (x : estimate_type).

  Definition put {X} (k : nat) (x : X) (l : list X) : list X := firstn k l ++ match skipn k l with [] => [] | _ :: r => x :: r end.
  Definition mesh_at (w : world) (m : nat) : content := nth m (heap w) [].
  Definition change (m : nat) (f : content -> content) (w : world) : world :=
    World (put m (f (mesh_at w m)) (heap w)) (bodies w) (memo w).
  Definition change_lid (lid : option nat) (f : content -> content) (w : world) : world :=
    match lid with None => w | Some l => change l f w end.
  Definition set_body (b : nat) (x : hbody) (w : world) : world := World (heap w) (put b x (bodies w)) (memo w).
  Definition allocate (c : content) (w : world) : world * nat := (World (heap w ++ [c]) (bodies w) (memo w), length (heap w)).
  Definition add_body (x : hbody) (w : world) : world := World (heap w) (bodies w ++ [x]) (memo w).
  (** The content read by a user of [mesh_including_lid]. *)
  Definition whole (w : world) (c : nat * option nat) : content :=
    mesh_at w (fst c) ++ match snd c with None => [] | Some l => mesh_at w l end.

  (** [copy.deepcopy]: each object reached is copied once. *)
  Definition copy_mesh (m : nat) (s : world * list (nat * nat)) : (world * list (nat * nat)) * nat :=
    match find (fun p => Nat.eqb (fst p) m) (snd s) with
    | Some p => (s, snd p)
    | None => let '(w, n) := allocate (mesh_at (fst s) m) (fst s) in ((w, (m, n) :: snd s), n)
    end.
  Definition copy_lid (lid : option nat) (s : world * list (nat * nat)) : (world * list (nat * nat)) * option nat :=
    match lid with None => (s, None) | Some l => let '(s', n) := copy_mesh l s in (s', Some n) end.
  Definition copy_cached (c : option (nat * option nat)) (s : world * list (nat * nat)) : (world * list (nat * nat)) * option (nat * option nat) :=
    match c with
    | None => (s, None)
    | Some (m, l) => let '(s1, m') := copy_mesh m s in let '(s2, l') := copy_lid l s1 in (s2, Some (m', l'))
    end.
  Definition copy_body (x : hbody) (w : world) : world :=
    let '(s1, m) := copy_mesh (hb_mesh x) (w, []) in
    let '(s2, l) := copy_lid (hb_lid x) s1 in
    let '(s3, c) := copy_cached (hb_cached x) s2 in
    add_body (HBody m l c) (fst s3).

  (** Lines 64-114: the mesh is kept by reference and healed in place if it has faces; the lid is copied, unless it is empty. *)
  Definition new_body (m : nat) (lid : option nat) (w : world) : world :=
    let '(w1, l) := match lid with
                    | None => (w, None)
                    | Some l => match mesh_at w l with
                                | [] => (w, None)
                                | c => let '(w', n) := allocate (downwards c) w in (w', Some n)
                                end
                    end in
    let w2 := match mesh_at w1 m with [] => w1 | _ => change m heal w1 end in
    add_body (HBody m l None) w2.
  (** Lines 765-803: copies of the meshes and of the lids, gathered in two collections. *)
  Definition lids (w : world) (xs : list hbody) : list content :=
    flat_map (fun x => match hb_lid x with None => [] | Some l => [mesh_at w l] end) xs.
  Definition join (xs : list hbody) (w : world) : world :=
    let '(w1, m) := allocate (concat (map (fun x => mesh_at w (hb_mesh x)) xs)) w in
    match lids w xs with
    | [] => new_body m None w1
    | ls => let '(w2, l) := allocate (concat ls) w1 in new_body m (Some l) w2
    end.

  Definition memo_eqb (b : nat) (g : R) (e : (nat * R) * estimate_type) : bool := Nat.eqb (fst (fst e)) b && Reqb (snd (fst e)) g.
  Definition body_do (w : world) (b : nat) (f : hbody -> world * output) : option (world * output) :=
    match nth_error (bodies w) b with None => None | Some x => Some (f x) end.
  Definition mesh_exists (w : world) (m : nat) : bool := Nat.ltb m (length (heap w)).
  Definition lid_exists (w : world) (l : option nat) : bool := match l with None => true | Some m => mesh_exists w m end.
  Fixpoint all_some {X} (l : list (option X)) : option (list X) :=
    match l with
    | [] => Some []
    | None :: _ => None
    | Some x :: r => match all_some r with None => None | Some s => Some (x :: s) end
    end.

  (** [None]: the operation designates an object that does not exist. *)
  Definition perform (w : world) (o : op) : option (world * output) :=
    match o with
    | NewMesh c => Some (fst (allocate c w), Done)
    | NewBody m lid => if mesh_exists w m && lid_exists w lid then Some (new_body m lid w, Done) else None
    | TransformMesh m f => if mesh_exists w m then Some (change m f w, Done) else None
    | MoveBody b f => body_do w b (fun x => (change_lid (hb_lid x) f (change (hb_mesh x) f w), Done))
    | ClipBody b f => body_do w b (fun x =>
        let w' := change_lid (hb_lid x) f (change (hb_mesh x) f w) in
        (match hb_lid x with
         | Some l => match mesh_at w' l with [] => set_body b (HBody (hb_mesh x) None (hb_cached x)) w' | _ => w' end
         | None => w'
         end, Done))
    | CopyBody b => body_do w b (fun x => (copy_body x w, Done))
    | JoinBodies bs => match bs, all_some (map (nth_error (bodies w)) bs) with
                       | [], _ => None
                       | _, None => None
                       | _, Some xs => Some (join xs w, Done)
                       end
    | SetMesh b m => if mesh_exists w m then body_do w b (fun x => (set_body b (HBody m (hb_lid x) (hb_cached x)) w, Done)) else None
    | SetLid b lid => if lid_exists w lid then body_do w b (fun x => (set_body b (HBody (hb_mesh x) lid (hb_cached x)) w, Done)) else None
    | WholeMesh b => body_do w b (fun x =>
        match hb_cached x with
        | Some c => (w, Faces (whole w c))
        | None => let c := (hb_mesh x, hb_lid x) in (set_body b (HBody (hb_mesh x) (hb_lid x) (Some c)) w, Faces (whole w c))
        end)
    | Estimate b g => body_do w b (fun x =>
        match find (memo_eqb b g) (memo w) with
        | Some e => (w, Estimated (snd e))
        | None => let v := estimate g (mesh_at w (hb_mesh x)) (match hb_lid x with None => None | Some l => Some (mesh_at w l) end) in
                  (World (heap w) (bodies w) (((b, g), v) :: memo w), Estimated v)
        end)
    | Forget k => Some (World (heap w) (bodies w) (firstn k (memo w) ++ skipn (S k) (memo w)), Done)
    end.
  Fixpoint history (w : world) (os : list op) : option (world * list output) :=
    match os with
    | [] => Some (w, [])
    | o :: r => match perform w o with
                | None => None
                | Some (w', out) => match history w' r with None => None | Some (w'', outs) => Some (w'', out :: outs) end
                end
    end.
  Definition empty_world : world := World [] [] [].
End Bodies.
Arguments NewMesh {face_type}. Arguments NewBody {face_type}. Arguments TransformMesh {face_type}. Arguments MoveBody {face_type}.
Arguments ClipBody {face_type}. Arguments CopyBody {face_type}. Arguments JoinBodies {face_type}. Arguments SetMesh {face_type}.
Arguments SetLid {face_type}. Arguments WholeMesh {face_type}. Arguments Estimate {face_type}. Arguments Forget {face_type}.
Arguments heap {face_type estimate_type}. Arguments bodies {face_type estimate_type}. Arguments memo {face_type estimate_type}.
Arguments World {face_type estimate_type}. Arguments Done {face_type estimate_type}. Arguments Faces {face_type estimate_type}.
Arguments Estimated {face_type estimate_type}. Arguments mesh_at {face_type estimate_type}. Arguments change {face_type estimate_type}.
Arguments change_lid {face_type estimate_type}. Arguments set_body {face_type estimate_type}. Arguments allocate {face_type estimate_type}.
Arguments add_body {face_type estimate_type}. Arguments whole {face_type estimate_type}. Arguments copy_mesh {face_type estimate_type}.
Arguments copy_lid {face_type estimate_type}. Arguments copy_cached {face_type estimate_type}. Arguments copy_body {face_type estimate_type}.
Arguments lids {face_type estimate_type}. Arguments body_do {face_type estimate_type}.
Arguments memo_eqb {estimate_type}. Arguments empty_world {face_type estimate_type}.
Arguments new_body {face_type estimate_type}. Arguments join {face_type estimate_type}. Arguments perform {face_type estimate_type}.
Arguments mesh_exists {face_type estimate_type}. Arguments lid_exists {face_type estimate_type}. Arguments history {face_type estimate_type}.
