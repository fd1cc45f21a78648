(** Model of the writers and loaders of mesh files for the formats NEM, MAR, NAT, GDF, HST and PNL, and of the writer of STL
    files: io/mesh_writers.py and io/mesh_loaders.py.

    The content of a file is the text written in it. Names of meshes, warnings and printed messages are left out. An open file
    is the list of the lines that remain to be read. The other formats, most of which go through the VTK library, are not
    modelled. *)
From Coq Require Import Reals String Ascii.
From Coq Require Import List Bool ZArith Arith.
From Verif Require Import Model_Base Model_Geometry Model_Mesh Model_Tree Model_Text.
Import ListNotations.
Open Scope Z_scope.

(** ** Writers *)

Definition line (t : text) : text := t ++ [newline].
Definition coordinates (v : vec) : list R := [vx v; vy v; vz v].
(** The rows of [faces + 1]. *)
Definition face_row (f : face) : list Z := map (fun i => Z.of_nat i + 1) (face_ids f).
(** [enumerate(l)], counting from one. *)
Definition numbered {A} (l : list A) : list (Z * A) := combine (map Z.of_nat (seq 1 (length l))) l.

(** [max(np.shape(a))] for an array with [columns] columns. *)
Definition max_shape {A} (columns : nat) (rows : list A) : Z := Z.of_nat (Nat.max (length rows) columns).

(** [write_NEM], mesh_writers.py:434-461. *)
Definition tabbed (l : list text) : text := match l with [] => [] | t :: l' => t ++ concat (map (fun u => tab :: u) l') end.
Definition write_NEM (m : mesh) : text :=
  line (dec (Z.of_nat (nb_vertices m))) ++
  line (dec (Z.of_nat (nb_faces m))) ++
  concat (map (fun v => line (tabbed (map (fmt_fixed 15) (coordinates v)))) (m_vertices m)) ++
  concat (map (fun f => line (tabbed (map (fmt_int 10) (face_row f)))) (m_faces m)).

(** [write_MAR], mesh_writers.py:503-537. *)
Definition write_MAR (m : mesh) : text :=
  line (fmt_int 6 2 ++ fmt_int 6 0) ++
  concat (map (fun p => line (fmt_int 6 (fst p) ++ concat (map (fmt_fixed 16) (coordinates (snd p))))) (numbered (m_vertices m))) ++
  line (concat (map (fmt_int 6) [0; 0; 0; 0; 0])) ++
  line (join_lines (map (fun f => concat (map (fmt_int 10) (face_row f))) (m_faces m))) ++
  line (concat (map (fmt_int 6) [0; 0; 0; 0])).

(** [write_NAT], mesh_writers.py:402-431. *)
Definition write_NAT (m : mesh) : text :=
  line (fmt_int 6 0 ++ fmt_int 6 0) ++
  line (fmt_int 6 (max_shape 3 (m_vertices m)) ++ fmt_int 6 (max_shape 4 (m_faces m))) ++
  concat (map (fun v => line (concat (map (fmt_sci "E" 15) (coordinates v)))) (m_vertices m)) ++
  concat (map (fun f => line (concat (map (fmt_int 10) (face_row f)))) (m_faces m)).

(** [write_GDF], mesh_writers.py:464-500. The date, [time.strftime('%c')], is an argument. A face that refers to a missing
    vertex raises an error. *)
Definition write_GDF (date : text) (ulen gravity : R) (isx isy : Z) (m : mesh) : result text :=
  bind (mapM (fun f => mapM (fun i => get (m_vertices m) i) (face_ids f)) (m_faces m)) (fun corners =>
  Ok (line (lit "GDF file generated by meshmagick on " ++ date) ++
      line (fmt_fixed 16 ulen ++ fmt_fixed 16 gravity) ++
      line (fmt_int 12 isx ++ fmt_int 12 isy) ++
      line (fmt_int 12 (max_shape 4 (m_faces m))) ++
      concat (map (fun vs => concat (map (fun v => line (concat (map (fmt_sci "E" 16) (coordinates v)))) vs)) corners))).

(** [write_HST], mesh_writers.py:126-177. *)
Definition write_HST (m : mesh) : text :=
  line (lit "PROJECT:") ++ line (lit "USERS:   meshmagick") ++ line [] ++
  line (lit "NBODY   1") ++ line (lit "RHO   1025.0") ++ line (lit "GRAVITY   9.81") ++ line [] ++
  line (lit "COORDINATES") ++
  line (join_lines (map (fun p => fmt_int 10 (fst p) ++ concat (map (fmt_sci "E" 16) (coordinates (snd p)))) (numbered (m_vertices m)))) ++
  line (lit "ENDCOORDINATES") ++ line [] ++
  line (lit "PANEL TYPE 0") ++
  line (join_lines (map (fun f => concat (map (fmt_int 10) (face_row f))) (m_faces m))) ++
  line (lit "ENDPANEL") ++ line [] ++
  line (lit "ENDFILE").

(** [write_PNL], mesh_writers.py:621-658. *)
Definition pnl_face (p : Z * face) : text :=
  let '(i, f) := p in
  if Nat.eqb (fc f) (fd f)
  then fmt_int 5 i ++ fmt_int 5 3 ++ concat (map (fmt_int 10) (firstn 3 (face_row f)))
  else fmt_int 5 i ++ fmt_int 5 4 ++ concat (map (fmt_int 10) (face_row f)).
Definition write_PNL (m : mesh) : text :=
  line (lit "    --------------Hull Mesh File---------------") ++ line [] ++
  line (lit "    # Number of Panels, Nodes, X-Symmetry and Y-Symmetry") ++
  line (lit "         " ++ dec (Z.of_nat (nb_faces m)) ++ lit "         " ++ dec (Z.of_nat (nb_vertices m)) ++
        lit "         0         0") ++
  line [] ++
  line (lit "    #Start Definition of Node Coordinates     ! node_number   x   y   z") ++
  concat (map (fun p => line (fmt_int 5 (fst p) ++ concat (map (fmt_fixed 18) (coordinates (snd p))))) (numbered (m_vertices m))) ++
  line (lit "   #End Definition of Node Coordinates") ++ line [] ++
  line (lit "   #Start Definition of Node Relations   ! panel_number  number_of_vertices   Vertex1_ID   Vertex2_ID   Vertex3_ID   (Vertex4_ID)") ++
  concat (map (fun p => line (pnl_face p)) (numbered (m_faces m))) ++
  line (lit "   #End Definition of Node Relations") ++ line [] ++
  line (lit "    --------------End Hull Mesh File---------------").

(** ** Loaders *)

(** [np.array(rows, dtype=...)]: rows of different lengths are refused. *)
Definition np_array {A} (rows : list (list A)) : result (list (list A)) :=
  if same_lengths rows then Ok rows else Err ValueError.
(** [faces - 1] *)
Definition minus_one (rows : list (list Z)) : list (list Z) := map (map (fun z => z - 1)) rows.

(** [xOz_Plane] and [yOz_Plane], geometry.py:407-408. *)
Definition xOz_Plane : plane := Plane (V 0 1 0) (V 0 0 0).
Definition yOz_Plane : plane := Plane (V 1 0 0) (V 0 0 0).

(** A loop [for i in range(n)] that parses one line per turn. *)
Fixpoint read_rows {A} (parse : text -> result A) (n : nat) (f : list text) : result (list A * list text) :=
  match n with
  | O => Ok ([], f)
  | S n' =>
    let '(l, f') := readline f in
    bind (parse l) (fun x => bind (read_rows parse n' f') (fun r => Ok (x :: fst r, snd r)))
  end.
(** [list(map(float, line.split()))] and [list(map(int, line.split()))] *)
Definition floats (l : text) : result (list R) := mapM float_of (split l).
Definition ints (l : text) : result (list Z) := mapM int_of (split l).

(** The number of elements of [range(n)]: none when [n] is negative. *)
Definition times (n : Z) : nat := Z.to_nat n.

(** [load_NEM], mesh_loaders.py:959-995. *)
Definition load_NEM (t : text) : result tree :=
  let f := readlines t in
  let '(l1, f) := readline f in
  bind (int_of l1) (fun nv =>
  let '(l2, f) := readline f in
  bind (int_of l2) (fun nf =>
  bind (read_rows floats (times nv) f) (fun r =>
  bind (np_array (fst r)) (fun vertices =>
  bind (read_rows ints (times nf) (snd r)) (fun r' =>
  bind (np_array (fst r')) (fun faces =>
  bind (new_mesh vertices (minus_one faces)) (fun m => Ok (Leaf m)))))))).

(** The two loops of [load_MAR], mesh_loaders.py:769-774 and 778-783: rows are read until the first word of a line is [0]. A
    line without words makes [line[0]] fail. *)
Fixpoint read_until_zero {A} (parse : list text -> result A) (f : list text) : result (list A * list text) :=
  match f with
  | [] => Err IndexError
  | l :: f' =>
    match split l with
    | [] => Err IndexError
    | w :: ws =>
      if text_eqb w (lit "0") then Ok ([], f')
      else bind (parse (w :: ws)) (fun x => bind (read_until_zero parse f') (fun r => Ok (x :: fst r, snd r)))
    end
  end.

(** [load_MAR], mesh_loaders.py:744-798. *)
Definition load_MAR (t : text) : result tree :=
  let '(header, f) := readline (readlines t) in
  match split header with
  | [_; symmetric_mesh] =>
    bind (read_until_zero (fun ws => mapM float_of (tl ws)) f) (fun r =>
    bind (np_array (fst r)) (fun vertices =>
    bind (read_until_zero (mapM int_of) (snd r)) (fun r' =>
    bind (np_array (fst r')) (fun faces =>
    bind (int_of symmetric_mesh) (fun s =>
    bind (new_mesh vertices (minus_one faces)) (fun m =>
    if s =? 1 then ReflectionSymmetricMesh (Leaf m) xOz_Plane else Ok (Leaf m)))))))
  | _ => Err ValueError
  end.

(** [load_NAT], mesh_loaders.py:632-691. *)
Definition load_NAT (t : text) : result tree :=
  let '(_, f) := readline (readlines t) in
  let '(l, f) := readline f in
  bind (ints l) (fun header =>
  match header with
  | [nv; nf] =>
    bind (read_rows floats (times nv) f) (fun r =>
    bind (np_array (fst r)) (fun vertices =>
    bind (read_rows ints (times nf) (snd r)) (fun r' =>
    bind (np_array (fst r')) (fun faces =>
    bind (new_mesh vertices (minus_one faces)) (fun m => Ok (Leaf m))))))
  | _ => Err ValueError
  end).

(** [np.genfromtxt(lines)]: the part of a line after [#] is a comment, lines without words are skipped, and lines with
    different numbers of words are refused. A word which is not a number gives [nan] with numpy; it is an error here. *)
Fixpoint before_hash (t : text) : text :=
  match t with [] => [] | c :: t' => if is_char 35 c then [] else c :: before_hash t' end.
Definition genfromtxt (f : list text) : result (list (list R)) :=
  let words := filter (fun ws => match ws with [] => false | _ => true end) (map (fun l => split (before_hash l)) f) in
  if same_lengths words then mapM (mapM float_of) words else Err ValueError.

(** [np.unique(rows, axis=0, return_inverse=True)]: the sorted rows without repetition, and the position of each row. *)
Fixpoint row_ltb (a b : list R) : bool :=
  match a, b with
  | x :: a', y :: b' => Rltb x y || (Reqb x y && row_ltb a' b')
  | _, _ => false
  end.
Fixpoint row_eqb (a b : list R) : bool :=
  match a, b with
  | x :: a', y :: b' => Reqb x y && row_eqb a' b'
  | [], [] => true
  | _, _ => false
  end.
Fixpoint insert_row (r : list R) (l : list (list R)) : list (list R) :=
  match l with
  | [] => [r]
  | x :: l' => if row_eqb r x then l else if row_ltb r x then r :: l else x :: insert_row r l'
  end.
Definition unique_rows (rows : list (list R)) : list (list R) := fold_right insert_row [] rows.
Fixpoint find_row (r : list R) (l : list (list R)) : nat :=
  match l with [] => O | x :: l' => if row_eqb r x then O else S (find_row r l') end.

(** [a.reshape(-1, n)] for a list of values. *)
Fixpoint group {A} (n : nat) (fuel : nat) (l : list A) : list (list A) :=
  match fuel, l with
  | S k, _ :: _ => firstn n l :: group n k (skipn n l)
  | _, _ => []
  end.
Definition reshape_rows {A} (n : nat) (l : list A) : result (list (list A)) :=
  if Nat.eqb (Nat.modulo (length l) n) 0 then Ok (group n (length l) l) else Err ValueError.

(** The two first values of [a, b = map(conversion, line.split()[:2])]; a third word is ignored. *)
Definition two {A} (conversion : text -> result A) (l : text) : result (A * A) :=
  match split l with
  | a :: b :: _ => bind (conversion a) (fun x => bind (conversion b) (fun y => Ok (x, y)))
  | [a] => bind (conversion a) (fun _ => Err ValueError)
  | [] => Err ValueError
  end.

(** [load_GDF], mesh_loaders.py:694-741. *)
Definition load_GDF (t : text) : result tree :=
  let '(_, f) := readline (readlines t) in
  let '(l1, f) := readline f in
  bind (two float_of l1) (fun _ =>
  let '(l2, f) := readline f in
  bind (two int_of l2) (fun sym =>
  let '(l3, f) := readline f in
  bind (match split l3 with [] => Err IndexError | w :: _ => int_of w end) (fun npan =>
  bind (genfromtxt f) (fun rows =>
  bind (reshape_rows 3 (concat rows)) (fun faces_vertices =>
  let vertices := unique_rows faces_vertices in
  let indices := map (fun r => Z.of_nat (find_row r vertices)) faces_vertices in
  bind (reshape_rows 4 indices) (fun faces =>
  if negb (Z.of_nat (length faces) =? npan) then Err ValueError else
  bind (new_mesh vertices faces) (fun m =>
  let '(isx, isy) := sym in
  if (isx =? 1) && (isy =? 1)
  then bind (ReflectionSymmetricMesh (Leaf m) yOz_Plane) (fun half => ReflectionSymmetricMesh half xOz_Plane)
  else if isx =? 1 then ReflectionSymmetricMesh (Leaf m) yOz_Plane
  else if isy =? 1 then ReflectionSymmetricMesh (Leaf m) xOz_Plane
  else Ok (Leaf m)))))))).

(** The loop of [load_HST], mesh_loaders.py:155-212. The variables [x, y, z], [v1, v2, v3, v4] and [i_face] keep their
    previous values when the number of words of a line is unexpected. *)
Inductive hst_context := Nowhere | InVertices | InPanels (type : Z).
Record hst := Hst {
  context : hst_context;
  xyz : option (list text);
  v1234 : option (list text);
  i_face : option Z;
  hst_vertices : list (list text);
  hst_faces : list (list text);
  project : option text;
  symmetry : option text }.
Definition hst_start : hst := Hst Nowhere None None None [] [] None None.
Definition with_context (c : hst_context) (s : hst) : hst :=
  Hst c (xyz s) (v1234 s) (i_face s) (hst_vertices s) (hst_faces s) (project s) (symmetry s).
(** [vertices.append([x, y, z])]; [UnboundLocalError] when the variables have no value yet. *)
Definition add_vertex (v : option (list text)) (s : hst) : result hst :=
  match v with
  | None => Err OtherException
  | Some w => Ok (Hst (context s) v (v1234 s) (i_face s) (hst_vertices s ++ [w]) (hst_faces s) (project s) (symmetry s))
  end.
Definition add_face (c : option (list text)) (i : option Z) (s : hst) : result hst :=
  match c with
  | None => Err OtherException
  | Some w => Ok (Hst (context s) (xyz s) c i (hst_vertices s) (hst_faces s ++ [w]) (project s) (symmetry s))
  end.
(** [line[len(keyword)+1:].lstrip(':').strip()] *)
Fixpoint strip_colons (t : text) : text :=
  match t with [] => [] | c :: t' => if is_char 58 c then strip_colons t' else t end.
Definition keyword_value (keyword l : text) : text := strip (strip_colons (skipn (length keyword + 1) l)).

(** One line that is neither blank nor [ENDFILE] outside of the blocks. *)
Definition other_line (l : text) (s : hst) : hst :=
  if startswith (lit "PROJECT") l then
    Hst (context s) (xyz s) (v1234 s) (i_face s) (hst_vertices s) (hst_faces s) (Some (keyword_value (lit "PROJECT") l)) (symmetry s)
  else if startswith (lit "SYMMETRY") l then
    Hst (context s) (xyz s) (v1234 s) (i_face s) (hst_vertices s) (hst_faces s) (project s) (Some (keyword_value (lit "SYMMETRY") l))
  else s.

Definition is_panels (n : Z) (c : hst_context) : bool := match c with InPanels t => t =? n | _ => false end.
Definition is_vertices (c : hst_context) : bool := match c with InVertices => true | _ => false end.

Fixpoint hst_loop (lines : list text) (s : hst) : result hst :=
  match lines with
  | [] => Ok s
  | l0 :: rest =>
    let l := lstrip l0 in
    if text_eqb l [] then hst_loop rest s
    else if startswith (lit "COORDINATES") l then hst_loop rest (with_context InVertices s)
    else if is_vertices (context s) && startswith (lit "ENDCOORDINATES") l then hst_loop rest (with_context Nowhere s)
    else if startswith (lit "PANEL") l then
      bind (int_of (skipn 10 l)) (fun n => hst_loop rest (with_context (InPanels n) s))
    else if (is_panels 0 (context s) || is_panels 1 (context s)) && startswith (lit "ENDPANEL") l
      then hst_loop rest (with_context Nowhere s)
    else if is_vertices (context s) then
      bind (match split l with
            | [i; x; y; z] =>
              bind (int_of i) (fun n =>
              if n =? Z.of_nat (length (hst_vertices s)) + 1 then add_vertex (Some [x; y; z]) s else Err ValueError)
            | [x; y; z] => add_vertex (Some [x; y; z]) s
            | _ => add_vertex (xyz s) s
            end) (hst_loop rest)
    else if is_panels 0 (context s) then
      bind (match split l with
            | [a; b; c] => add_face (Some [a; b; c; c]) (i_face s) s
            | [a; b; c; d] => add_face (Some [a; b; c; d]) (i_face s) s
            | _ => add_face (v1234 s) (i_face s) s
            end) (hst_loop rest)
    else if is_panels 1 (context s) then
      bind (match split l with
            | [i; a; b; c] =>
              bind (int_of i) (fun n =>
              if n =? Z.of_nat (length (hst_faces s)) + 1 then add_face (Some [a; b; c; c]) (Some n) s else Err ValueError)
            | [i; a; b; c; d] =>
              bind (int_of i) (fun n =>
              if n =? Z.of_nat (length (hst_faces s)) + 1 then add_face (Some [a; b; c; d]) (Some n) s else Err ValueError)
            | _ =>
              match i_face s with
              | None => Err OtherException
              | Some n => if n =? Z.of_nat (length (hst_faces s)) + 1 then add_face (v1234 s) (Some n) s else Err ValueError
              end
            end) (hst_loop rest)
    else if startswith (lit "ENDFILE") l then Ok s
    else hst_loop rest (other_line l s)
  end.

(** [load_HST], mesh_loaders.py:122-233. *)
Definition load_HST (t : text) : result tree :=
  bind (hst_loop (readlines t) hst_start) (fun s =>
  bind (mapM (mapM float_of) (hst_vertices s)) (fun vertices =>
  bind (mapM (mapM int_of) (hst_faces s)) (fun faces =>
  bind (new_mesh vertices (minus_one faces)) (fun m =>
  match symmetry s with
  | Some v =>
    if text_eqb v (lit "1") then ReflectionSymmetricMesh (Leaf m) xOz_Plane
    else if text_eqb v (lit "2") then
      bind (ReflectionSymmetricMesh (Leaf m) yOz_Plane) (fun half => ReflectionSymmetricMesh half xOz_Plane)
    else Ok (Leaf m)
  | None => Ok (Leaf m)
  end)))).

(** The loop on the faces of [load_PNL], mesh_loaders.py:1026-1036. A number of corners that is neither 3 nor 4 leaves a row of
    zeros. *)
Fixpoint pnl_faces (i : Z) (n : nat) (f : list text) : result (list (list Z)) :=
  match n with
  | O => Ok []
  | S n' =>
    let '(l, f') := readline f in
    bind (ints l) (fun w =>
    match w with
    | index :: nb_corners :: data =>
      if negb (i + 1 =? index) then Err AssertionError else
      bind (if nb_corners =? 3
            then match data with [a; b; c] => Ok [a; b; c; c] | _ => Err AssertionError end
            else if nb_corners =? 4
            then match data with [a; b; c; d] => Ok [a; b; c; d] | _ => Err AssertionError end
            else Ok [0; 0; 0; 0]) (fun row =>
      bind (pnl_faces (i + 1) n' f') (fun rows => Ok (row :: rows)))
    | _ => Err ValueError
    end)
  end.

(** [np.genfromtxt(lines, usecols=(1, 2, 3))]: only these columns are converted; a line with fewer columns is refused. A single line gives an array with one dimension, that the constructor of meshes refuses with an [IndexError]. *)
Definition genfromtxt_columns (f : list text) : result (list (list R)) :=
  let words := filter (fun ws => match ws with [] => false | _ => true end) (map (fun l => split (before_hash l)) f) in
  bind (mapM (fun ws => match ws with _ :: x :: y :: z :: _ => mapM float_of [x; y; z] | _ => Err ValueError end) words) (fun rows =>
  match rows with [_] => Err IndexError | _ => Ok rows end).

(** [load_PNL], mesh_loaders.py:998-1051. *)
Definition skip_lines (n : nat) (f : list text) : list text := skipn n f.
Definition load_PNL (t : text) : result tree :=
  let f := skip_lines 3 (readlines t) in
  let '(l, f) := readline f in
  bind (ints l) (fun header =>
  match header with
  | [nb_faces; nb_vertices; x_sym; y_sym] =>
    let f := skip_lines 2 f in
    bind (genfromtxt_columns (firstn (times nb_vertices) f)) (fun vertices =>
    let f := skip_lines 3 (skip_lines (times nb_vertices) f) in
    bind (if nb_faces <? 0 then Err ValueError else Ok tt) (fun _ =>
    bind (pnl_faces 0 (times nb_faces) f) (fun faces =>
    bind (new_mesh vertices (minus_one faces)) (fun m =>
    if (x_sym =? 1) && (y_sym =? 0) then ReflectionSymmetricMesh (Leaf m) yOz_Plane
    else if (x_sym =? 0) && (y_sym =? 1) then ReflectionSymmetricMesh (Leaf m) xOz_Plane
    else if (x_sym =? 1) && (y_sym =? 1) then
      bind (ReflectionSymmetricMesh (Leaf m) xOz_Plane) (fun half => ReflectionSymmetricMesh half yOz_Plane)
    else Ok (Leaf m)))))
  | _ => Err ValueError
  end).

(** ** The writer of STL files, which works on the array of faces of its caller *)

(** [np.where(faces[:, 0] != faces[:, -1])[0]]: the quadrangles. *)
Definition is_quad (f : face) : bool := negb (Nat.eqb (fa f) (fd f)).
(** [new_faces], mesh_writers.py:563-565. *)
Definition first_half (f : face) : face := F (fa f) (fb f) (fc f) (fa f).
(** The assignments in the array [faces] of the caller, mesh_writers.py:567-568. *)
Definition second_half (f : face) : face := F (fa f) (fc f) (fd f) (fa f).
Definition stl_faces_after (fs : list face) : list face := map (fun f => if is_quad f then second_half f else f) fs.
(** The array that is written, mesh_writers.py:570. *)
Definition stl_faces (fs : list face) : list face := stl_faces_after fs ++ map first_half (filter is_quad fs).

(** [n /= np.linalg.norm(n)]: [nan] when the norm is zero. *)
Definition fmt_normal (n : vec) : text :=
  concat (map (fun x => if Reqb (norm n) 0 then pad 15 (lit "nan") else fmt_sci "e" 15 (x / norm n)) (coordinates n)).
Definition stl_facet (vs : list vec) (f : face) : result text :=
  if negb (Nat.eqb (fa f) (fd f)) then Err RuntimeError else
  bind (get vs (fa f)) (fun v0 => bind (get vs (fb f)) (fun v1 => bind (get vs (fc f)) (fun v2 =>
  Ok (line (lit "  facet normal " ++ fmt_normal (cross (vsub v1 v0) (vsub v2 v0))) ++
      line (lit "    outer loop") ++
      concat (map (fun v => line (lit "      vertex" ++ concat (map (fmt_sci "e" 15) (coordinates v)))) [v0; v1; v2]) ++
      line (lit "    endloop") ++ line (lit "  endfacet"))))).

(** [write_STL], mesh_writers.py:544-600: the content of the file, and the faces of the mesh afterwards. *)
Definition write_STL (m : mesh) : result text * mesh :=
  (bind (mapM (stl_facet (m_vertices m)) (stl_faces (m_faces m))) (fun facets =>
   Ok (line (lit "solid meshmagick") ++ concat facets ++ line (lit "endsolid meshmagick"))),
   Mesh (m_vertices m) (stl_faces_after (m_faces m))).

(** ** [write_mesh], mesh_writers.py:14-35, for the formats of this file

    The writers other than [write_STL] only read the arrays of the mesh: [faces + 1] makes a new array (lines 114, 168, 428,
    458, 530), as does [face = face + 1] (line 650). *)
Inductive format := NEM | MAR | NAT | GDF | HST | PNL | STL.
Definition write_mesh (date : text) (w : format) (m : mesh) : result text * mesh :=
  match w with
  | NEM => (Ok (write_NEM m), m)
  | MAR => (Ok (write_MAR m), m)
  | NAT => (Ok (write_NAT m), m)
  | GDF => (write_GDF date 100 (981 / 100) 0 0 m, m)
  | HST => (Ok (write_HST m), m)
  | PNL => (Ok (write_PNL m), m)
  | STL => write_STL m
  end.
(** [load_mesh], mesh_loaders.py:26-68, for the formats whose loader is modelled. *)
Definition load_mesh (w : format) (t : text) : option (result tree) :=
  match w with
  | NEM => Some (load_NEM t)
  | MAR => Some (load_MAR t)
  | NAT => Some (load_NAT t)
  | GDF => Some (load_GDF t)
  | HST => Some (load_HST t)
  | PNL => Some (load_PNL t)
  | STL => None
  end.
