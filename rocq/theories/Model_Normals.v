(** Model of the connectivities of a mesh (meshes/properties.py) and of the
    orientation of its faces (meshes/quality.py). *)
From Coq Require Import Reals List Bool Arith.
From Verif Require Import Model_Base Model_Geometry Model_Mesh.
Import ListNotations.

(** ** Sets and dictionaries

    A Python set of integers is represented by the list of its elements in the
    order of their first insertion. [set_order] stands for the order in which
    Python enumerates a set, which is not specified by the language. *)
Definition set_add (x : nat) (s : list nat) : list nat := if memb x s then s else s ++ [x].
Definition set_inter (s1 s2 : list nat) : list nat := filter (fun x => memb x s2) s1.
(** A dictionary: the keys in the order of their first insertion. *)
Fixpoint dict_set (k v : nat) (d : list (nat * nat)) : list (nat * nat) :=
  match d with
  | [] => [(k, v)]
  | (k', v') :: d' => if Nat.eqb k k' then (k, v) :: d' else (k', v') :: dict_set k v d'
  end.
(** [d.pop(k)]: the value and the remaining dictionary. *)
Fixpoint dict_pop (k : nat) (d : list (nat * nat)) : option (nat * list (nat * nat)) :=
  match d with
  | [] => None
  | (k', v') :: d' => if Nat.eqb k k' then Some (v', d')
                      else match dict_pop k d' with Some (v, r) => Some (v, (k', v') :: r) | None => None end
  end.
(** Replace the i-th item of an array. *)
Fixpoint set_nth {A} (i : nat) (x : A) (l : list A) : list A :=
  match l, i with
  | [], _ => []
  | _ :: l', O => x :: l'
  | y :: l', S i' => y :: set_nth i' x l'
  end.

(** ** [compute_connectivity], properties.py:114-203 *)

(** Lines 137-140, 162-163: [face[:3]] for a triangle. *)
Definition outline (f : face) : list nat := if is_tri f then [fa f; fb f; fc f] else face_ids f.
(** Lines 141-144: the pairs (i, j) such that j is added to [v_v[i]], in the order of the additions. *)
Definition links (l : list nat) : list (nat * nat) :=
  flat_map (fun p => [p; (snd p, fst p)]) (combine (last l O :: l) l).
(** [v_f[i]]: the faces are added in the order of the loop. *)
Definition faces_around (fs : list face) (i : nat) : list nat := positions (fun f => memb i (outline f)) fs.
(** [v_v[i]]: the vertices added to the set. *)
Definition vertices_around (fs : list face) (i : nat) : list nat :=
  fold_left (fun s p => if Nat.eqb (fst p) i then set_add (snd p) s else s) (flat_map (fun f => links (outline f)) fs) [].

Section Connectivity.
  Variable set_order : list nat -> list nat.

  (** Lines 160-171: the edge of a boundary, oriented against the face. *)
  Definition boundary_edge (f : face) (i j : nat) : result (nat * nat) :=
    match positions (fun v => Nat.eqb v i || Nat.eqb v j) (outline f) with
    | [] | [_] => Err IndexError
    | [p; q] => bind (get (outline f) p) (fun x => bind (get (outline f) q) (fun y =>
                Ok (if Nat.eqb q (p + 1) then (y, x) else (x, y))))
    | _ => Err ValueError
    end.
  (** Lines 150-173, one passage in the inner loop. *)
  Definition connect (fs : list face) (st : list (list nat) * list (nat * nat)) (i j : nat)
    : result (list (list nat) * list (nat * nat)) :=
    match set_order (set_inter (faces_around fs i) (faces_around fs j)) with
    | [f; g] =>
        bind (get (fst st) f) (fun sf => let t := set_nth f (set_add g sf) (fst st) in
        bind (get t g) (fun sg => Ok (set_nth g (set_add f sg) t, snd st)))
    | [f] => bind (get fs f) (fun fc => bind (boundary_edge fc i j) (fun e =>
        Ok (fst st, dict_set (fst e) (snd e) (snd st))))
    | _ => Err RuntimeError
    end.
  Fixpoint connect_all (fs : list face) (st : list (list nat) * list (nat * nat)) (pairs : list (nat * nat))
    : result (list (list nat) * list (nat * nat)) :=
    match pairs with
    | [] => Ok st
    | (i, j) :: rest => bind (connect fs st i j) (fun st' => connect_all fs st' rest)
    end.
  (** Lines 176-198. The number of edges bounds the number of turns of both loops. *)
  Fixpoint follow (n : nat) (edges : list (nat * nat)) (cur : nat) (boundary : list nat) : list nat * list (nat * nat) :=
    match n with
    | O => (boundary, edges)
    | S n' => match dict_pop cur edges with
              | None => (boundary, edges)
              | Some (next, edges') => follow n' edges' next (boundary ++ [next])
              end
    end.
  Fixpoint boundaries (n : nat) (edges : list (nat * nat)) : list (list nat) :=
    match n, rev edges with
    | S n', (v0, v1) :: r =>
      let '(boundary, edges') := follow (length edges) (rev r) v1 [v0; v1] in
      (if Nat.eqb v0 (last boundary v0) then [boundary] else []) ++ boundaries n' edges'
    | _, _ => []
    end.
  (** The sets [f_f] and the boundaries. A face with a vertex out of the mesh makes the first loop fail. *)
  Definition compute_connectivity (m : mesh) : result (list (list nat) * list (list nat)) :=
    if negb (forallb (fun f => forallb (fun i => Nat.ltb i (nb_vertices m)) (outline f)) (m_faces m)) then Err KeyError else
    bind (connect_all (m_faces m) (map (fun _ => []) (m_faces m), [])
            (flat_map (fun i => map (pair i) (set_order (vertices_around (m_faces m) i))) (seq 0 (nb_vertices m))))
         (fun st => Ok (fst st, boundaries (length (snd st)) (snd st))).

  (** ** [heal_normals], quality.py:155-268, for a mesh without cached properties *)

  Record flood := Flood { fl_faces : list face; fl_ff : list (list nat); fl_seen : list bool; fl_stack : list nat }.
  (** [np.roll(l, -k)] for k between 0 and the length. *)
  Definition turned (k : nat) (l : list nat) : list nat := skipn k l ++ firstn k l.
  Fixpoint where_first (x : nat) (l : list nat) : result nat :=
    match l with
    | [] => Err IndexError
    | y :: l' => if Nat.eqb y x then Ok O else bind (where_first x l') (fun k => Ok (S k))
    end.
  (** Lines 216-226: whether the second face must be reversed. *)
  Definition same_side (f g : face) (v1 v2 : nat) : result bool :=
    bind (where_first v1 (face_ids f)) (fun k => let face_ref := turned k (outline f) in
    bind (where_first v1 (face_ids g)) (fun k' => let adj_ref := turned k' (outline g) in
    bind (get face_ref 1) (fun next =>
    bind (if Nat.eqb next v2 then get adj_ref 1 else get adj_ref (length adj_ref - 1)) (fun x =>
    Ok (Nat.eqb x v2))))).
  (** Lines 200-231, for a face that has not been visited. *)
  Definition visit (i j : nat) (s : flood) : result flood :=
    bind (get (fl_ff s) j) (fun fj =>
    if negb (memb i fj) then Err KeyError else
    let ff := set_nth j (filter (fun k => negb (Nat.eqb k i)) fj) (fl_ff s) in
    let seen := set_nth j true (fl_seen s) in
    bind (get (fl_faces s) i) (fun f => bind (get (fl_faces s) j) (fun g =>
    match set_order (set_inter (nodup Nat.eq_dec (face_ids f)) (face_ids g)) with
    | [v1; v2] => bind (same_side f g v1 v2) (fun b =>
        Ok (Flood (if b then set_nth j (flip_face g) (fl_faces s) else fl_faces s) ff seen (j :: fl_stack s)))
    | _ => Ok (Flood (fl_faces s) ff seen (fl_stack s))
    end))).
  Fixpoint visit_all (i : nat) (js : list nat) (s : flood) : result flood :=
    match js with
    | [] => Ok s
    | j :: rest => bind (get (fl_seen s) j) (fun b =>
                   if b then visit_all i rest s else bind (visit i j s) (visit_all i rest))
    end.
  (** Lines 194-199 with the loop. *)
  Definition process (i : nat) (s : flood) : result flood :=
    bind (get (fl_ff s) i) (fun fi => visit_all i (set_order fi) s).
  (** Lines 181-231. Every turn takes a face out of the stack and a face enters it only once,
      so that the number of faces bounds the number of turns. *)
  Fixpoint flooding (n : nat) (s : flood) : result flood :=
    match fl_stack s, positions negb (fl_seen s) with
    | [], [] => Ok s
    | [], i :: _ =>
      match n with
      | O => Err OtherException
      | S n' => bind (process i (Flood (fl_faces s) (fl_ff s) (set_nth i true (fl_seen s)) [])) (flooding n')
      end
    | i :: st, _ =>
      match n with
      | O => Err OtherException
      | S n' => bind (process i (Flood (fl_faces s) (fl_ff s) (fl_seen s) st)) (flooding n')
      end
    end.
  (** Lines 242-258: the orientation of a closed mesh. *)
  Definition highest (m : mesh) : result R :=
    match m_vertices m with
    | [] => Err ValueError
    | v :: vs => Ok (fold_left (fun z w => Rmax z (vz w)) vs (vz v))
    end.
  Definition vertical_flux (zmax : R) (ps : list fprops) : R :=
    Rsum (map (fun p => (vz (p_center p) - zmax) * p_area p * vz (p_normal p))%R ps).
  Definition outwards (m : mesh) : result mesh :=
    bind (highest m) (fun zmax => bind (faces_props m) (fun ps =>
    Ok (if Rltb (vertical_flux zmax ps) 0 then flip_normals m else m))).
  Definition heal_normals (m : mesh) : result mesh :=
    bind (compute_connectivity m) (fun c =>
    match m_faces m with
    | [] => Err IndexError
    | _ :: fs =>
      bind (flooding (nb_faces m) (Flood (m_faces m) (fst c) (true :: map (fun _ => false) fs) [O])) (fun s =>
      let m' := Mesh (m_vertices m) (fl_faces s) in
      match snd c with [] => outwards m' | _ => Ok m' end)
    end).
End Connectivity.
