(** Model of [capytaine/tools/lru_cache.py] and of its use by
    [capytaine/bem/engines.py: BasicMatrixEngine]. *)
From Coq Require Import List Arith Bool.
Import ListNotations.

Section Cache.
  Variables (key val exn : Type).
  Variable eqb : key -> key -> bool.
  (** [key] is the pair [(args, hashable_kwargs)] of lru_cache.py:24-28, and
      [eqb] the Python equality used by the dictionary.  Hashing is not
      modelled: the dictionary is assumed to find a key if and only if it
      holds an equal one. *)

  (** The [OrderedDict] of lru_cache.py:20, oldest insertion first. *)
  Definition cache := list (key * val).

  (** What a call may end with: a value, an exception of the wrapped function,
      the [KeyError] raised by [popitem] on an empty dictionary
      (lru_cache.py:35), or, in the model only, exhausted fuel. *)
  Inductive outcome :=
  | Val (v : val)
  | Exn (e : exn)
  | KeyErr
  | NoFuel.

  (** [cache[(args, hashable_kwargs)]], lru_cache.py:28-31. *)
  Fixpoint lookup (k : key) (c : cache) : option val :=
    match c with
    | [] => None
    | (k', v) :: c' => if eqb k k' then Some v else lookup k c'
    end.

  (** [cache[k] = v], lru_cache.py:40: an [OrderedDict] keeps the position (and
      the key object) of an existing equal key, and appends a new one. *)
  Fixpoint store (k : key) (v : val) (c : cache) : cache :=
    match c with
    | [] => [(k, v)]
    | (k', v') :: c' => if eqb k k' then (k', v) :: c' else (k', v') :: store k v c'
    end.

  (** lru_cache.py:33-35.  [None] is the [KeyError] of [popitem] on an empty
      dictionary. *)
  Definition make_room (maxsize : nat) (c : cache) : option cache :=
    if Nat.ltb maxsize (length c + 1)
    then match c with [] => None | _ :: c' => Some c' end
    else Some c.

  (** ** Plain functions: the wrapped function does not call itself. *)
  Section Plain.
    Variable f : key -> val + exn.
    Variable maxsize : nat.

    (** [decorated_f], lru_cache.py:23-42.  The boolean tells whether [f] was
        executed. *)
    Definition call (c : cache) (k : key) : cache * outcome * bool :=
      match lookup k c with
      | Some v => (c, Val v, false)
      | None =>
        match make_room maxsize c with
        | None => (c, KeyErr, false)
        | Some c' =>
          match f k with
          | inl v => (store k v c', Val v, true)
          | inr e => (c', Exn e, true)
          end
        end
      end.

    (** A history of calls; outcomes in order. *)
    Fixpoint calls (c : cache) (ks : list key) : cache * list (outcome * bool) :=
      match ks with
      | [] => (c, [])
      | k :: ks' =>
        let '(c1, o, b) := call c k in
        let '(c2, os) := calls c1 ks' in
        (c2, (o, b) :: os)
      end.
  End Plain.

  (** ** Reentrant functions.

      The wrapped function may call the decorated version of itself, as
      [BasicMatrixEngine.build_matrices] does (engines.py:120-131).  The body
      of the function is described by the sequence of nested calls it makes;
      an exception of a nested call is propagated. *)
  Inductive prog :=
  | Ret (v : val)
  | Raise (e : exn)
  | Sub (k : key) (cont : val -> prog).

  Section Reentrant.
    Variable body : key -> prog.
    Variable maxsize : nat.

    (** [f] without any cache, on fuel. *)
    Fixpoint urun (call : key -> outcome) (p : prog) : outcome :=
      match p with
      | Ret v => Val v
      | Raise e => Exn e
      | Sub k cont =>
        match call k with
        | Val v => urun call (cont v)
        | o => o
        end
      end.

    Fixpoint ucall (fuel : nat) (k : key) : outcome :=
      match fuel with
      | 0 => NoFuel
      | S n => urun (ucall n) (body k)
      end.

    (** [decorated_f] when [f] calls [decorated_f]; the [nat] returned is the
        largest number of entries held at any time during the call. *)
    Fixpoint crun (call : cache -> key -> cache * outcome * nat)
             (c : cache) (p : prog) : cache * outcome * nat :=
      match p with
      | Ret v => (c, Val v, length c)
      | Raise e => (c, Exn e, length c)
      | Sub k cont =>
        match call c k with
        | (c', Val v, m) =>
          let '(c'', o, m') := crun call c' (cont v) in (c'', o, Nat.max m m')
        | other => other
        end
      end.

    Fixpoint ccall (fuel : nat) (c : cache) (k : key) : cache * outcome * nat :=
      match fuel with
      | 0 => (c, NoFuel, length c)
      | S n =>
        match lookup k c with
        | Some v => (c, Val v, length c)
        | None =>
          match make_room maxsize c with
          | None => (c, KeyErr, length c)
          | Some c' =>
            match crun (ccall n) c' (body k) with
            | (c'', Val v, m) =>
              let c3 := store k v c'' in (c3, Val v, Nat.max (length c) (Nat.max m (length c3)))
            | (c'', o, m) => (c'', o, Nat.max (length c) m)
            end
          end
        end
      end.

    Fixpoint ccalls (fuel : nat) (c : cache) (ks : list key) : cache * list (outcome * nat) :=
      match ks with
      | [] => (c, [])
      | k :: ks' =>
        let '(c1, o, m) := ccall fuel c k in
        let '(c2, os) := ccalls fuel c1 ks' in
        (c2, (o, m) :: os)
      end.
  End Reentrant.
End Cache.

Arguments Val {val exn}. Arguments Exn {val exn}.
Arguments KeyErr {val exn}. Arguments NoFuel {val exn}.
Arguments Ret {key val exn}. Arguments Raise {key val exn}. Arguments Sub {key val exn}.

(** ** Instance: the matrices of [BasicMatrixEngine]. *)
Section Engine.
  Variable coord : Type.
  Variable coord_eqb : coord -> coord -> bool.

  Definition vertex := (coord * coord * coord)%type.
  Definition vertex_eqb (a b : vertex) : bool :=
    let '(a1, a2, a3) := a in let '(b1, b2, b3) := b in
    coord_eqb a1 b1 && coord_eqb a2 b2 && coord_eqb a3 b3.

  (** A face given by the coordinates of its corners in order
      ([self.vertices[self.faces]], meshes.py:674-676). *)
  Definition gface := list vertex.

  (** A [Mesh] object: its identity and its faces in order. *)
  Record mesh := { m_id : nat; m_faces : list gface }.

  Definition mem {A} (e : A -> A -> bool) (x : A) (l : list A) : bool := existsb (e x) l.
  Definition set_eqb {A} (e : A -> A -> bool) (l1 l2 : list A) : bool :=
    forallb (fun x => mem e x l2) l1 && forallb (fun x => mem e x l1) l2.

  (** [as_set_of_faces] and [__eq__], meshes.py:674-676 and 699-703: a face is
      the [frozenset] of its vertices and a mesh the [frozenset] of its faces. *)
  Definition face_eqb : gface -> gface -> bool := set_eqb vertex_eqb.
  Definition mesh_eqb (m1 m2 : mesh) : bool := set_eqb face_eqb (m_faces m1) (m_faces m2).

  (** The arguments of [build_matrices] (engines.py:94) other than the meshes
      (free surface, depth, wavenumber, Green function, kind of double layer)
      are compared by an arbitrary exact equality. *)
  Variable params : Type.
  Variable params_eqb : params -> params -> bool.
  Definition bkey := (mesh * mesh * params)%type.
  Definition bkey_eqb (k1 k2 : bkey) : bool :=
    let '(a1, b1, p1) := k1 in let '(a2, b2, p2) := k2 in
    mesh_eqb a1 a2 && mesh_eqb b1 b2 && params_eqb p1 p2.

  Variable entry : Type.
  (** [green_function.evaluate] (delhommeau.py:299-391, matrices.f90:94-285): one entry per pair
      of faces; the flag is [I==J .and. same_body], [same_body] being
      [mesh1 is mesh2]. *)
  Variable g : params -> gface -> gface -> bool -> entry.
  Fixpoint rows_from (i : nat) (p : params) (same : bool) (fs1 fs2 : list gface) : list (list entry) :=
    match fs1 with
    | [] => []
    | f1 :: fs1' =>
      (fix cols (j : nat) (l : list gface) : list entry :=
         match l with
         | [] => []
         | f2 :: l' => g p f1 f2 (same && (i =? j)) :: cols (S j) l'
         end) 0 fs2 :: rows_from (S i) p same fs1' fs2
    end.
  Definition evaluate (k : bkey) : list (list entry) + unit :=
    let '(m1, m2, p) := k in
    inl (rows_from 0 p (m_id m1 =? m_id m2) (m_faces m1) (m_faces m2)).

  (** An engine with and without the cache (engines.py:74-75), on plain meshes
      (the [else] branch, engines.py:133-136). *)
  Definition engine_cached (maxsize : nat) (ks : list bkey) : list (outcome (list (list entry)) unit) :=
    map fst (snd (calls _ _ _ bkey_eqb evaluate maxsize [] ks)).
  Definition engine_uncached (ks : list bkey) : list (outcome (list (list entry)) unit) :=
    map (fun k => match evaluate k with inl v => Val v | inr e => Exn e end) ks.
End Engine.

(** ** Instance: one reflection symmetric mesh (engines.py:120-131).

    The keys are the calls made: the whole symmetric mesh, or one of the two
    pairs of halves. *)
Inductive rkey := Whole (n : nat) | Half (n : nat) (second : bool).
Definition rkey_eqb (a b : rkey) : bool :=
  match a, b with
  | Whole n, Whole m => n =? m
  | Half n x, Half m y => (n =? m) && Bool.eqb x y
  | _, _ => false
  end.
Definition rbody {val exn : Type} (dense : nat -> bool -> val) (toeplitz : val -> val -> val)
           (k : rkey) : prog rkey val exn :=
  match k with
  | Half n x => Ret (dense n x)
  | Whole n => Sub (Half n false) (fun a => Sub (Half n true) (fun b => Ret (toeplitz a b)))
  end.
