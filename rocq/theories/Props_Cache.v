(** Properties C01 and C02. *)
From Coq Require Import List Arith Bool ZArith Lia.
From Verif Require Import Model_Cache Spec_Cache Proofs_Cache.
Import ListNotations.

(** C01: whatever the history, a wrapped call ends as a direct call of [f]. *)
Theorem cache_transparent :
  forall (key val exn : Type) (eqb : key -> key -> bool) (f : key -> val + exn) (maxsize : nat)
         (ks : list key),
    1 <= maxsize ->
    (forall k k', In k ks -> In k' ks -> eqb k k' = true -> f k = f k') ->
    map fst (snd (calls key val exn eqb f maxsize [] ks))
    = map (fun k => match f k with inl v => Val v | inr e => Exn e end) ks.
Proof.
  exact (fun key val exn eqb f maxsize ks Hn Hc =>
    calls_transparent key val exn eqb f maxsize (fun k => In k ks) Hc ks Hn
      (proj2 (Forall_forall _ _) (fun k Hk => Hk))).
Qed.
Print Assumptions cache_transparent.

(** A function failing on multiples of 5, called with repeated keys. *)
Definition ex_f (k : nat) : nat + nat := if k mod 5 =? 0 then inr k else inl (k * k).
Example cache_transparent_ex :
  snd (calls nat nat nat Nat.eqb ex_f 2 [] [1; 2; 1; 5; 1; 3; 1])
  = [(Val 1, true); (Val 4, true); (Val 1, false); (Exn 5, true); (Val 1, true);
     (Val 9, true); (Val 1, false)].
Proof. vm_compute. reflexivity. Qed.

(** C01: the table is a bounded first-in first-out queue of keys, and the
    wrapped function runs exactly on the keys that are not in the queue. *)
Theorem cache_fifo :
  forall (key val exn : Type) (eqb : key -> key -> bool) (f : key -> val + exn) (maxsize : nat)
         (ks : list key),
    1 <= maxsize ->
    map fst (fst (calls key val exn eqb f maxsize [] ks))
    = fifo key eqb maxsize (fun k => match f k with inl _ => true | inr _ => false end) ks
    /\ length (fst (calls key val exn eqb f maxsize [] ks)) <= maxsize.
Proof. exact calls_fifo. Qed.
Print Assumptions cache_fifo.

Theorem cache_runs_on_misses_only :
  forall (key val exn : Type) (eqb : key -> key -> bool) (f : key -> val + exn) (maxsize : nat)
         (ks : list key) (k : key),
    1 <= maxsize ->
    exists o, snd (calls key val exn eqb f maxsize [] (ks ++ [k]))
      = snd (calls key val exn eqb f maxsize [] ks)
        ++ [(o, negb (existsb (eqb k)
              (fifo key eqb maxsize (fun k => match f k with inl _ => true | inr _ => false end) ks)))].
Proof. exact calls_runs. Qed.
Print Assumptions cache_runs_on_misses_only.

(** Key 1 was used again, but is the first to leave: not a least recently used policy. *)
Example cache_fifo_ex :
  fifo nat Nat.eqb 2 (fun _ => true) [1; 2; 1; 3] = [2; 3]
  /\ map fst (fst (calls nat nat nat Nat.eqb ex_f 2 [] [1; 2; 1; 3])) = [2; 3].
Proof. vm_compute. auto. Qed.

(** C01, limit case: with [maxsize = 0] every call fails with a [KeyError]. *)
Theorem cache_size_zero_fails :
  forall (key val exn : Type) (eqb : key -> key -> bool) (f : key -> val + exn) (k : key),
    call key val exn eqb f 0 [] k = ([], KeyErr, false).
Proof. exact call_size0. Qed.
Print Assumptions cache_size_zero_fails.

(** C01 for functions calling their own decorated version: same outcome as
    the recursive function without a cache. *)
Theorem cache_reentrant_transparent :
  forall (key val exn : Type) (eqb : key -> key -> bool) (body : key -> prog key val exn)
         (maxsize : nat),
    (forall k k', eqb k k' = true -> body k = body k') ->
    1 <= maxsize ->
    forall (fuel : nat) (ks : list key),
      Forall (fun k => ucall key val exn body fuel k <> NoFuel) ks ->
      map fst (snd (ccalls key val exn eqb body maxsize fuel [] ks))
      = map (ucall key val exn body fuel) ks.
Proof. exact ccalls_transparent. Qed.
Print Assumptions cache_reentrant_transparent.

Definition ex_body : rkey -> prog rkey nat nat :=
  rbody (fun n b => if b then 2 * n + 1 else 2 * n) (fun a b => 100 * a + b).
Example cache_reentrant_ex :
  (forall k, ucall rkey nat nat ex_body 2 k <> NoFuel)
  /\ map fst (snd (ccalls rkey nat nat rkey_eqb ex_body 1 2 [] [Whole 3; Half 3 true; Whole 3]))
     = [Val 607; Val 7; Val 607].
Proof. split; [intros [n|n b]; vm_compute; discriminate | vm_compute; reflexivity]. Qed.

(** C01, "never more than [maxsize] items in memory" (docstring of the
    decorator) fails for a function calling its own decorated version... *)
Theorem cache_strict_bound_refuted :
  exists (maxsize fuel : nat) (ks : list rkey),
    1 <= maxsize /\
    Exists (fun om => maxsize < snd om) (snd (ccalls rkey nat nat rkey_eqb ex_body maxsize fuel [] ks)).
Proof. exists 1, 2, [Whole 3]. split; [lia|]. vm_compute. constructor. lia. Qed.
Print Assumptions cache_strict_bound_refuted.

(** ...but the excess is at most the nesting depth of the calls minus one. *)
Theorem cache_reentrant_bound :
  forall (key val exn : Type) (eqb : key -> key -> bool) (body : key -> prog key val exn)
         (maxsize : nat),
    1 <= maxsize ->
    forall (depth : nat) (ks : list key),
      1 <= depth ->
      forall c, length c <= maxsize + depth - 1 ->
      Forall (fun om => snd om <= maxsize + depth - 1)
             (snd (ccalls key val exn eqb body maxsize depth c ks)).
Proof. exact ccalls_bound. Qed.
Print Assumptions cache_reentrant_bound.

Example cache_reentrant_bound_ex :
  map snd (snd (ccalls rkey nat nat rkey_eqb ex_body 1 2 [] [Whole 3; Whole 4; Half 4 true]))
  = [2; 2; 2].
Proof. vm_compute. reflexivity. Qed.

(** C02: two meshes with the same faces in another order compare equal, and
    the cache returns the matrix of the first for the second. *)
Definition ex_face (a : Z) : gface Z := [(a, 0, 0); (a + 1, 0, 0); (a + 1, 1, 0); (a, 1, 0)]%Z.
Definition ex_mesh1 := {| m_id := 0; m_faces := [ex_face 0; ex_face 5] |}.
Definition ex_mesh2 := {| m_id := 1; m_faces := [ex_face 5; ex_face 0] |}.
Definition ex_entry (p : unit) (f1 f2 : gface Z) (d : bool) : Z :=
  match f1, f2 with (x1, _, _) :: _, (x2, _, _) :: _ => (10 * x1 + x2)%Z | _, _ => 0%Z end.
Theorem engine_cache_refuted :
  exists (g : unit -> gface Z -> gface Z -> bool -> Z) (ks : list (bkey Z unit)),
    engine_cached Z Z.eqb unit (fun _ _ => true) Z g 1 ks <> engine_uncached Z unit Z g ks.
Proof.
  exists ex_entry, [(ex_mesh1, ex_mesh1, tt); (ex_mesh2, ex_mesh2, tt)].
  vm_compute. discriminate.
Qed.
Print Assumptions engine_cache_refuted.

(** The same with a single face whose normal is flipped (the kernel depends on
    the orientation). *)
Definition ex_mesh3 := {| m_id := 2; m_faces := [rev (ex_face 0)] |}.
Definition ex_mesh4 := {| m_id := 3; m_faces := [ex_face 0] |}.
Theorem engine_cache_orientation_refuted :
  mesh_eqb Z Z.eqb ex_mesh3 ex_mesh4 = true /\ m_faces _ ex_mesh3 <> m_faces _ ex_mesh4
  /\ exists g : unit -> gface Z -> gface Z -> bool -> Z,
      engine_cached Z Z.eqb unit (fun _ _ => true) Z g 1
        [(ex_mesh4, ex_mesh4, tt); (ex_mesh3, ex_mesh3, tt)]
      <> engine_uncached Z unit Z g [(ex_mesh4, ex_mesh4, tt); (ex_mesh3, ex_mesh3, tt)].
Proof.
  split; [vm_compute; reflexivity|]. split; [vm_compute; discriminate|].
  exists (fun _ f1 _ _ => match f1 with (_, y, _) :: (_, y', _) :: _ => (10 * y + y')%Z | _ => 0%Z end).
  vm_compute. discriminate.
Qed.
Print Assumptions engine_cache_orientation_refuted.

(** C02, what holds: the cache is transparent for histories in which meshes
    describing the same surface (whatever the order of the faces and of their
    corners) have the same faces in the same order, and are used with the same
    pattern of identity. *)
Theorem engine_cache_transparent_partial :
  forall (coord : Type) (coord_eqb : coord -> coord -> bool)
         (params : Type) (params_eqb : params -> params -> bool) (entry : Type)
         (g : params -> gface coord -> gface coord -> bool -> entry)
         (maxsize : nat) (ks : list (bkey coord params)),
    (forall x y, coord_eqb x y = true <-> x = y) ->
    1 <= maxsize ->
    (forall p q, params_eqb p q = true -> p = q) ->
    (forall a1 b1 p1 a2 b2 p2, In (a1, b1, p1) ks -> In (a2, b2, p2) ks ->
       same_surface (m_faces _ a1) (m_faces _ a2) -> same_surface (m_faces _ b1) (m_faces _ b2) ->
       m_faces _ a1 = m_faces _ a2 /\ m_faces _ b1 = m_faces _ b2
       /\ (m_id _ a1 = m_id _ b1 <-> m_id _ a2 = m_id _ b2)) ->
    engine_cached coord coord_eqb params params_eqb entry g maxsize ks
    = engine_uncached coord params entry g ks.
Proof. intros. now apply engine_transparent. Qed.
Print Assumptions engine_cache_transparent_partial.

Example engine_cache_partial_ex :
  let ks := [(ex_mesh1, ex_mesh1, tt); (ex_mesh4, ex_mesh4, tt); (ex_mesh1, ex_mesh1, tt)] in
  engine_cached Z Z.eqb unit (fun _ _ => true) Z ex_entry 1 ks = engine_uncached Z unit Z ex_entry ks
  /\ mesh_eqb Z Z.eqb ex_mesh1 ex_mesh4 = false.
Proof. vm_compute. auto. Qed.
