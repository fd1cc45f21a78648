(** Specification of a bounded first-in first-out memo table, independent of
    the dictionary used by the code. *)
From Coq Require Import List Arith Bool.
Import ListNotations.

Section Spec.
  Variables (key : Type).
  Variable eqb : key -> key -> bool.

  (** [q] lists the remembered keys, oldest first, and [n] is the capacity.
      A remembered key changes nothing.  An unknown key first makes the oldest
      key leave if the table is full, and joins the queue only if its
      computation succeeds. *)
  Definition fifo_step (n : nat) (succeeds : key -> bool) (q : list key) (k : key) : list key :=
    if existsb (eqb k) q then q
    else
      let q' := skipn (length q + 1 - n) q in
      if succeeds k then q' ++ [k] else q'.

  Definition fifo (n : nat) (succeeds : key -> bool) (ks : list key) : list key :=
    fold_left (fifo_step n succeeds) ks [].
End Spec.

(** Two lists of faces describe the same surface as sets: each face of one has
    the same corners, in any order, as a face of the other. *)
Section SameSurface.
  Context {point : Type}.
  Definition same_corners (f g : list point) : Prop := forall v, In v f <-> In v g.
  Definition same_surface (m n : list (list point)) : Prop :=
    (forall f, In f m -> exists g, In g n /\ same_corners f g)
    /\ (forall g, In g n -> exists f, In f m /\ same_corners f g).
End SameSurface.
