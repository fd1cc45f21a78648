(** Vocabulary of the properties of the orientation of the faces. *)
From Coq Require Import List Arith.
From Verif Require Import Model_Mesh.
Import ListNotations.

Definition has (f : face) (v : nat) : Prop := In v [fa f; fb f; fc f; fd f].
(** The oriented sides of a face. A face whose last corner is the first one is a triangle. *)
Definition sides (f : face) : list (nat * nat) :=
  if Nat.eqb (fa f) (fd f) then [(fa f, fb f); (fb f, fc f); (fc f, fa f)]
  else [(fa f, fb f); (fb f, fc f); (fc f, fd f); (fd f, fa f)].
Definition is_side (f : face) (a b : nat) : Prop := In (a, b) (sides f) \/ In (b, a) (sides f).
(** Three or four distinct corners. *)
Definition well_formed (f : face) : Prop :=
  fa f = fd f /\ NoDup [fa f; fb f; fc f] \/ NoDup [fa f; fb f; fc f; fd f].

(** Two faces that share more than one vertex share exactly two vertices, which are the ends of a common side, and
    no side is shared by three faces. *)
Definition conformal (fs : list face) : Prop :=
  (forall f, In f fs -> well_formed f)
  /\ (forall i j f g a b, nth_error fs i = Some f -> nth_error fs j = Some g -> i <> j -> a <> b ->
        has f a -> has f b -> has g a -> has g b ->
        is_side f a b /\ is_side g a b /\ forall c, has f c -> has g c -> c = a \/ c = b)
  /\ (forall i j k f g h a b, nth_error fs i = Some f -> nth_error fs j = Some g -> nth_error fs k = Some h ->
        a <> b -> has f a -> has f b -> has g a -> has g b -> has h a -> has h b -> i = j \/ i = k \/ j = k).
(** Two faces never run along a common side in the same direction. *)
Definition consistent (fs : list face) : Prop :=
  forall i j f g a b, nth_error fs i = Some f -> nth_error fs j = Some g -> i <> j ->
    In (a, b) (sides f) -> ~ In (a, b) (sides g).
(** The same face, or the face with its corners in the reverse order. *)
Definition same_or_reversed (f g : face) : Prop := g = f \/ g = F (fd f) (fc f) (fb f) (fa f).
(** Some faces can be reversed so that the orientations are consistent (a Moebius strip is not so). *)
Definition orientable (fs : list face) : Prop := exists fs', Forall2 same_or_reversed fs fs' /\ consistent fs'.
(** Every side of a face is shared by another face. *)
Definition without_boundary (fs : list face) : Prop :=
  forall i f a b, nth_error fs i = Some f -> In (a, b) (sides f) ->
  exists j g, j <> i /\ nth_error fs j = Some g /\ is_side g a b.
