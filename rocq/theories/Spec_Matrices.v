(** Vocabulary of the bare matrices of a list of results. *)
From Coq Require Import Reals String List Bool Arith.
From Verif Require Import Model_Base Model_Problem Model_Solver Model_Dataset Spec_Dataset Model_Matrices.
Import ListNotations.
Open Scope nat_scope.

Section Spec.
  Variable cell : Type.
  Variable nan : cell.
  (** Place of an entry of an array in the list of its values, if the indices are in the bounds. *)
  Fixpoint offset (shape indices : list nat) : option nat :=
    match shape, indices with
    | [], [] => Some 0
    | n :: shape', i :: indices' => if Nat.ltb i n then option_map (fun k => i * fold_right Nat.mul 1 shape' + k) (offset shape' indices') else None
    | _, _ => None
    end.
  Definition entry (a : ndarray cell) (indices : list nat) : option cell :=
    match offset (fst a) indices with Some k => nth_error (snd a) k | None => None end.
  (** The values of a coordinate of the dataset. *)
  Definition ticks (a : assembled cell) (c : column) : list value := labels_in (d_coords _ _ (a_data _ a)) c.
  Definition frequency_of (a : assembled cell) : column :=
    match a_main _ a with Omega => COmega | Period => CPeriod | Wavenumber => CWavenumber | Wavelength => CWavelength end.
  (** The value of the first of the rows with these parameters, and nan if there is none. *)
  Definition coefficient (rows : list (row cell)) (params : list (column * value)) (get : row cell -> cell) (x : cell) : Prop :=
    let P r := forall c v, In (c, v) params -> column_of _ r c = v in
    (exists r, first_such cell P rows r /\ x = get r) \/ ((forall r, In r rows -> ~ P r) /\ x = nan).
  (** All the rows have the same density, gravity, body, depth and forward speed, and the same wave direction for radiation results. *)
  Definition same_conditions (k : pkind) (rows : list (row cell)) : Prop := forall c, In c (other_dims k) -> ~ varying cell rows c.
End Spec.

Section Tables.
  Context {cell : Type}.
  (** A matrix with one row for each label of the first list and one column for each label of the second list. *)
  Definition table (A : ndarray cell) (ls cs : list value) (P : value -> value -> cell -> Prop) : Prop :=
    fst A = [length ls; length cs]
    /\ forall i j d e, nth_error ls i = Some d -> nth_error cs j = Some e -> exists x, entry cell A [i; j] = Some x /\ P d e x.
  Definition vector (A : ndarray cell) (ls : list value) (P : value -> cell -> Prop) : Prop :=
    fst A = [length ls] /\ forall j e, nth_error ls j = Some e -> exists x, entry cell A [j] = Some x /\ P e x.
End Tables.
