(** Vocabulary for the timers: how long an activity lasts, how long each of the
    blocks under a timer lasts, and which timers are used inside which. *)
From Coq Require Import Reals List String Bool.
From Verif Require Import Model_Timer.
Import ListNotations.
Open Scope R_scope.

(** Does the activity end without an exception? *)
Fixpoint completes (p : activity) : bool :=
  match p with
  | Pass _ => true
  | Raise => false
  | With _ q => completes q
  | Then q r => completes q && completes r
  | Catch _ => true
  end.

(** Time until the end of the activity, or until the exception leaving it. *)
Fixpoint lasts (p : activity) : R :=
  match p with
  | Pass d => d
  | Raise => 0
  | With _ q => lasts q
  | Then q r => lasts q + (if completes q then lasts r else 0)
  | Catch q => lasts q
  end.

(** Durations of the blocks under timer [t], in the order in which they end. *)
Fixpoint blocks (t : string) (p : activity) : list R :=
  match p with
  | Pass _ | Raise => []
  | With s q => blocks t q ++ (if String.eqb s t then [lasts q] else [])
  | Then q r => blocks t q ++ (if completes q then blocks t r else [])
  | Catch q => blocks t q
  end.

(** Sum of a list. *)
Definition sum (l : list R) : R := fold_right Rplus 0 l.

(** Timer [t] is used somewhere in the activity. *)
Fixpoint uses (t : string) (p : activity) : Prop :=
  match p with
  | Pass _ | Raise => False
  | With s q => s = t \/ uses t q
  | Then q r => uses t q \/ uses t r
  | Catch q => uses t q
  end.

(** No timer of the list is used inside a block of a timer of the list. *)
Fixpoint never_nested (ts : list string) (p : activity) : Prop :=
  match p with
  | Pass _ | Raise => True
  | With s q => (In s ts -> forall t, In t ts -> ~ uses t q) /\ never_nested ts q
  | Then q r => never_nested ts q /\ never_nested ts r
  | Catch q => never_nested ts q
  end.

(** No timer is started again before it is stopped. *)
Definition never_restarted (p : activity) : Prop := forall t, never_nested [t] p.

(** Timers of the list are used only inside blocks of [s]. *)
Fixpoint only_within (s : string) (ts : list string) (p : activity) : Prop :=
  match p with
  | Pass _ | Raise => True
  | With u q => u = s \/ (~ In u ts /\ only_within s ts q)
  | Then q r => only_within s ts q /\ only_within s ts r
  | Catch q => only_within s ts q
  end.

(** The clock never goes back. *)
Fixpoint forward (p : activity) : Prop :=
  match p with
  | Pass d => 0 <= d
  | Raise => True
  | With _ q | Catch q => forward q
  | Then q r => forward q /\ forward r
  end.

(** The engine and the Green function do not use the timers of the solver. *)
Definition untimed (p : activity) : Prop := forall t, ~ uses t p.

Definition untimed_parts (p : parts) : Prop :=
  untimed (before p) /\ untimed (matrices p) /\ untimed (right_hand_side p) /\
  untimed (linear_solver p) /\ untimed (shapes p) /\ untimed (after p) /\
  match gradient p with None => True | Some (a, b) => untimed a /\ untimed b end.

Definition untimed_call (k : call) : Prop :=
  match k with
  | Solve p | SolveCaught p => untimed_parts p
  | Evaluate a b c => untimed a /\ untimed b /\ untimed c
  end.

Definition is_solve (k : call) : bool :=
  match k with Evaluate _ _ _ => false | _ => true end.
