(** The timers of the solver (/repo/capytaine/tools/timer.py, 6-64, and their
    uses in /repo/capytaine/bem/solver.py).  Times are real numbers instead of
    floats.  A run of the code is seen as an [activity]: some time passes, an
    exception is raised, an activity is run under a timer, two activities are
    run one after the other, or the exceptions of an activity are caught. *)
From Coq Require Import Reals List String Bool.
Import ListNotations.
Open Scope R_scope.
Open Scope string_scope.
Open Scope list_scope.

Inductive activity :=
| Pass (d : R)                      (* code lasting [d] *)
| Raise                             (* an exception *)
| With (t : string) (p : activity)  (* "with self.timer[t]: p" *)
| Then (p q : activity)
| Catch (p : activity).             (* "try: p except Exception: ..." *)

(** time.perf_counter and the attributes start_time and timings of each timer.
    An attribute start_time that is not set yet is 0 here: timer.py sets it
    before each reading. *)
Record clocks := Clocks {
  now : R;
  start_time : string -> R;
  timings : string -> list R
}.

Definition update {A : Type} (f : string -> A) (t : string) (x : A) : string -> A :=
  fun s => if String.eqb s t then x else f s.

(** timer.py, 53-54: __enter__ *)
Definition enter (t : string) (c : clocks) : clocks :=
  Clocks (now c) (update (start_time c) t (now c)) (timings c).

(** timer.py, 56-57: __exit__, called also when an exception goes through;
    it returns None, so that the exception is not caught. *)
Definition exit (t : string) (c : clocks) : clocks :=
  Clocks (now c) (start_time c)
    (update (timings c) t (timings c t ++ [now c - start_time c t])).

(** The state after a run, and whether it ended without an exception. *)
Fixpoint run (p : activity) (c : clocks) : clocks * bool :=
  match p with
  | Pass d => (Clocks (now c + d) (start_time c) (timings c), true)
  | Raise => (c, false)
  | With t q => let (c', ok) := run q (enter t c) in (exit t c', ok)
  | Then q r => let (c', ok) := run q c in if ok then run r c' else (c', false)
  | Catch q => let (c', _) := run q c in (c', true)
  end.

(** timer.py, 38-51: nb_timings, total and mean; None is nan. *)
Definition nb_timings (l : list R) : nat := List.length l.
Definition total (l : list R) : R := fold_left Rplus l 0.
Definition mean (l : list R) : option R :=
  if Nat.eqb (nb_timings l) 0 then None else Some (total l / INR (nb_timings l)).

(** solver.py, 58: the timers of a new solver. *)
Definition solver_timers : list string :=
  ["Solve total"; "  Green function"; "  Linear solver"].
Definition new_solver (time : R) : clocks := Clocks time (fun _ => 0) (fun _ => []).

(** solver.py, 74-81: timer_summary, its rows (task, total, nb_calls, mean). *)
Definition timer_summary (c : clocks) : list (string * R * nat * option R) :=
  map (fun t => (t, total (timings c t), nb_timings (timings c t), mean (timings c t)))
    solver_timers.

(** The parts of a resolution, in the order of their execution: what precedes
    the matrices, their evaluation, the right-hand side, the linear solver, what
    follows, and with forward speed the evaluation of the Green function for the
    gradient of the potential, between the checks on its arguments and what
    follows. *)
Record parts := Parts {
  before : activity; matrices : activity; right_hand_side : activity;
  linear_solver : activity; shapes : activity;
  gradient : option (activity * activity); after : activity
}.

(** solver.py, 60 and 92-174: solve, wrapped in the timer "Solve total"; and
    379-391: _compute_potential_gradient, which is called by solve. *)
Definition solve (p : parts) : activity :=
  With "Solve total"
    (Then (before p)
    (Then (With "  Green function" (matrices p))
    (Then (right_hand_side p)
    (Then (With "  Linear solver" (linear_solver p))
    (Then (shapes p)
    (Then (match gradient p with
           | None => Pass 0
           | Some (checks, evaluation) =>
               Then checks (With "  Green function" evaluation)
           end)
          (after p))))))).

(** What is done with a solver: a resolution, whose exceptions may be caught
    (solver.py, 176-184: _solve_and_catch_errors, called by solve_all), or the
    evaluation of the potential or of its gradient at some points (365-391),
    which is timed only as "  Green function". *)
Inductive call :=
| Solve (p : parts)
| SolveCaught (p : parts)
| Evaluate (checks evaluation rest : activity).

Definition call_activity (k : call) : activity :=
  match k with
  | Solve p => solve p
  | SolveCaught p => Catch (solve p)
  | Evaluate checks evaluation rest =>
      Then checks (Then (With "  Green function" evaluation) rest)
  end.

(** A session with the same solver; the user's own code may catch the errors. *)
Fixpoint session (l : list call) : activity :=
  match l with
  | [] => Pass 0
  | k :: l' => Then (Catch (call_activity k)) (session l')
  end.
