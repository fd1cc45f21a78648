(** What a user expects of [solve_all]. *)
From Coq Require Import Reals.
From Coquelicot Require Import Complex.
From Coq Require Import List String Bool.
From Verif Require Import Model_Base Model_Symbolic Model_Problem Model_Results Model_Solver.
Import ListNotations.

(** The result of one problem solved by a solver in state [s]: what [solve]
    returns or, if it raises, a result holding the problem, the exception and
    a nan for each dof. *)
Definition result_or_failure (p : pb) (o : result pres) : pres :=
  match o with
  | Ok r => r
  | Err e => {| r_problem := p;
                r_forces := map (fun n => (n, ForceNaN))
                  (match p_body (pb_data p) with None => [] | Some b => map fst (b_dofs b) end);
                r_sources := None; r_potential := None; r_pressure := None; r_exception := Some e |}
  end.

Section Spec.
  Variable st : Type.
  Variable build : st -> bkey -> st * result (matrix * matrix).
  Variable linsolve : st -> matrix -> list C -> st * result (list C).

  (** The state of the solver never shows: whatever it has solved before among
      the bodies [used], the engine and the linear solver answer as they do in
      state [s0]. (C01, C02 and C17 are about when this holds.) *)
  Definition transparent (s0 : st) (used : body -> Prop) : Prop :=
    exists Inv : st -> Prop, Inv s0
      /\ (forall s b fs h k adj, Inv s -> used b ->
            snd (build s (b, fs, h, k, adj)) = snd (build s0 (b, fs, h, k, adj))
            /\ Inv (fst (build s (b, fs, h, k, adj))))
      /\ (forall s m v, Inv s -> snd (linsolve s m v) = snd (linsolve s0 m v)
            /\ Inv (fst (linsolve s m v))).

  (** A list of diffraction and radiation problems with bodies. *)
  Definition ordinary (used : body -> Prop) (l : list pb) : Prop :=
    forall p, In p l -> pb_kind p <> Generic /\ exists b, p_body (pb_data p) = Some b /\ used b.

  (** No undefined number among the parameters that define the groups. *)
  Definition no_nan (l : list pb) : Prop :=
    forall p, In p l -> p_depth (pb_data p) <> NaN /\ ffloat (f_omega (p_freqs (pb_data p))) <> NaN.
End Spec.
