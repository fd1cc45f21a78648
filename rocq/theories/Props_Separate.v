(** C39: datasets with complex values. *)
From Coq Require Import Reals String List Bool Arith Lra Lia.
From Verif Require Import Model_Base Model_Separate Spec_Separate Proofs_Separate.
Import ListNotations.
Open Scope R_scope.

(** Separating the complex values of a dataset and merging them again gives back the same dataset, whatever the mix of real and
    complex variables. Missing from the full statement: the imaginary parts must be finite. *)
Theorem complex_round_trip_partial : forall ds, ordinary_dataset ds -> finite_imaginary ds -> merge (separate ds) = Ok ds.
Proof. exact merge_separate. Qed.
Print Assumptions complex_round_trip_partial.

(** The separated dataset holds, under the same name, the real form of each variable; a real variable is unchanged. *)
Theorem separated_values : forall ds, ordinary_dataset ds ->
  forall n v, In (n, v) (x_vars (separate ds)) <-> exists w, In (n, w) (x_vars ds) /\ v = real_form w.
Proof. exact separate_real. Qed.
Print Assumptions separated_values.

(** A dataset with one real and two complex variables. *)
Definition ex_complex : xdataset :=
  {| x_vars := [("excitation"%string, Var ["omega"%string; "dof"%string] [2%nat; 1%nat] (Complexes [(Fin 1, Fin 2); (NaN, Fin 0)]));
                ("added_mass"%string, Var ["omega"%string] [2%nat] (Floats [Fin 3; PInf]));
                ("total"%string, Var [] [] (Complexes [(Fin 4, Fin 5)]))];
     x_coords := [("omega"%string, Var ["omega"%string] [2%nat] (Floats [Fin 1; Fin 2]))] |}.
Example complex_round_trip_not_vacuous : ordinary_dataset ex_complex /\ finite_imaginary ex_complex /\ separate ex_complex <> ex_complex.
Proof.
  split; [|split].
  - split; [|split].
    + cbn. repeat constructor; cbn; intuition discriminate.
    + intros n v [E|[E|[E|[]]]]; injection E as <- <-; split; try reflexivity; cbn; intuition discriminate.
    + intros n v [E|[]]; injection E as <- <-. discriminate.
  - intros n v l z [E|[E|[E|[]]]]; injection E as <- <-; cbn; try discriminate; intros [= <-] H; cbn in H;
      repeat destruct H as [<-|H]; try contradiction; cbn; eauto.
  - intros H. discriminate H.
Qed.

(** An infinite imaginary part: the product [1j*inf] is [nan+infj]. *)
Definition ex_infinite : xdataset :=
  {| x_vars := [("f"%string, Var [] [] (Complexes [(Fin 1, PInf)]))]; x_coords := [] |}.
Theorem complex_round_trip_refuted : ordinary_dataset ex_infinite
  /\ merge (separate ex_infinite) = Ok {| x_vars := [("f"%string, Var [] [] (Complexes [(NaN, PInf)]))]; x_coords := [] |}
  /\ merge (separate ex_infinite) <> Ok ex_infinite.
Proof.
  assert (E : merge (separate ex_infinite) = Ok {| x_vars := [("f"%string, Var [] [] (Complexes [(NaN, PInf)]))]; x_coords := [] |}).
  { unfold merge, separate, ex_infinite. cbn. unfold recombine, xadd, xmul, of_float, ext_sub. cbn.
    unfold ext_mul_inf. destruct (Rlt_dec 0 0); [lra|]. destruct (Rlt_dec 0 1); [|lra]. reflexivity. }
  split; [|split; [exact E|]].
  - split; [|split].
    + cbn. repeat constructor. intros [].
    + intros n v [H|[]]; injection H as <- <-. split; [intros []|reflexivity].
    + intros n v [].
  - rewrite E. intros H. discriminate H.
Qed.
Print Assumptions complex_round_trip_refuted.

(** Complex numbers in single precision are not separated. *)
Theorem single_precision_refuted : exists ds n v l,
  ordinary_dataset ds /\ In (n, v) (x_vars (separate ds)) /\ v_data v = Complexes64 l.
Proof.
  exists {| x_vars := [("f"%string, Var [] [] (Complexes64 [(Fin 1, Fin 2)]))]; x_coords := [] |}, "f"%string,
    (Var [] [] (Complexes64 [(Fin 1, Fin 2)])), [(Fin 1, Fin 2)].
  split; [split; [|split]|split; [now left|reflexivity]].
  - cbn. repeat constructor. intros [].
  - intros n v [H|[]]; injection H as <- <-. split; [intros []|reflexivity].
  - intros n v [].
Qed.
Print Assumptions single_precision_refuted.
