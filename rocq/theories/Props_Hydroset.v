(** C88: the hydrostatics of several bodies in a dataset. *)
From Coq Require Import String Ascii Reals List Bool Arith Permutation.
From Verif Require Import Model_Base Model_Problem Model_Solver Model_Dataset Spec_Dataset Proofs_Dataset Proofs_Dataset2 Model_Hydroset Spec_Hydroset Proofs_Hydroset.
Import ListNotations.
Open Scope nat_scope.

(** The coefficients of each body are found under its name and under the names of the dofs. *)
Theorem hydrostatics_values : forall cell (nan : cell) arrange, (forall c l, Permutation l (arrange c l)) ->
  forall bodies ds q b m d e x, NoDup (map (h_name cell) bodies) -> hydrostatics_dataset cell nan arrange bodies = Ok ds -> In b bodies -> has cell q b m -> sound cell m -> coefficient_of cell m d e x ->
  sel ds q (at_body (h_name cell b) d e) = Ok x.
Proof. exact values_found. Qed.
Print Assumptions hydrostatics_values.

(** Nan stands for the coefficients that a body does not have. Partial: at least two bodies have the matrix; see
    [hydrostatics_missing_refuted]. *)
Theorem hydrostatics_missing_partial : forall cell (nan : cell) arrange, (forall c l, Permutation l (arrange c l)) ->
  forall bodies ds q b d e, NoDup (map (h_name cell) bodies) -> hydrostatics_dataset cell nan arrange bodies = Ok ds -> q = InertiaMatrix \/ q = HydrostaticStiffness -> several cell q bodies -> In b bodies ->
  (forall m, has cell q b m -> ~ (In d (m_infl cell m) /\ In e (m_rad cell m))) ->
  labelled ds BodyName (Name (h_name cell b)) -> labelled ds InfluencedDof d -> labelled ds RadiatingDof e -> sel ds q (at_body (h_name cell b) d e) = Ok nan.
Proof. exact values_missing. Qed.
Print Assumptions hydrostatics_missing_partial.

(** The dataset has no matrix that no body has. *)
Theorem hydrostatics_absent : forall cell (nan : cell) arrange bodies ds q s, hydrostatics_dataset cell nan arrange bodies = Ok ds -> q = InertiaMatrix \/ q = HydrostaticStiffness ->
  (forall b, In b bodies -> lacks cell q b) -> sel ds q s = Err KeyError.
Proof. exact values_absent. Qed.
Print Assumptions hydrostatics_absent.

(** Bodies with different names are refused only when one body alone has an inertia and another alone has a stiffness. *)
Theorem hydrostatics_refused : forall cell (nan : cell) arrange bodies, NoDup (map (h_name cell) bodies) ->
  ((exists ds, hydrostatics_dataset cell nan arrange bodies = Ok ds)
   \/ hydrostatics_dataset cell nan arrange bodies = Err ValueError)
  /\ (hydrostatics_dataset cell nan arrange bodies = Err ValueError
      <-> exists n n', n <> n' /\ only cell InertiaMatrix bodies n /\ only cell HydrostaticStiffness bodies n').
Proof.
  intros cell nan arrange bodies ND. assert (H := refused cell nan arrange bodies ND). split; [tauto|]. split.
  - intros E. destruct H as [[ds H]|[_ H]]; [rewrite H in E; discriminate|exact H].
  - intros (n & n' & N & H1 & H2). exact (refused_iff cell nan arrange bodies n n' ND N H1 H2).
Qed.
Print Assumptions hydrostatics_refused.

Definition heave_of {cell} (x : cell) : lmatrix cell := LMatrix cell [Name "Heave"] [Name "Heave"] [x].
(** When one body only has an inertia, the dataset gives this inertia for the other bodies too. *)
Theorem hydrostatics_missing_refuted : forall cell (nan : cell) arrange, (forall c l, Permutation l (arrange c l)) -> forall x y z,
  let a := HBody cell "A" (Some (heave_of x)) (Some (heave_of y)) in let b := HBody cell "B" None (Some (heave_of z)) in
  exists ds, hydrostatics_dataset cell nan arrange [a; b] = Ok ds /\ lacks cell InertiaMatrix b /\ labelled ds BodyName (Name "B")
    /\ sel ds HydrostaticStiffness (at_body "B" (Name "Heave") (Name "Heave")) = Ok z
    /\ sel ds InertiaMatrix (at_body "B" (Name "Heave") (Name "Heave")) = Ok x.
Proof.
  intros cell nan arrange P x y z a b. assert (ND : NoDup (map (h_name cell) [a; b])) by (repeat constructor; cbn; intuition discriminate).
  destruct (hydro_result cell nan arrange [a; b]) as (ds & E). exists ds. split; [exact E|]. split; [intros m [[_ H]|[H _]]; discriminate|].
  destruct (kept cell nan arrange P [a; b] ds InertiaMatrix [("A"%string, heave_of x)] E (or_introl eq_refl) eq_refl ltac:(discriminate)) as (G & K1 & K2).
  destruct (kept cell nan arrange P [a; b] ds HydrostaticStiffness [("A"%string, heave_of y); ("B"%string, heave_of z)] E (or_intror eq_refl) eq_refl ltac:(discriminate)) as (_ & _ & K3).
  split; [apply K3; eexists; split; [now left|cbn; tauto]|]. split.
  - apply (hydrostatics_values cell nan arrange P [a; b] ds HydrostaticStiffness b (heave_of z) (Name "Heave") (Name "Heave") z ND E); [cbn; tauto|now right| |exists 0, 0; repeat split].
    split; repeat constructor; cbn; tauto.
  - rewrite (holds_sel nan ds InertiaMatrix one_dims (one_value cell nan (heave_of x)) _ G (K1 _ _ (holds_one cell nan arrange InertiaMatrix "A" (heave_of x)))); [reflexivity|].
    intros c Hc. apply K2. cbn in Hc. destruct Hc as [<-|[<-|[]]]; eexists; (split; [cbn; eauto|now left]).
Qed.
Print Assumptions hydrostatics_missing_refuted.

(** Of two bodies with the same name, the second only is found in the dataset. *)
Theorem hydrostatics_same_name_refuted : forall cell (nan : cell) arrange, (forall c l, Permutation l (arrange c l)) -> forall x y,
  let a := HBody cell "buoy" (Some (heave_of x)) None in let b := HBody cell "buoy" (Some (heave_of y)) None in
  exists ds, hydrostatics_dataset cell nan arrange [a; b] = Ok ds /\ sel ds InertiaMatrix (at_body "buoy" (Name "Heave") (Name "Heave")) = Ok y
    /\ forall n, ~ labelled ds BodyName n.
Proof.
  intros cell nan arrange P x y a b. destruct (hydro_result cell nan arrange [a; b]) as (ds & E). exists ds. split; [exact E|].
  destruct (kept cell nan arrange P [a; b] ds InertiaMatrix [("buoy"%string, heave_of y)] E (or_introl eq_refl) eq_refl ltac:(discriminate)) as (G & K1 & K2). split.
  - rewrite (holds_sel nan ds InertiaMatrix one_dims (one_value cell nan (heave_of y)) _ G (K1 _ _ (holds_one cell nan arrange InertiaMatrix "buoy" (heave_of y)))); [reflexivity|].
    intros c Hc. apply K2. cbn in Hc. destruct Hc as [<-|[<-|[]]]; eexists; (split; [cbn; eauto|now left]).
  - intros n (l & H & _). cbn in E. injection E as <-. cbn in H. intuition discriminate.
Qed.
Print Assumptions hydrostatics_same_name_refuted.

(** ** Examples *)
(** Two bodies with different dofs. *)
Definition barge : hbody nat := HBody nat "barge" (Some (LMatrix nat [Name "Surge"; Name "Heave"] [Name "Surge"; Name "Heave"] [1; 2; 3; 4])) None.
Definition flap : hbody nat := HBody nat "flap" (Some (LMatrix nat [Name "Pitch"] [Name "Pitch"] [5])) (Some (LMatrix nat [Name "Pitch"] [Name "Pitch"] [6])).
Example hydrostatics_values_ex : NoDup (map (h_name nat) [barge; flap]) /\ exists ds, hydrostatics_dataset nat 0 (fun _ l => l) [barge; flap] = Ok ds
  /\ sel ds InertiaMatrix (at_body "barge" (Name "Heave") (Name "Surge")) = Ok 3 /\ sel ds InertiaMatrix (at_body "flap" (Name "Pitch") (Name "Pitch")) = Ok 5.
Proof.
  assert (P : forall (c : column) (l : list value), Permutation l ((fun (_ : column) (l : list value) => l) c l)) by (intros; apply Permutation_refl).
  assert (ND : NoDup (map (h_name nat) [barge; flap])) by (repeat constructor; cbn; intuition discriminate). split; [exact ND|].
  destruct (hydro_result nat 0 (fun _ l => l) [barge; flap]) as (ds & E). exists ds. split; [exact E|]. split.
  - eapply (hydrostatics_values nat 0 _ P _ ds InertiaMatrix barge); [exact ND|exact E|cbn; tauto|left; split; reflexivity|split; repeat constructor; cbn; intuition discriminate|].
    exists 1, 0. repeat split.
  - eapply (hydrostatics_values nat 0 _ P _ ds InertiaMatrix flap); [exact ND|exact E|cbn; tauto|left; split; reflexivity|split; repeat constructor; cbn; intuition discriminate|].
    exists 0, 0. repeat split.
Qed.
Example hydrostatics_missing_ex : several nat InertiaMatrix [barge; flap]
  /\ (forall m, has nat InertiaMatrix flap m -> ~ (In (Name "Surge") (m_infl nat m) /\ In (Name "Pitch") (m_rad nat m)))
  /\ exists ds, hydrostatics_dataset nat 0 (fun _ l => l) [barge; flap] = Ok ds /\ labelled ds BodyName (Name "flap") /\ labelled ds InfluencedDof (Name "Surge") /\ labelled ds RadiatingDof (Name "Pitch").
Proof.
  split; [|split].
  - eexists barge, flap, _, _. split; [now left|]. split; [right; now left|]. split; [discriminate|]. split; left; split; reflexivity.
  - intros m [[_ H]|[H _]]; [|discriminate]. injection H as <-. cbn. intuition discriminate.
  - assert (P : forall (c : column) (l : list value), Permutation l ((fun (_ : column) (l : list value) => l) c l)) by (intros; apply Permutation_refl).
    destruct (hydro_result nat 0 (fun _ l => l) [barge; flap]) as (ds & E). exists ds. split; [exact E|].
    destruct (kept nat 0 _ P [barge; flap] ds InertiaMatrix _ E (or_introl eq_refl) eq_refl ltac:(discriminate)) as (_ & _ & K).
    split; [|split]; apply K; eexists; (split; [cbn; eauto|cbn; tauto]).
Qed.
Example hydrostatics_refused_ex : let a := HBody nat "A" (Some (heave_of 1)) None in let b := HBody nat "B" None (Some (heave_of 2)) in
  only nat InertiaMatrix [a; b] "A" /\ only nat HydrostaticStiffness [a; b] "B".
Proof.
  intros a b. split.
  - exists a, (heave_of 1). split; [now left|]. split; [reflexivity|]. split; [left; split; reflexivity|]. intros b' m' [<-|[<-|[]]] H; [reflexivity|]. destruct H as [[_ H]|[H _]]; discriminate.
  - exists b, (heave_of 2). split; [right; now left|]. split; [reflexivity|]. split; [right; split; reflexivity|]. intros b' m' [<-|[<-|[]]] H; [|reflexivity]. destruct H as [[H _]|[_ H]]; discriminate.
Qed.
Example hydrostatics_absent_ex : forall b, In b [barge] -> lacks nat HydrostaticStiffness b.
Proof. intros b [<-|[]] m [[H _]|[_ H]]; discriminate. Qed.
