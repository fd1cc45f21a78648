(** C35: the response amplitude operator. *)
From Coq Require Import Reals String List Bool Arith Lra Lia.
From Coquelicot Require Import Complex.
From Verif Require Import Model_Base Model_Ring Spec_Ring Model_LinSolve Spec_LinSolve Proofs_Gauss Props_LinSolve Proofs_Symmetry Model_Rao Spec_Rao Proofs_Rao.
Import ListNotations.
Open Scope R_scope.

(** The RAO has one value for each point of the dataset, and satisfies the equation of motion there. Missing from the full
    statement: the matrices must be symmetric. *)
Theorem rao_solves_equation_of_motion_partial :
  forall (P : Type) lapack, exact_solver lapack -> forall (d : dataset P) dissipation stiffness m k f xs,
  ds_inertia _ d = Some m -> ds_stiffness _ d = Some k -> ds_excitation _ d = Some f ->
  ds_radiating _ d = ds_influenced _ d ->
  (forall p, In p (ds_points _ d) -> let s := symmetric_on (ds_influenced _ d) in
     s (m p) /\ s (k p) /\ s (ds_added_mass _ d p) /\ s (ds_damping _ d p) /\ s (given dissipation) /\ s (given stiffness)) ->
  rao _ lapack d dissipation stiffness = Ok xs ->
  map fst xs = ds_points _ d
  /\ forall p x, In (p, x) xs -> equation_of_motion (ds_influenced _ d) (motion_coefficient d m k dissipation stiffness p) (f p) x.
Proof.
  intros P lapack HL d dis st m k f xs Em Ek Ef El S E. destruct (rao_transposed lapack HL d dis st m k f xs Em Ek Ef E El) as [F G]. split; [exact F|].
  intros p x I. refine (motion_ext _ _ _ _ _ _ (G p x I)). intros r i Hr Hi. apply (symmetric_motion d dis st m k p (ds_influenced _ d)); [|exact Hi|exact Hr].
  apply S. rewrite <- F. apply in_map_iff. now exists (p, x).
Qed.
Print Assumptions rao_solves_equation_of_motion_partial.
(** It is computed when the matrices are not singular. *)
Theorem rao_exists_partial :
  forall (P : Type) lapack, exact_solver lapack -> forall (d : dataset P) dissipation stiffness m k f,
  ds_inertia _ d = Some m -> ds_stiffness _ d = Some k -> ds_excitation _ d = Some f ->
  ds_radiating _ d = ds_influenced _ d ->
  (forall p, In p (ds_points _ d) -> let s := symmetric_on (ds_influenced _ d) in
     s (m p) /\ s (k p) /\ s (ds_added_mass _ d p) /\ s (ds_damping _ d p) /\ s (given dissipation) /\ s (given stiffness)) ->
  (forall p x, In p (ds_points _ d) -> equation_of_motion (ds_influenced _ d) (motion_coefficient d m k dissipation stiffness p) (fun _ => RtoC 0) x ->
     forall y, In y x -> y = RtoC 0) ->
  exists xs, rao _ lapack d dissipation stiffness = Ok xs.
Proof.
  intros P lapack HL d dis st m k f Em Ek Ef El S N. apply (rao_exists lapack HL d dis st m k f Em Ek Ef El). intros p Hp x Hx. apply (N p x Hp).
  refine (motion_ext _ _ _ _ _ _ Hx). intros r i Hr Hi. apply (symmetric_motion d dis st m k p (ds_influenced _ d) (S p Hp)); assumption.
Qed.
Print Assumptions rao_exists_partial.
Definition roll_yaw : list string := ["Roll"%string; "Yaw"%string].
Definition zeros : unit -> string -> string -> R := fun _ _ _ => 0.
Definition roll_yaw_dataset (k : string -> string -> R) (f : string -> C) : dataset unit :=
  DS unit [tt] roll_yaw roll_yaw (fun _ => 1) None zeros zeros (Some zeros) (Some (fun _ => k)) (Some (fun _ => f)).
Definition unit_stiffness (r i : string) : R := if String.eqb r i then 1 else 0.
Lemma roll_yaw_motion (k : string -> string -> R) f p r i : motion_coefficient (roll_yaw_dataset k f) zeros (fun _ => k) None None p r i = RtoC (k r i).
Proof. unfold motion_coefficient, zeros, given, RtoC. apply injective_projections; cbn; unfold zeros; ring. Qed.
Example rao_ex : let d := roll_yaw_dataset unit_stiffness (fun _ => RtoC 1) in
  exact_solver complex_gauss /\ ds_radiating _ d = ds_influenced _ d
  /\ (forall p, In p (ds_points _ d) -> let s := symmetric_on (ds_influenced _ d) in
     s (zeros p) /\ s unit_stiffness /\ s (ds_added_mass _ d p) /\ s (ds_damping _ d p) /\ s (given None) /\ s (given None))
  /\ forall p x, In p (ds_points _ d) -> equation_of_motion (ds_influenced _ d) (motion_coefficient d zeros (fun _ => unit_stiffness) None None p) (fun _ => RtoC 0) x ->
     forall y, In y x -> y = RtoC 0.
Proof.
  cbn zeta. split; [exact complex_gauss_exact|]. split; [reflexivity|]. split.
  - intros p _. cbn zeta. assert (Z : symmetric_on roll_yaw (zeros p)) by (intros r i _ _; reflexivity). split; [exact Z|].
    split; [|split; [exact Z|split; [exact Z|split; intros r i _ _; reflexivity]]]. intros r i _ _. unfold unit_stiffness. now rewrite String.eqb_sym.
  - intros p x _ [L G] y Hy. destruct x as [|x1 [|x2 [|x3 x]]]; cbn in L; try lia. cbn [ds_influenced roll_yaw_dataset] in G.
    pose proof (G "Roll"%string ltac:(cbn; tauto)) as G1. pose proof (G "Yaw"%string ltac:(cbn; tauto)) as G2. unfold roll_yaw in G1, G2. cbn [combine map fold_right fst snd] in G1, G2.
    rewrite !roll_yaw_motion in G1, G2. unfold unit_stiffness in G1, G2. cbn [String.eqb Ascii.eqb Bool.eqb] in G1, G2.
    destruct Hy as [<-|[<-|[]]]; [rewrite <- G1|rewrite <- G2]; ring.
Qed.
(** The impedance relates the velocities, -i w times the motions, to the forces. *)
Theorem impedance_relates_velocities :
  forall (P : Type) (d : dataset P) dissipation stiffness m k, ds_inertia _ d = Some m -> ds_stiffness _ d = Some k ->
  exists z, impedance _ d dissipation stiffness = Ok z
  /\ forall p, let w := match ds_encounter_omega _ d with Some e => e p | None => ds_omega _ d p end in
     (w = 0 -> forall r i, z p r i = None)
     /\ (w <> 0 -> forall r i, exists c, z p r i = Some c /\ forall x, Cmult c (Cmult (0, - w) x) = Cmult (motion_coefficient d m k dissipation stiffness p r i) x).
Proof.
  intros P d dis st m k Em Ek. destruct (transfer_value d dis st m k Em Ek) as (H & EH & HH). unfold impedance. rewrite EH. cbn [bind]. eexists. split; [reflexivity|].
  intros p. set (w := match ds_encounter_omega _ d with Some e => e p | None => ds_omega _ d p end). assert (Ew : frequency _ d p = w) by (unfold frequency, w; now destruct (ds_encounter_omega _ d)). split.
  - intros Z r i. now rewrite Ew, (proj2 (Reqb_true w 0) Z).
  - intros N r i. rewrite Ew. destruct (Reqb w 0) eqn:Z; [apply Reqb_true in Z; contradiction|]. eexists. split; [reflexivity|]. intros x. rewrite <- HH.
    assert (J : Cmult (Copp jC) (RtoC w) = (0, - w)) by (unfold jC, Cmult, Copp, RtoC; cbn; f_equal; ring). rewrite J.
    assert (Nz : (0, - w) <> RtoC 0) by (intros E; apply N; unfold RtoC in E; injection E; lra). field. exact Nz.
Qed.
Print Assumptions impedance_relates_velocities.
Example impedance_ex : ds_inertia _ (roll_yaw_dataset unit_stiffness (fun _ => RtoC 1)) = Some zeros /\ 1 <> 0.
Proof. split; [reflexivity|lra]. Qed.
(** Refuted: with a matrix that is not symmetric, the computed motions solve the transposed system. Here the motion in yaw
    gives a force in roll, as the hydrostatic stiffness of a body that is not freely floating. *)
Theorem rao_not_symmetric_refuted :
  forall lapack, exact_solver lapack -> exists (d : dataset unit) m k f,
  ds_inertia _ d = Some m /\ ds_stiffness _ d = Some k /\ ds_excitation _ d = Some f /\ ds_radiating _ d = ds_influenced _ d
  /\ exists x, rao _ lapack d None None = Ok [(tt, x)]
     /\ ~ equation_of_motion (ds_influenced _ d) (motion_coefficient d m k None None tt) (f tt) x.
Proof.
  intros lapack HL. pose (k := fun r i => if String.eqb r i then 1 else if String.eqb r "Yaw" then 1 else 0).
  pose (f := fun s => if String.eqb s "Roll" then RtoC 1 else RtoC 0). exists (roll_yaw_dataset k f), zeros, (fun _ => k), (fun _ => f).
  split; [reflexivity|]. split; [reflexivity|]. split; [reflexivity|]. split; [reflexivity|].
  destruct (rao_exists lapack HL (roll_yaw_dataset k f) None None zeros (fun _ => k) (fun _ => f)) as [xs E]; try reflexivity.
  - intros p _ x [L G] y Hy. destruct x as [|x1 [|x2 [|x3 x]]]; cbn in L; try lia. cbn [ds_influenced roll_yaw_dataset] in G.
    pose proof (G "Roll"%string ltac:(cbn; tauto)) as G1. pose proof (G "Yaw"%string ltac:(cbn; tauto)) as G2. unfold roll_yaw in G1, G2. cbn [combine map fold_right fst snd] in G1, G2.
    rewrite !roll_yaw_motion in G1, G2. unfold k in G1, G2. cbn [String.eqb Ascii.eqb Bool.eqb] in G1, G2.
    assert (X1 : x1 = RtoC 0) by (rewrite <- G1; ring). subst x1. assert (X2 : x2 = RtoC 0) by (rewrite <- G2; ring). destruct Hy as [<-|[<-|[]]]; [reflexivity|exact X2].
  - destruct (rao_transposed lapack HL (roll_yaw_dataset k f) None None zeros (fun _ => k) (fun _ => f) xs eq_refl eq_refl eq_refl E eq_refl) as [F G].
    destruct xs as [|[[] x] [|y ys]]; try discriminate F. exists x. split; [exact E|]. destruct (G tt x (or_introl eq_refl)) as [L Gx]. clear G.
    intros [_ B]. destruct x as [|x1 [|x2 [|x3 x]]]; cbn in L; try lia. cbn [ds_influenced roll_yaw_dataset] in Gx, B.
    pose proof (Gx "Roll"%string ltac:(cbn; tauto)) as G1. pose proof (Gx "Yaw"%string ltac:(cbn; tauto)) as G2. pose proof (B "Yaw"%string ltac:(cbn; tauto)) as B2.
    unfold roll_yaw in G1, G2, B2. cbn [combine map fold_right fst snd] in G1, G2, B2.
    rewrite !roll_yaw_motion in G1, G2, B2. unfold k, f in G1, G2, B2. cbn [String.eqb Ascii.eqb Bool.eqb] in G1, G2, B2.
    assert (X1 : x1 = RtoC 1) by (rewrite <- G1; ring). subst x1. assert (X2 : x2 = RtoC 0) by (rewrite <- B2; ring). subst x2.
    assert (Z : RtoC 1 = RtoC 0) by (rewrite <- G2; ring). unfold RtoC in Z. injection Z. lra.
Qed.
Print Assumptions rao_not_symmetric_refuted.
(** Missing matrices, and different numbers of radiating and influenced dofs, are errors. *)
Theorem rao_errors :
  forall (P : Type) lapack (d : dataset P) dissipation stiffness,
  (ds_inertia _ d = None \/ ds_stiffness _ d = None \/ ds_excitation _ d = None -> rao _ lapack d dissipation stiffness = Err AttributeError)
  /\ (ds_inertia _ d <> None -> ds_stiffness _ d <> None -> ds_excitation _ d <> None -> ds_points _ d <> [] ->
      List.length (ds_radiating _ d) <> List.length (ds_influenced _ d) -> rao _ lapack d dissipation stiffness = Err OtherException).
Proof.
  intros P lapack d dis st. split.
  - intros H. unfold rao, rao_transfer_function. destruct (ds_inertia _ d); [|reflexivity]. destruct (ds_stiffness _ d); [|reflexivity]. cbn [bind].
    destruct H as [H|[H|H]]; try discriminate. now rewrite H.
  - intros A B C D E. unfold rao, rao_transfer_function. destruct (ds_inertia _ d); [|contradiction]. destruct (ds_stiffness _ d); [|contradiction]. cbn [bind].
    destruct (ds_excitation _ d); [|contradiction]. destruct (ds_points _ d) as [|p l]; [contradiction|]. cbn [Model_Mesh.mapM]. unfold np_solve.
    now rewrite (proj2 (Nat.eqb_neq _ _) E).
Qed.
Print Assumptions rao_errors.
Example rao_errors_ex : exists d : dataset unit, ds_inertia _ d <> None /\ ds_stiffness _ d <> None /\ ds_excitation _ d <> None /\ ds_points _ d <> []
  /\ List.length (ds_radiating _ d) <> List.length (ds_influenced _ d).
Proof.
  exists (DS unit [tt] [] roll_yaw (fun _ => 1) None zeros zeros (Some zeros) (Some zeros) (Some (fun _ _ => RtoC 0))).
  split; [discriminate|]. split; [discriminate|]. split; [discriminate|]. split; [discriminate|]. cbn. lia.
Qed.
