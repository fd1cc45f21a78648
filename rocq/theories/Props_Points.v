(** Properties C46, C55 and C56. *)
From Coq Require Import Reals.
From Coquelicot Require Import Complex.
From Coq Require Import List Bool Arith Lia Lra.
From Verif Require Import Model_Base Model_Geometry Model_Mesh Model_Problem Model_Tree Model_Points Spec_Points Proofs_Geometry Proofs_Mesh3 Proofs_Points Proofs_Points2 Proofs_Points3.
Import ListNotations.
Open Scope nat_scope.

(** ** C46: points given in any form *)

(** An array of values is determined by its values at the points. *)
Theorem values_determined {B} (a : ndarray R) flat d (f : vec -> B) r r' :
  wf_array a -> dimension a d -> d = 3 \/ flat = true /\ d = 2 -> values_at a flat f r -> values_at a flat f r' -> r = r'.
Proof. exact (values_unique a flat d f r r'). Qed.

(** Airy waves. *)
Theorem airy_waves_at_points a w : wf_array a -> dimension a 3 ->
  (exists r, airy_waves_potential (Coordinates a) w = Ok r /\ values_at a false (airy_potential w) r)
  /\ (exists r, airy_waves_velocity (Coordinates a) w = Ok r /\ vectors_at a (airy_velocity w) r)
  /\ (exists r, airy_waves_pressure (Coordinates a) w = Ok r /\ values_at a false (airy_pressure w) r).
Proof. intros W D. exact (conj (airy_potential_values a w W D) (conj (airy_velocity_values a w W D) (airy_pressure_values a w W D))). Qed.
Theorem airy_elevation_at_points a w d : wf_array a -> dimension a d -> d = 2 \/ d = 3 ->
  exists r, airy_waves_free_surface_elevation (Coordinates a) w = Ok r /\ values_at a true (airy_elevation w) r.
Proof. exact (airy_elevation_values a w d). Qed.
Theorem airy_waves_wrong_points a w : wf_array a -> (shape a = [] \/ exists d, dimension a d /\ d <> 3) ->
  airy_waves_potential (Coordinates a) w = Err ValueError /\ airy_waves_velocity (Coordinates a) w = Err ValueError /\ airy_waves_pressure (Coordinates a) w = Err ValueError.
Proof. exact (airy_wrong a w). Qed.

Lemma centers_eq ps : Array [length ps; 3] (flat_map (fun f => [vx (p_center f); vy (p_center f); vz (p_center f)]) ps) = centers_array (map p_center ps).
Proof. unfold centers_array. rewrite map_length. f_equal. induction ps as [|f ps IH]; cbn; congruence. Qed.

Section Oracles.
  Variable green : vec -> nat -> C.
  Variable grad : vec -> nat -> C * C * C.
  Variable panels2 : list fprops.
  Notation n2 := (length panels2).

  (** The flow of a solved problem. *)
  Theorem flow_at_points a r s : wf_array a -> dimension a 3 -> sources r = Some s -> encounter_defined r ->
    (exists v, compute_potential green panels2 (Ok tt) (Coordinates a) r = Ok v /\ values_at a false (induced_potential green n2 s) v)
    /\ (exists v, compute_velocity grad panels2 (Ok tt) (Coordinates a) r = Ok v
        /\ vectors_at a (fun p => let '(x, y, z) := induced_gradient grad n2 s p in (Cminus x (RtoC (forward_speed r)), y, z)) v)
    /\ (exists v, compute_pressure green grad panels2 (Ok tt) (Coordinates a) r = Ok v /\ values_at a false (linear_pressure green grad n2 s r) v).
  Proof.
    intros W D Hs He. exact (conj (potential_values green panels2 r s Hs a W D) (conj (velocity_values grad panels2 r s Hs a W D) (pressure_values green grad panels2 r s Hs He a W D))).
  Qed.
  (** The elevation is computed at each point, with two or three coordinates; its value is discussed in C55. *)
  Theorem elevation_at_points a d r s : wf_array a -> dimension a d -> d = 2 \/ d = 3 -> sources r = Some s -> encounter_defined r ->
    exists v, compute_free_surface_elevation green grad panels2 (Ok tt) (Coordinates a) r = Ok v
      /\ values_at a true (fun p => Cmult (RtoC (1 / s_g r)) (Cminus (Cmult (Cmult Ci (RtoC (encounter_omega r))) (induced_potential green n2 s p))
                                     (Cmult (RtoC (forward_speed r)) (fst (fst (induced_gradient grad n2 s p)))))) v.
  Proof. intros W D Hd Hs He. exact (elevation_values green grad panels2 r s Hs He a d W D Hd). Qed.
  Theorem flow_wrong_points a r s : wf_array a -> sources r = Some s -> (shape a = [] \/ exists d, dimension a d /\ d <> 3) ->
    compute_potential green panels2 (Ok tt) (Coordinates a) r = Err ValueError /\ compute_velocity grad panels2 (Ok tt) (Coordinates a) r = Err ValueError
    /\ compute_pressure green grad panels2 (Ok tt) (Coordinates a) r = Err ValueError.
  Proof. exact (solver_wrong green grad panels2 r a s). Qed.
  Theorem flow_without_sources a r : sources r = None -> wf_array a -> dimension a 3 ->
    compute_potential green panels2 (Ok tt) (Coordinates a) r = Err OtherException /\ compute_velocity grad panels2 (Ok tt) (Coordinates a) r = Err OtherException
    /\ compute_pressure green grad panels2 (Ok tt) (Coordinates a) r = Err OtherException /\ compute_free_surface_elevation green grad panels2 (Ok tt) (Coordinates a) r = Err OtherException.
  Proof. exact (no_sources green grad panels2 r a). Qed.

  (** ** C55: pressure and elevation on the free surface *)

  (** Without forward speed. [a] and [b] list the same points, maybe with two coordinates in [b]. *)
  Theorem surface_pressure_elevation_partial a b d r s v w : wf_array a -> dimension a 3 -> wf_array b -> dimension b d -> d = 2 \/ d = 3 ->
    (forall idx p, point_at b true idx p -> point_at a false idx p) -> sources r = Some s -> encounter_defined r -> forward_speed r = 0%R -> s_g r <> 0%R ->
    compute_pressure green grad panels2 (Ok tt) (Coordinates a) r = Ok v -> compute_free_surface_elevation green grad panels2 (Ok tt) (Coordinates b) r = Ok w ->
    forall idx p e, point_at b true idx p -> element w idx e -> element v idx (Cmult (RtoC (s_rho r * s_g r)) e).
  Proof.
    intros Wa Da Wb Db Hd Hp Hs He U G Ev Ew idx p e P E.
    destruct (pressure_values green grad panels2 r s Hs He a Wa Da) as (v' & Ev' & _ & _ & X). rewrite Ev in Ev'. injection Ev' as <-.
    destruct (elevation_values green grad panels2 r s Hs He b d Wb Db Hd) as (w' & Ew' & _ & _ & Y). rewrite Ew in Ew'. injection Ew' as <-.
    specialize (X idx p (Hp idx p P)). specialize (Y idx p P). destruct E as (_ & E), Y as (_ & Y). rewrite E in Y. injection Y as ->.
    replace (Cmult _ _) with (linear_pressure green grad n2 s r p); [exact X|]. unfold linear_pressure, computed_elevation. rewrite U.
    replace (RtoC (s_rho r * s_g r)) with (Cmult (RtoC (s_rho r)) (RtoC (s_g r))) by (symmetry; apply RtoC_mult).
    replace (RtoC (1 / s_g r)) with (Cinv (RtoC (s_g r))) by (rewrite <- RtoC_inv by exact G; f_equal; unfold Rdiv; ring).
    field. intros K. apply G. now apply RtoC_inj.
  Qed.
  (** With forward speed, the pressure exceeds rho g times the elevation by twice the term of the speed. *)
  Theorem surface_pressure_elevation_difference a b d r s v w : wf_array a -> dimension a 3 -> wf_array b -> dimension b d -> d = 2 \/ d = 3 ->
    (forall idx p, point_at b true idx p -> point_at a false idx p) -> sources r = Some s -> encounter_defined r -> s_g r <> 0%R ->
    compute_pressure green grad panels2 (Ok tt) (Coordinates a) r = Ok v -> compute_free_surface_elevation green grad panels2 (Ok tt) (Coordinates b) r = Ok w ->
    forall idx p e, point_at b true idx p -> element w idx e ->
      element v idx (Cplus (Cmult (RtoC (s_rho r * s_g r)) e) (Cmult (RtoC (2 * s_rho r * forward_speed r)) (fst (fst (induced_gradient grad n2 s p))))).
  Proof.
    intros Wa Da Wb Db Hd Hp Hs He G Ev Ew idx p e P E.
    destruct (pressure_values green grad panels2 r s Hs He a Wa Da) as (v' & Ev' & _ & _ & X). rewrite Ev in Ev'. injection Ev' as <-.
    destruct (elevation_values green grad panels2 r s Hs He b d Wb Db Hd) as (w' & Ew' & _ & _ & Y). rewrite Ew in Ew'. injection Ew' as <-.
    specialize (X idx p (Hp idx p P)). specialize (Y idx p P). destruct E as (_ & E), Y as (_ & Y). rewrite E in Y. injection Y as ->.
    replace (Cplus _ _) with (linear_pressure green grad n2 s r p); [exact X|]. unfold linear_pressure, computed_elevation.
    replace (RtoC (s_rho r * s_g r)) with (Cmult (RtoC (s_rho r)) (RtoC (s_g r))) by (symmetry; apply RtoC_mult).
    replace (RtoC (2 * s_rho r * forward_speed r)) with (Cmult (Cmult (RtoC 2) (RtoC (s_rho r))) (RtoC (forward_speed r))) by (rewrite !RtoC_mult; reflexivity).
    replace (RtoC (1 / s_g r)) with (Cinv (RtoC (s_g r))) by (rewrite <- RtoC_inv by exact G; f_equal; unfold Rdiv; ring).
    replace (RtoC 2) with (Cplus (RtoC 1) (RtoC 1)) by (rewrite <- RtoC_plus; f_equal; ring).
    field. intros K. apply G. now apply RtoC_inj.
  Qed.

  (** ** C56: on a mesh *)

  Theorem flow_on_mesh_partial t own ps r : t_props t = Ok ps ->
    let centers := Coordinates (Array [length ps; 3] (flat_map (fun f => [vx (p_center f); vy (p_center f); vz (p_center f)]) ps)) in
    compute_potential green panels2 (Ok tt) (OnObject t own) r = compute_potential green panels2 (Ok tt) centers r
    /\ (own = false -> compute_velocity grad panels2 (Ok tt) (OnObject t own) r = compute_velocity grad panels2 (Ok tt) centers r)
    /\ (own = false \/ forward_speed r = 0%R ->
        compute_pressure green grad panels2 (Ok tt) (OnObject t own) r = compute_pressure green grad panels2 (Ok tt) centers r
        /\ compute_free_surface_elevation green grad panels2 (Ok tt) (OnObject t own) r = compute_free_surface_elevation green grad panels2 (Ok tt) centers r).
  Proof.
    intros E. rewrite centers_eq.
    split; [exact (mesh_potential green panels2 r t own ps E)|]. split; [intros ->; exact (mesh_velocity grad panels2 r t ps E)|].
    intros H. exact (conj (mesh_pressure green grad panels2 r t own ps E H) (mesh_elevation green grad panels2 r t own ps E H)).
  Qed.
  (** On the panels of the sources: the velocity of the fluid on the side of the normals. *)
  Theorem velocity_on_own_mesh t r s : sources r = Some s -> t_props t = Ok panels2 ->
    exists v, compute_velocity grad panels2 (Ok tt) (OnObject t true) r = Ok v
    /\ shape v = [n2; 3] /\ wf_array v /\ forall i f, nth_error panels2 i = Some f ->
       let k := Cmult (s i) (RtoC (if Rltb (Rabs (vz (p_center f))) (/ 100000000) then 1%R else (1 / 2)%R)) in let n := p_normal f in
       let '(x, y, z) := induced_gradient grad n2 s (p_center f) in
       element v [i; 0] (Cminus (Cplus (Cmult k (RtoC (vx n))) x) (RtoC (forward_speed r))) /\ element v [i; 1] (Cplus (Cmult k (RtoC (vy n))) y)
       /\ element v [i; 2] (Cplus (Cmult k (RtoC (vz n))) z).
  Proof.
    intros Hs E. destruct (own_velocity grad panels2 r t s Hs E) as (v & A & B & D & H). exists v. split; [exact A|split; [exact B|split; [exact D|]]].
    intros i f Hf. exact (H i f Hf).
  Qed.
End Oracles.
Theorem airy_waves_on_mesh t own ps w : t_props t = Ok ps ->
  let centers := Coordinates (Array [length ps; 3] (flat_map (fun f => [vx (p_center f); vy (p_center f); vz (p_center f)]) ps)) in
  airy_waves_potential (OnObject t own) w = airy_waves_potential centers w
  /\ airy_waves_velocity (OnObject t own) w = airy_waves_velocity centers w
  /\ airy_waves_pressure (OnObject t own) w = airy_waves_pressure centers w
  /\ airy_waves_free_surface_elevation (OnObject t own) w = airy_waves_free_surface_elevation centers w.
Proof.
  intros E. rewrite centers_eq.
  destruct (mesh_airy t own ps w E) as (A & B). cbn zeta. split; [exact A|split; [exact B|split; [|exact (mesh_airy_elevation t own ps w E)]]].
  unfold airy_waves_pressure. now rewrite A.
Qed.

(** ** Witnesses *)
Ltac idx_in := unfold index_in; cbn; repeat first [apply Forall2_nil|apply Forall2_cons; [lia|]].
Definition two_points : ndarray R := Array [2; 3] [1; 2; 0; 4; 5; 0]%R.
Definition flat_points : ndarray R := Array [2; 2] [1; 2; 4; 5]%R.
Definition grid_points : ndarray R := Array [3; 1; 2] [1; 4; 2; 5; 0; 0]%R.
Example points_examples : wf_array two_points /\ dimension two_points 3 /\ wf_array flat_points /\ dimension flat_points 2 /\ wf_array grid_points /\ dimension grid_points 3
  /\ point_at two_points false [1] (V 4 5 0) /\ point_at flat_points true [1] (V 4 5 0) /\ point_at grid_points false [0; 1] (V 4 5 0).
Proof.
  do 6 (split; [reflexivity|]). split; [|split].
  - exists [2], (fun idx c x => element two_points (idx ++ [c]) x). split; [constructor|]. split; [idx_in|].
    split; [|split; [|left; split; [reflexivity|]]]; (split; [idx_in|reflexivity]).
  - exists [2], (fun idx c x => element flat_points (idx ++ [c]) x). split; [constructor|]. split; [idx_in|].
    split; [|split; [|right; split; [reflexivity|split; reflexivity]]]; (split; [idx_in|reflexivity]).
  - exists [1; 2], (fun idx c x => element grid_points (c :: idx) x). split; [constructor; cbn; lia|]. split; [idx_in|].
    split; [|split; [|left; split; [reflexivity|]]]; (split; [idx_in|reflexivity]).
Qed.
(** A point with four coordinates is refused. *)
Example wrong_example w : airy_waves_potential (Coordinates (Array [4] [1; 2; 3; 4]%R)) w = Err ValueError.
Proof. apply airy_waves_wrong_points; [reflexivity|right; exists 4; split; [reflexivity|discriminate]]. Qed.
(** With forward speed: one source, of unit gradient in the direction x. *)
Definition with_speed : solved := Solved (Some (fun _ => RtoC 1)) 1 1 1 1 1.
Lemma flat_to_two idx p : point_at flat_points true idx p -> point_at two_points false idx p.
Proof.
  intros (out & f & De & I & X & Y & Z). inversion De as [|n d l Sh Eo Ef|]; subst; [|cbn in *; lia].
  inversion I as [|? i ? l' Hi Hl]; subst. inversion Hl; subst.
  exists [2], (fun idx c x => element two_points (idx ++ [c]) x). split; [constructor|]. split; [exact I|].
  destruct X as (_ & X), Y as (_ & Y). destruct Z as [(Z & _)|(_ & _ & Z)]; [cbn in Z; discriminate|].
  destruct p as [px py pz]. destruct i as [|[|i]]; [| |lia]; cbn in X, Y, Z; injection X as <-; injection Y as <-; subst;
    (split; [|split; [|left; split; [reflexivity|]]]; (split; [idx_in|reflexivity])).
Qed.
Example surface_example : exists v w, forall p0 : fprops,
  compute_pressure (fun _ _ => RtoC 1) (fun _ _ => (RtoC 1, RtoC 0, RtoC 0)) [p0] (Ok tt) (Coordinates two_points) with_speed = Ok v
  /\ compute_free_surface_elevation (fun _ _ => RtoC 1) (fun _ _ => (RtoC 1, RtoC 0, RtoC 0)) [p0] (Ok tt) (Coordinates flat_points) with_speed = Ok w
  /\ forall idx p, point_at flat_points true idx p -> point_at two_points false idx p.
Proof.
  destruct (pressure_values (fun _ _ => RtoC 1) (fun _ _ => (RtoC 1, RtoC 0, RtoC 0)) [FProps 1 e_z v0 1] with_speed _ eq_refl (fun _ => eq_refl) two_points eq_refl eq_refl) as (v & Ev & _).
  destruct (elevation_values (fun _ _ => RtoC 1) (fun _ _ => (RtoC 1, RtoC 0, RtoC 0)) [FProps 1 e_z v0 1] with_speed _ eq_refl (fun _ => eq_refl) flat_points 2 eq_refl eq_refl (or_introl eq_refl)) as (w & Ew & _).
  exists v, w. intros p0. split; [exact Ev|split; [exact Ew|exact flat_to_two]].
Qed.
(** The pressure on the free surface is not rho g times the elevation. *)
Theorem surface_pressure_elevation_refuted :
  ~ (forall green grad panels2 a b r s v w, wf_array a -> dimension a 3 -> wf_array b -> dimension b 2 ->
     (forall idx p, point_at b true idx p -> point_at a false idx p) -> sources r = Some s -> encounter_defined r -> s_g r <> 0%R ->
     compute_pressure green grad panels2 (Ok tt) (Coordinates a) r = Ok v -> compute_free_surface_elevation green grad panels2 (Ok tt) (Coordinates b) r = Ok w ->
     forall idx p e, point_at b true idx p -> element w idx e -> element v idx (Cmult (RtoC (s_rho r * s_g r)) e)).
Proof.
  intros H. destruct surface_example as (v & w & X). destruct (X (FProps 1 e_z v0 1)) as (Ev & Ew & Pt). clear X.
  assert (G1 : s_g with_speed <> 0%R) by (cbn; lra).
  destruct (elevation_values (fun _ _ => RtoC 1) (fun _ _ => (RtoC 1, RtoC 0, RtoC 0)) [FProps 1 e_z v0 1] with_speed _ eq_refl (fun _ => eq_refl) flat_points 2 eq_refl eq_refl (or_introl eq_refl)) as (w' & Ew' & _ & _ & Y).
  rewrite Ew in Ew'. injection Ew' as <-.
  pose proof (proj1 (proj2 (proj2 (proj2 (proj2 (proj2 (proj2 (proj2 points_examples)))))))) as P1.
  pose proof (H _ _ _ two_points flat_points with_speed _ v w eq_refl eq_refl eq_refl eq_refl Pt eq_refl (fun _ => eq_refl) G1 Ev Ew [1] _ _ P1 (Y _ _ P1)) as (_ & A).
  pose proof (surface_pressure_elevation_difference _ _ _ two_points flat_points 2 with_speed _ v w eq_refl eq_refl eq_refl eq_refl (or_introl eq_refl) Pt eq_refl (fun _ => eq_refl) G1 Ev Ew [1] _ _ P1 (Y _ _ P1)) as (_ & B).
  rewrite A in B. apply (f_equal (fun o => match o with Some z => Re z | None => 0%R end)) in B. unfold induced_gradient, Csum in B. cbn in B. lra.
Qed.
(** On its own mesh the velocity has another value than at the centres of the faces. *)
Definition panel1 : mesh := Mesh [V 0 0 (-1); V 1 0 (-1); V 0 1 (-1)] [F 0 1 2 0].
Lemma panel1_props : exists f, t_props (Leaf panel1) = Ok [f] /\ p_normal f = e_z /\ vz (p_center f) = (-1)%R.
Proof.
  eexists. split; [reflexivity|]. unfold props_of, tri_props. cbn [qa qb qc qd].
  assert (E : norm (cross (vsub (V 1 0 (-1)) (V 0 0 (-1))) (vsub (V 0 1 (-1)) (V 0 0 (-1)))) = 1%R) by (apply unit_dot; unfold dot, cross, vsub; cbn; ring).
  rewrite E, (proj2 (Rltb_false (Rabs 1) degenerate_tol)) by (rewrite Rabs_right by lra; unfold degenerate_tol; lra).
  split; unfold e_z; [apply vec_ext|]; cbn; field.
Qed.
Theorem velocity_on_mesh_refuted :
  ~ (forall grad panels2 r t ps, t_props t = Ok ps -> panels2 = ps ->
     compute_velocity grad panels2 (Ok tt) (OnObject t true) r
     = compute_velocity grad panels2 (Ok tt) (Coordinates (Array [length ps; 3] (flat_map (fun f => [vx (p_center f); vy (p_center f); vz (p_center f)]) ps))) r).
Proof.
  intros H. destruct panel1_props as (f & E & N & Z).
  pose (r := Solved (Some (fun _ => RtoC 1)) 0 1 1 1 1). specialize (H (fun _ _ => (RtoC 0, RtoC 0, RtoC 0)) [f] r (Leaf panel1) [f] E eq_refl).
  destruct (velocity_on_own_mesh (fun _ _ => (RtoC 0, RtoC 0, RtoC 0)) [f] (Leaf panel1) r _ eq_refl E) as (v & Ev & _ & _ & A).
  destruct (A 0 f eq_refl) as (_ & _ & (_ & A3)). clear A. rewrite Ev in H.
  set (a := Array _ _) in H. assert (W : wf_array a) by reflexivity.
  destruct (velocity_values (fun _ _ => (RtoC 0, RtoC 0, RtoC 0)) [f] r _ eq_refl a W eq_refl) as (v' & Ev' & out & _ & _ & _ & B). rewrite Ev' in H. injection H as <-.
  assert (P : point_at a false [0] (p_center f)).
  { exists [1], (fun idx c x => element a (idx ++ [c]) x). split; [apply list_of_points|]. split; [idx_in|].
    split; [|split; [|left; split; [reflexivity|]]]; (split; [idx_in|reflexivity]). }
  destruct (B _ _ P) as (_ & _ & (_ & B3)). cbn [app] in B3. rewrite A3 in B3.
  apply (f_equal (fun o => match o with Some z => Re z | None => 0%R end)) in B3. unfold induced_gradient, Csum in B3. rewrite N, Z in B3.
  rewrite (proj2 (Rltb_false _ _)) in B3 by (rewrite Rabs_left by lra; lra). cbn in B3. lra.
Qed.
Print Assumptions values_determined.
Print Assumptions airy_waves_at_points.
Print Assumptions airy_elevation_at_points.
Print Assumptions airy_waves_wrong_points.
Print Assumptions flow_at_points.
Print Assumptions elevation_at_points.
Print Assumptions flow_wrong_points.
Print Assumptions flow_without_sources.
Print Assumptions surface_pressure_elevation_partial.
Print Assumptions surface_pressure_elevation_difference.
Print Assumptions flow_on_mesh_partial.
Print Assumptions velocity_on_own_mesh.
Print Assumptions airy_waves_on_mesh.
Print Assumptions surface_pressure_elevation_refuted.
Print Assumptions velocity_on_mesh_refuted.
