From Coq Require Import Reals.
From Coquelicot Require Import Complex.
From Coq Require Import List Bool Arith Lia Lra.
From Verif Require Import Model_Base Model_Mesh Model_Problem Model_Tree Model_Points Spec_Points Proofs_Geometry Proofs_Mesh Proofs_Problem Proofs_Tree Proofs_Points.
Import ListNotations.
Open Scope nat_scope.

(** ** Errors *)
Lemma colocation_wrong b n d : shape b = [n; d] -> d <> 3 -> colocation (PointsArray b) = Err ValueError /\ columns_xyz b = Err ValueError.
Proof. intros S N. unfold colocation, columns_xyz. rewrite S. destruct d as [|[|[|[|d]]]]; auto; contradiction. Qed.
Lemma normalized_wrong a d keep : wf_array a -> dimension a d -> d <> 3 -> normalize_points (Coordinates a) keep = Err ValueError
  \/ exists b out n, normalize_points (Coordinates a) keep = Ok (PointsArray b, out) /\ shape b = [n; d].
Proof.
  intros W D N. destruct d as [|d]; [destruct (normalized_zero a keep W D) as [E|(b & out & E & S)]; eauto 6|].
  destruct (normalized_array a (S d) W D ltac:(lia) keep) as (b & out & f & _ & E & S & _). right. eauto.
Qed.
Lemma normalized_scalar a keep : shape a = [] -> normalize_points (Coordinates a) keep = Err ValueError.
Proof. intros S. cbn. now rewrite S. Qed.

(** ** Meshes *)
Lemma sequence_lengths {X} (l : list (result (list X))) r : sequence l = Ok r -> Forall2 (fun x y => x = Ok y) l r.
Proof.
  unfold sequence. intros H. apply mapM_ok in H. destruct H as (L & H). revert r L H. induction l as [|x l IH]; intros [|y r] L H; try discriminate; constructor.
  - destruct (H 0 x eq_refl) as (y' & -> & E). cbn in E. congruence.
  - apply IH; [cbn in L; lia|]. intros k z E. exact (H (S k) z E).
Qed.
Lemma props_length t : forall ps, t_props t = Ok ps -> length ps = t_nb_faces t.
Proof.
  induction t as [m|k l IH] using tree_induction; intros ps H.
  - cbn in H. unfold faces_props in H. apply mapM_ok in H. exact (proj1 H).
  - cbn [t_props t_nb_faces] in *. destruct (sequence (map t_props l)) as [pss|e] eqn:E; [|discriminate]. cbn [bind] in H. apply sequence_lengths in E.
    unfold concatenate in H. assert (ps = concat pss) as -> by (destruct pss; [discriminate|now apply Ok_inj' in H]). clear H.
    revert pss E. induction l as [|x l IHl]; intros pss E; inversion E; subst; [reflexivity|]. cbn [concat map]. rewrite app_length.
    change (list_sum (t_nb_faces x :: map t_nb_faces l)) with (t_nb_faces x + list_sum (map t_nb_faces l)). f_equal.
    + apply IH; [now left|assumption].
    + apply IHl; [intros; apply IH; [now right|assumption]|assumption].
Qed.
Lemma centers_triples cs : triples (elements (centers_array cs)) = cs.
Proof. cbn [centers_array elements]. induction cs as [|[x y z] cs IH]; [reflexivity|]. cbn [flat_map app triples vx vy vz]. now rewrite IH. Qed.

Lemma mapi_const {X Y} (f : nat -> X -> Y) (g : X -> Y) l : (forall i x, f i x = g x) -> Model_Points.mapi f l = map g l.
Proof.
  intros E. unfold Model_Points.mapi. generalize 0. induction l as [|x l IH]; intros s; cbn; [reflexivity|]. rewrite E. f_equal. apply IH.
Qed.
Lemma mapi_index {X Y} (f : nat -> X -> Y) (g : nat -> Y) l : (forall i x, f i x = g i) -> Model_Points.mapi f l = map g (seq 0 (length l)).
Proof.
  intros E. unfold Model_Points.mapi. generalize 0. induction l as [|x l IH]; intros s; cbn; [reflexivity|]. rewrite E. f_equal. apply IH.
Qed.
Lemma mapi_map {X Y Z} (f : nat -> Y -> Z) (h : X -> Y) l : Model_Points.mapi f (map h l) = Model_Points.mapi (fun i x => f i (h x)) l.
Proof. unfold Model_Points.mapi. rewrite map_length. generalize 0. induction l as [|x l IH]; intros s; cbn; [reflexivity|]. f_equal. apply IH. Qed.

Section Post.
  Variable green : vec -> nat -> C.
  Variable grad : vec -> nat -> C * C * C.
  Variable panels2 : list fprops.
  Let n2 := length panels2.

  Lemma potential_value s p : potential_at green panels2 s p = induced_potential green n2 s p.
  Proof. unfold potential_at, induced_potential. f_equal. now apply mapi_index. Qed.
  Lemma c3_sum (f : nat -> C * C * C) l : fold_right c3_add c3_0 (map f l)
    = (Csum (map (fun j => fst (fst (f j))) l), Csum (map (fun j => snd (fst (f j))) l), Csum (map (fun j => snd (f j)) l)).
  Proof.
    unfold Csum. induction l as [|j l IH]; [reflexivity|]. cbn [map fold_right]. rewrite IH. destruct (f j) as [[a b] c]. reflexivity.
  Qed.
  Lemma gradient_value s i p : gradient_at grad panels2 s i (p, None) = induced_gradient grad n2 s p.
  Proof.
    unfold gradient_at, induced_gradient. cbn [fst snd]. rewrite (mapi_index _ (fun j => c3_scale (s j) (grad p j))).
    - rewrite c3_sum. f_equal; [f_equal|]; f_equal; apply map_ext; intros j; destruct (grad p j) as [[a b] c]; reflexivity.
    - intros j _. destruct (grad p j) as [[a b] c]. cbn. f_equal; [f_equal|]; rewrite Cplus_0_l; reflexivity.
  Qed.

  Variable r : solved.
  Variable s : nat -> C.
  Hypothesis Hs : sources r = Some s.

  Lemma potential_list q b out ps : normalize_points q true = Ok (PointsArray b, out) -> shape b = [size_of out; 3] -> triples (elements b) = ps -> length ps = size_of out ->
    compute_potential green panels2 (Ok tt) q r = Ok (Array out (map (induced_potential green n2 s) ps)).
  Proof.
    intros E Sb T L. unfold compute_potential. rewrite E, Hs. cbn [bind fst snd colocation]. rewrite Sb, T.
    cbn [bind]. unfold reshape, vector. cbn [elements]. rewrite !map_length, L, Nat.eqb_refl, map_map. cbn [fst]. do 2 f_equal. apply map_ext. intros p. apply potential_value.
  Qed.
  Lemma gradient_list q b out ps : normalize_points q true = Ok (PointsArray b, out) -> shape b = [size_of out; 3] -> triples (elements b) = ps -> length ps = size_of out ->
    compute_potential_gradient grad panels2 (Ok tt) q r = Ok (Array (out ++ [3]) (elements (matrix3 (map (induced_gradient grad n2 s) ps)))).
  Proof.
    intros E Sb T L. unfold compute_potential_gradient. rewrite E, Hs. cbn [bind fst snd colocation]. rewrite Sb, T.
    cbn [bind]. rewrite mapi_map. rewrite (mapi_const _ (induced_gradient grad n2 s)) by (intros; apply gradient_value).
    unfold reshape. rewrite rows_length, map_length, L, size_last, Nat.eqb_refl. reflexivity.
  Qed.
  Lemma potential_values a : wf_array a -> dimension a 3 ->
    exists v, compute_potential green panels2 (Ok tt) (Coordinates a) r = Ok v /\ values_at a false (induced_potential green n2 s) v.
  Proof.
    intros W D. destruct (points3 a true W D) as (ps & out & b & f & E & De & Sb & Lb & T & L & P). rewrite (potential_list _ _ _ _ E Sb T L). eexists. split; [reflexivity|].
    destruct (scattered a false out f ps (induced_potential green n2 s) De L (P false)) as (v & _ & V & Sv & Ev). destruct v. cbn in *. subst. exact V.
  Qed.
  Lemma add_first_nth u l : forall k a b c, nth_error l k = Some (a, b, c) ->
    let e := add_first u (elements (matrix3 l)) in nth_error e (k * 3) = Some (Cplus a u) /\ nth_error e (k * 3 + 1) = Some b /\ nth_error e (k * 3 + 2) = Some c.
  Proof.
    induction l as [|[[a' b'] c'] l IH]; intros [|k] a b c H; try discriminate; cbn [nth_error] in H.
    - injection H as -> -> ->. cbn. auto.
    - exact (IH k a b c H).
  Qed.
  Lemma add_first_rows u l : add_first u (elements (matrix3 l)) = elements (matrix3 (map (fun v => let '(a, b, c) := v in (Cplus a u, b, c)) l)).
  Proof. cbn [matrix3 elements]. induction l as [|[[a b] c] l IH]; [reflexivity|]. cbn [flat_map app add_first map]. now rewrite IH. Qed.
  Lemma first_rows l : first_components (elements (matrix3 l)) = map (fun v => fst (fst v)) l.
  Proof. cbn [matrix3 elements]. induction l as [|[[a b] c] l IH]; [reflexivity|]. cbn [flat_map app first_components map]. now rewrite IH. Qed.
  Lemma velocity_values a : wf_array a -> dimension a 3 ->
    exists v, compute_velocity grad panels2 (Ok tt) (Coordinates a) r = Ok v
      /\ vectors_at a (fun p => let '(x, y, z) := induced_gradient grad n2 s p in (Cminus x (RtoC (forward_speed r)), y, z)) v.
  Proof.
    intros W D. destruct (points3 a true W D) as (ps & out & b & f & E & De & Sb & Lb & T & L & P). unfold compute_velocity. rewrite (gradient_list _ _ _ _ E Sb T L). cbn [bind elements shape].
    set (h := fun p => let '(x, y, z) := induced_gradient grad n2 s p in (Cminus x (RtoC (forward_speed r)), y, z)).
    destruct (scattered3 a out f ps _ h De L eq_refl (P false)) as (v & _ & V & Sv & Ev).
    destruct (Reqb (forward_speed r) 0) eqn:Z.
    - exists (Array (out ++ [3]) (elements (matrix3 (map (induced_gradient grad n2 s) ps)))). split; [reflexivity|]. apply Reqb_true in Z.
      replace (map (induced_gradient grad n2 s) ps) with (map h ps); [destruct v; cbn in *; subst; exact V|].
      apply map_ext. intros p. unfold h. rewrite Z. destruct (induced_gradient grad n2 s p) as [[x y] z]. f_equal. f_equal. unfold Cminus. rewrite <- RtoC_opp, Ropp_0. apply Cplus_0_r.
    - exists (Array (out ++ [3]) (elements (matrix3 (map h ps)))). split; [|destruct v; cbn in *; subst; exact V]. rewrite add_first_rows, map_map.
      reflexivity.
  Qed.
  (** The combination of the potential and of its gradient. *)
  Lemma combined_list k1 k2 (phi : vec -> C) (g : vec -> C * C * C) out out' ps :
    combined k1 (Array out (map phi ps)) k2 (Array out' (elements (matrix3 (map g ps)))) = Array out (map (fun p => Cplus (Cmult k1 (phi p)) (Cmult k2 (fst (fst (g p))))) ps).
  Proof.
    unfold combined. cbn [shape elements]. f_equal. change (flat_map _ (map g ps)) with (elements (matrix3 (map g ps))). rewrite first_rows, map_map.
    induction ps as [|p ps IH]; [reflexivity|]. cbn [map combine fst snd]. now rewrite IH.
  Qed.
  Variable HE : encounter_defined r.
  Let om := (if Reqb (forward_speed r) 0 then s_omega r else encounter_omega r).
  Lemma om_eq : om = encounter_omega r.
  Proof. unfold om. destruct (Reqb (forward_speed r) 0) eqn:Z; [|reflexivity]. apply Reqb_true in Z. symmetry. now apply HE. Qed.
  Definition computed_elevation (p : vec) : C :=
    Cmult (RtoC (1 / s_g r)) (Cminus (Cmult (Cmult Ci (RtoC (encounter_omega r))) (induced_potential green n2 s p))
                                     (Cmult (RtoC (forward_speed r)) (fst (fst (induced_gradient grad n2 s p))))).
  Lemma pressure_values a : wf_array a -> dimension a 3 ->
    exists v, compute_pressure green grad panels2 (Ok tt) (Coordinates a) r = Ok v /\ values_at a false (linear_pressure green grad n2 s r) v.
  Proof.
    intros W D. destruct (points3 a true W D) as (ps & out & b & f & E & De & Sb & Lb & T & L & P). unfold compute_pressure.
    rewrite (potential_list _ _ _ _ E Sb T L), (gradient_list _ _ _ _ E Sb T L). cbn [bind].
    destruct (scattered a false out f ps (linear_pressure green grad n2 s r) De L (P false)) as (v & _ & V & Sv & Ev). exists v. split; [|exact V].
    destruct v as [sv ev]. cbn in Sv, Ev. subst. clear V. destruct (Reqb (forward_speed r) 0) eqn:Z; do 2 f_equal.
    - unfold scale_array. cbn [shape elements]. f_equal. rewrite map_map. apply map_ext. intros p. apply Reqb_true in Z. unfold linear_pressure. rewrite (HE Z), Z. ring.
    - rewrite combined_list. f_equal. apply map_ext. intros p. unfold linear_pressure. rewrite RtoC_mult. ring.
  Qed.
  Lemma elevation_values a d : wf_array a -> dimension a d -> d = 2 \/ d = 3 ->
    exists v, compute_free_surface_elevation green grad panels2 (Ok tt) (Coordinates a) r = Ok v /\ values_at a true computed_elevation v.
  Proof.
    intros W D Hd. destruct (points_flat a true d W D Hd) as (ps & out & b & f & E & De & Sb & Lb & T & L & P). unfold compute_free_surface_elevation. rewrite E. cbn [bind fst snd again].
    destruct (again_points b (size_of out) Sb Lb) as (_ & _ & _ & A).
    assert (Z1 : size_of [size_of out] = size_of out) by (unfold size_of at 1; cbn; lia).
    rewrite <- Z1 in Sb at 1. pose proof L as L1. rewrite <- Z1 in L1.
    rewrite (potential_list _ _ _ _ A Sb T L1), (gradient_list _ _ _ _ A Sb T L1). cbn [bind].
    destruct (scattered a true out f ps computed_elevation De L P) as (v & Rv & V & Sv & Ev). exists v. split; [|exact V].
    destruct (Reqb (forward_speed r) 0) eqn:Z; cbn [bind]; rewrite <- Rv; apply reshape_elements; unfold vector; cbn [elements].
    - unfold scale_array. cbn [shape elements]. rewrite map_map. apply map_ext. intros p. apply Reqb_true in Z. unfold computed_elevation. rewrite (HE Z), Z.
      replace (- 1 / s_g r)%R with (- (1 / s_g r))%R by (unfold Rdiv; ring). rewrite RtoC_opp. ring.
    - rewrite combined_list. cbn [elements]. apply map_ext. intros p. unfold computed_elevation.
      replace (- 1 / s_g r)%R with (- (1 / s_g r))%R by (unfold Rdiv; ring). rewrite RtoC_mult, RtoC_opp. ring.
  Qed.
End Post.
