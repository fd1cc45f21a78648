From Coq Require Import Reals.
From Coquelicot Require Import Complex.
From Coq Require Import List Bool Arith Lia Lra.
From Verif Require Import Model_Base Model_Mesh Model_Problem Model_Tree Model_Points Spec_Points Proofs_Geometry Proofs_Mesh Proofs_Integrals Proofs_Problem Proofs_Tree Proofs_Points Proofs_Points2.
Import ListNotations.
Open Scope nat_scope.

(** ** Every place of the output is the place of a point *)
Lemma wf_element {A} (a : ndarray A) idx : wf_array a -> index_in (shape a) idx -> exists x, element a idx x.
Proof.
  intros W I. destruct (nth_error (elements a) (position_of (shape a) idx)) as [x|] eqn:E; [exists x; split; assumption|].
  apply nth_error_None in E. pose proof (position_lt _ _ I) as P. unfold wf_array in W. unfold size_of in P. lia.
Qed.
Lemma described a out f d : wf_array a -> describes a out f -> dimension a d -> forall idx c, index_in out idx -> c < d -> exists x, f idx c x.
Proof.
  intros W De D idx c I Hc. destruct De as [d' l|n d' l|d' out l H2].
  - cbn in D. subst d'. apply wf_element; [exact W|]. constructor; [exact Hc|constructor].
  - cbn in D. subst d'. apply wf_element; [exact W|]. inversion I; subst. inversion H3; subst. repeat constructor; assumption.
  - assert (d = d') as -> by (destruct out as [|n [|m out]]; cbn in *; try lia). apply wf_element; [exact W|]. constructor; assumption.
Qed.
Lemma some_point a out f d flat : wf_array a -> describes a out f -> dimension a d -> d = 3 \/ flat = true /\ d = 2 ->
  forall idx, index_in out idx -> exists p, point_at a flat idx p.
Proof.
  intros W De D Hd idx I.
  destruct (described a out f d W De D idx 0 I ltac:(lia)) as (x & X). destruct (described a out f d W De D idx 1 I ltac:(lia)) as (y & Y).
  destruct Hd as [->|(F2 & ->)].
  - destruct (described a out f 3 W De D idx 2 I ltac:(lia)) as (z & Z). exists (V x y z), out, f. cbn. auto 8.
  - exists (V x y 0), out, f. cbn. auto 10.
Qed.
Lemma values_unique {B} a flat d (f : vec -> B) r r' : wf_array a -> dimension a d -> d = 3 \/ flat = true /\ d = 2 -> values_at a flat f r -> values_at a flat f r' -> r = r'.
Proof.
  intros W D Hd ((g & De) & Wr & P) ((g' & De') & Wr' & P'). destruct (describes_unique _ _ _ _ _ De De') as (Sh & _).
  destruct r as [sh l], r' as [sh' l']. cbn [shape] in *. subst sh'. f_equal. apply list_ext. intros k.
  destruct (Nat.lt_ge_cases k (size_of sh)) as [L|L].
  - destruct (position_onto sh k L) as (idx & I & <-). destruct (some_point a sh g d flat W De D Hd idx I) as (p & Hp).
    destruct (P idx p Hp) as (_ & E1). destruct (P' idx p Hp) as (_ & E2). cbn [shape elements] in E1, E2. congruence.
  - unfold wf_array in Wr, Wr'. cbn [shape elements] in Wr, Wr'. rewrite (proj2 (nth_error_None l k)), (proj2 (nth_error_None l' k)); unfold size_of in *; [reflexivity|lia|lia].
Qed.
Lemma values_combine {B D} a flat d (f : vec -> B) (g : vec -> D) r r' : wf_array a -> dimension a d -> d = 3 \/ flat = true /\ d = 2 ->
  values_at a flat f r -> values_at a flat g r' -> shape r = shape r' /\ forall idx, index_in (shape r) idx -> exists p, element r idx (f p) /\ element r' idx (g p).
Proof.
  intros W D' Hd ((h & De) & Wr & P) ((h' & De') & Wr' & P'). destruct (describes_unique _ _ _ _ _ De De') as (Sh & _). split; [exact Sh|].
  intros idx I. destruct (some_point a _ h d flat W De D' Hd idx I) as (p & Hp). exists p. split; auto.
Qed.

(** ** Errors *)
Section Errors.
  Variable green : vec -> nat -> C.
  Variable grad : vec -> nat -> C * C * C.
  Variable panels2 : list fprops.
  Variable r : solved.
  Lemma airy_wrong a w : wf_array a -> (shape a = [] \/ exists d, dimension a d /\ d <> 3) ->
    airy_waves_potential (Coordinates a) w = Err ValueError /\ airy_waves_velocity (Coordinates a) w = Err ValueError /\ airy_waves_pressure (Coordinates a) w = Err ValueError.
  Proof.
    intros W H. assert (N : normalize_points (Coordinates a) false = Err ValueError \/ exists b out n d, normalize_points (Coordinates a) false = Ok (PointsArray b, out) /\ shape b = [n; d] /\ d <> 3).
    { destruct H as [S0|(d & D & N)]; [left; now apply normalized_scalar|]. destruct (normalized_wrong a d false W D N) as [E|(b & out & n & E & S0)]; [now left|right; eauto 8]. }
    unfold airy_waves_pressure, airy_waves_potential, airy_waves_velocity. destruct N as [->|(b & out & n & d & -> & S0 & N)]; [auto|].
    cbn [bind fst snd array_points]. rewrite (proj2 (colocation_wrong b n d S0 N)). auto.
  Qed.
  Lemma solver_wrong a s : wf_array a -> sources r = Some s -> (shape a = [] \/ exists d, dimension a d /\ d <> 3) ->
    compute_potential green panels2 (Ok tt) (Coordinates a) r = Err ValueError /\ compute_velocity grad panels2 (Ok tt) (Coordinates a) r = Err ValueError
    /\ compute_pressure green grad panels2 (Ok tt) (Coordinates a) r = Err ValueError.
  Proof.
    intros W Hs H. assert (N : normalize_points (Coordinates a) true = Err ValueError \/ exists b out n d, normalize_points (Coordinates a) true = Ok (PointsArray b, out) /\ shape b = [n; d] /\ d <> 3).
    { destruct H as [S0|(d & D & N)]; [left; now apply normalized_scalar|]. destruct (normalized_wrong a d true W D N) as [E|(b & out & n & E & S0)]; [now left|right; eauto 8]. }
    assert (P : compute_potential green panels2 (Ok tt) (Coordinates a) r = Err ValueError
             /\ compute_potential_gradient grad panels2 (Ok tt) (Coordinates a) r = Err ValueError).
    { unfold compute_potential, compute_potential_gradient. destruct N as [->|(b & out & n & d & -> & S0 & N)]; [auto|].
      rewrite Hs. cbn [bind fst snd]. rewrite (proj1 (colocation_wrong b n d S0 N)). auto. }
    destruct P as (P1 & P2). unfold compute_velocity, compute_pressure. rewrite P1, P2. destruct (Reqb (forward_speed r) 0); auto.
  Qed.
  Lemma no_sources a : sources r = None -> wf_array a -> dimension a 3 -> 
    compute_potential green panels2 (Ok tt) (Coordinates a) r = Err OtherException /\ compute_velocity grad panels2 (Ok tt) (Coordinates a) r = Err OtherException
    /\ compute_pressure green grad panels2 (Ok tt) (Coordinates a) r = Err OtherException /\ compute_free_surface_elevation green grad panels2 (Ok tt) (Coordinates a) r = Err OtherException.
  Proof.
    intros Hs W D. destruct (points3 a true W D) as (ps & out & b & f & E & _).
    destruct (points_flat a true 3 W D (or_intror eq_refl)) as (ps' & out' & b' & f' & E' & _ & Sb & Lb & _).
    destruct (again_points b' (size_of out') Sb Lb) as (_ & _ & _ & A).
    unfold compute_velocity, compute_pressure, compute_free_surface_elevation. rewrite E'. cbn [bind fst snd again].
    unfold compute_potential, compute_potential_gradient. rewrite E, A, Hs. cbn [bind]. destruct (Reqb (forward_speed r) 0); auto.
  Qed.

  (** ** Meshes *)
  Lemma centers_again cs keep : normalize_points (Coordinates (centers_array cs)) keep = Ok (PointsArray (centers_array cs), [length cs]).
  Proof.
    assert (L : length (elements (centers_array cs)) = length cs * 3) by (cbn [centers_array elements]; induction cs; cbn in *; lia).
    destruct (again_points (centers_array cs) (length cs) eq_refl L) as (_ & _ & A & B). destruct keep; assumption.
  Qed.
  Lemma mesh_potential t own ps : t_props t = Ok ps ->
    compute_potential green panels2 (Ok tt) (OnObject t own) r = compute_potential green panels2 (Ok tt) (Coordinates (centers_array (map p_center ps))) r.
  Proof.
    intros E. unfold compute_potential. rewrite centers_again. cbn [normalize_points bind fst snd]. destruct (sources r) as [s|]; [|reflexivity].
    cbn [bind colocation]. rewrite E. cbn [centers_array shape bind]. change (elements _) with (elements (centers_array (map p_center ps))) at 1. rewrite centers_triples, !map_map, map_length, (props_length t ps E). reflexivity.
  Qed.
  Lemma mesh_gradient t ps : t_props t = Ok ps ->
    compute_potential_gradient grad panels2 (Ok tt) (OnObject t false) r = compute_potential_gradient grad panels2 (Ok tt) (Coordinates (centers_array (map p_center ps))) r.
  Proof.
    intros E. unfold compute_potential_gradient. rewrite centers_again. cbn [normalize_points bind fst snd]. destruct (sources r) as [s|]; [|reflexivity].
    cbn [bind colocation]. rewrite E. cbn [centers_array shape bind]. rewrite centers_triples, !map_map, map_length, (props_length t ps E). reflexivity.
  Qed.
  Lemma mesh_velocity t ps : t_props t = Ok ps ->
    compute_velocity grad panels2 (Ok tt) (OnObject t false) r = compute_velocity grad panels2 (Ok tt) (Coordinates (centers_array (map p_center ps))) r.
  Proof. intros E. unfold compute_velocity. now rewrite (mesh_gradient t ps E). Qed.
  Lemma mesh_pressure t own ps : t_props t = Ok ps -> own = false \/ forward_speed r = 0%R ->
    compute_pressure green grad panels2 (Ok tt) (OnObject t own) r = compute_pressure green grad panels2 (Ok tt) (Coordinates (centers_array (map p_center ps))) r.
  Proof.
    intros E H. unfold compute_pressure. rewrite (mesh_potential t own ps E). destruct (Reqb (forward_speed r) 0) eqn:Z; [reflexivity|].
    destruct H as [-> | H]; [now rewrite (mesh_gradient t ps E)|]. rewrite H, Reqb_refl in Z. discriminate.
  Qed.
  Lemma centers_flat cs keep : normalize_free_surface_points (Coordinates (centers_array cs)) keep = Ok (PointsArray (centers_array cs), [length cs]).
  Proof. unfold normalize_free_surface_points. rewrite centers_again. reflexivity. Qed.
  Lemma mesh_elevation t own ps : t_props t = Ok ps -> own = false \/ forward_speed r = 0%R ->
    compute_free_surface_elevation green grad panels2 (Ok tt) (OnObject t own) r
    = compute_free_surface_elevation green grad panels2 (Ok tt) (Coordinates (centers_array (map p_center ps))) r.
  Proof.
    intros E H. unfold compute_free_surface_elevation. rewrite centers_flat.
    change (normalize_free_surface_points (OnObject t own) true) with (@Ok (normalized * list nat) (KeptMesh t own, [t_nb_faces t])).
    cbn [bind fst snd again]. rewrite map_length, (props_length t ps E), (mesh_potential t own ps E). destruct (Reqb (forward_speed r) 0) eqn:Z; [reflexivity|].
    destruct H as [-> | H]; [now rewrite (mesh_gradient t ps E)|]. rewrite H, Reqb_refl in Z. discriminate.
  Qed.
  Lemma mesh_airy t own ps w : t_props t = Ok ps ->
    airy_waves_potential (OnObject t own) w = airy_waves_potential (Coordinates (centers_array (map p_center ps))) w
    /\ airy_waves_velocity (OnObject t own) w = airy_waves_velocity (Coordinates (centers_array (map p_center ps))) w.
  Proof.
    intros E. unfold airy_waves_potential, airy_waves_velocity. rewrite centers_again. cbn [normalize_points]. unfold faces_centers. rewrite E. cbn [bind].
    now rewrite map_length, (props_length t ps E).
  Qed.
  Lemma mesh_airy_elevation t own ps w : t_props t = Ok ps ->
    airy_waves_free_surface_elevation (OnObject t own) w = airy_waves_free_surface_elevation (Coordinates (centers_array (map p_center ps))) w.
  Proof.
    intros E. unfold airy_waves_free_surface_elevation. rewrite centers_flat. unfold normalize_free_surface_points. cbn [normalize_points]. unfold faces_centers. rewrite E. cbn [bind].
    rewrite map_length, (props_length t ps E). reflexivity.
  Qed.

  (** On the panels of the sources themselves. *)
  Lemma c3_ext a b c a' b' c' : a = a' -> b = b' -> c = c' -> (a, b, c) = (a', b', c') :> C * C * C.
  Proof. congruence. Qed.
  Lemma c3_sum_add (f g : nat -> C * C * C) l : fold_right c3_add c3_0 (map (fun j => c3_add (f j) (g j)) l)
    = c3_add (fold_right c3_add c3_0 (map f l)) (fold_right c3_add c3_0 (map g l)).
  Proof.
    induction l as [|j l IH]; cbn [map fold_right]; [apply c3_ext; ring|]. rewrite IH.
    destruct (f j) as [[a b] c], (g j) as [[a' b'] c'], (fold_right c3_add c3_0 (map f l)) as [[x y] z], (fold_right c3_add c3_0 (map g l)) as [[x' y'] z']. apply c3_ext; ring.
  Qed.
  Lemma c3_sum_one (v : C * C * C) i n k : fold_right c3_add c3_0 (map (fun j => if Nat.eqb i j then v else c3_0) (seq k n)) = if Nat.leb k i && Nat.ltb i (k + n) then v else c3_0.
  Proof.
    revert k. induction n as [|n IH]; intros k; cbn [seq map fold_right].
    - replace (Nat.leb k i && Nat.ltb i (k + 0)) with false; [reflexivity|]. symmetry. apply andb_false_iff. destruct (Nat.leb_spec k i); [right; apply Nat.ltb_ge; lia|now left].
    - rewrite IH. destruct v as [[x y] z]. destruct (Nat.eqb_spec i k) as [->|N].
      + replace (Nat.leb (S k) k) with false by (symmetry; apply Nat.leb_gt; lia). rewrite Nat.leb_refl, (proj2 (Nat.ltb_lt k (k + S n))) by lia. cbn [andb c3_0 c3_add]. apply c3_ext; ring.
      + replace (Nat.leb (S k) i && Nat.ltb i (S k + n)) with (Nat.leb k i && Nat.ltb i (k + S n)).
        * destruct (_ && _); apply c3_ext; ring.
        * apply eq_true_iff_eq. rewrite !andb_true_iff, !Nat.leb_le, !Nat.ltb_lt. lia.
  Qed.
  Lemma mapi_nth {X Y} (f : nat -> X -> Y) l i x : nth_error l i = Some x -> nth_error (Model_Points.mapi f l) i = Some (f i x).
  Proof.
    intros E. unfold Model_Points.mapi. rewrite nth_error_map.
    assert (K : forall s l i, nth_error l i = Some x -> nth_error (combine (seq s (length l)) l) i = Some (s + i, x)).
    { clear. intros s l. revert s. induction l as [|y l IH]; intros s [|i] E; try discriminate; cbn in *; [injection E as ->; now rewrite Nat.add_0_r|].
      rewrite (IH (S s) i E). f_equal. f_equal. lia. }
    rewrite (K 0 l i E). reflexivity.
  Qed.
  Lemma mapi_length {X Y} (f : nat -> X -> Y) l : length (Model_Points.mapi f l) = length l.
  Proof. unfold Model_Points.mapi. rewrite map_length, combine_length, seq_length. lia. Qed.
  Definition jump (f : fprops) : R := if Rltb (Rabs (vz (p_center f))) (/ 100000000) then 1%R else (1 / 2)%R.
  Lemma own_gradient s i f : nth_error panels2 i = Some f ->
    gradient_at grad panels2 s i (p_center f, Some (p_normal f))
    = c3_add (c3_scale (Cmult (s i) (RtoC (jump f))) (c3_of (p_normal f))) (induced_gradient grad (length panels2) s (p_center f)).
  Proof.
    intros E. unfold gradient_at. cbn [fst snd].
    set (v := c3_scale (s i) (c3_scale (RtoC (jump f)) (c3_of (p_normal f)))).
    replace (Model_Points.mapi _ panels2) with (map (fun j => c3_add (if Nat.eqb i j then v else c3_0) (c3_scale (s j) (grad (p_center f) j))) (seq 0 (length panels2))).
    - rewrite c3_sum_add, (c3_sum_one v i), (proj2 (Nat.ltb_lt _ _)) by (apply nth_error_Some; congruence). cbn [Nat.leb andb]. f_equal.
      + unfold v, c3_scale, c3_of. apply c3_ext; ring.
      + rewrite c3_sum. unfold induced_gradient. apply c3_ext; f_equal; apply map_ext; intros j; destruct (grad (p_center f) j) as [[a b] c]; reflexivity.
    - apply list_ext. intros j. destruct (nth_error panels2 j) as [g|] eqn:G.
      + rewrite (mapi_nth _ _ _ _ G). rewrite nth_error_map, (nth_error_nth' _ 0) by (rewrite seq_length; apply nth_error_Some; congruence).
        rewrite seq_nth by (apply nth_error_Some; congruence). cbn [option_map Nat.add]. f_equal. unfold diagonal. destruct (Nat.eqb_spec i j) as [<-|N].
        * assert (g = f) as -> by congruence. unfold v, jump. destruct (grad (p_center f) i) as [[a b] c]. unfold c3_of, c3_add, c3_scale. apply c3_ext; ring.
        * destruct (grad (p_center f) j) as [[a b] c]. unfold c3_0, c3_add, c3_scale. apply c3_ext; ring.
      + rewrite !(proj2 (nth_error_None _ _)); [reflexivity| |]; rewrite ?mapi_length, ?map_length, ?seq_length; now apply nth_error_None.
  Qed.
  Lemma own_mesh_gradient t s : sources r = Some s -> t_props t = Ok panels2 ->
    compute_potential_gradient grad panels2 (Ok tt) (OnObject t true) r
    = Ok (Array [t_nb_faces t; 3] (elements (matrix3 (Model_Points.mapi (fun i f => gradient_at grad panels2 s i (p_center f, Some (p_normal f))) panels2)))).
  Proof.
    intros Hs E. unfold compute_potential_gradient. cbn [normalize_points bind fst snd]. rewrite Hs. cbn [bind colocation]. rewrite E. cbn [bind]. rewrite mapi_map.
    unfold reshape. rewrite rows_length, mapi_length, <- (props_length t panels2 E). unfold size_of. cbn [app fold_right].
    replace (length panels2 * (3 * 1)) with (length panels2 * 3) by lia. rewrite Nat.eqb_refl. reflexivity.
  Qed.
  Lemma own_velocity t s : sources r = Some s -> t_props t = Ok panels2 -> exists v, compute_velocity grad panels2 (Ok tt) (OnObject t true) r = Ok v
    /\ shape v = [length panels2; 3] /\ wf_array v /\ forall i f, nth_error panels2 i = Some f ->
       let '(x, y, z) := induced_gradient grad (length panels2) s (p_center f) in let k := Cmult (s i) (RtoC (jump f)) in let n := p_normal f in
       element v [i; 0] (Cminus (Cplus (Cmult k (RtoC (vx n))) x) (RtoC (forward_speed r))) /\ element v [i; 1] (Cplus (Cmult k (RtoC (vy n))) y)
       /\ element v [i; 2] (Cplus (Cmult k (RtoC (vz n))) z).
  Proof.
    intros Hs E. set (u := if Reqb (forward_speed r) 0 then RtoC 0 else Copp (RtoC (forward_speed r))).
    set (rows := map (fun v : C * C * C => let '(a, b, c) := v in (Cplus a u, b, c)) (Model_Points.mapi (fun i f => gradient_at grad panels2 s i (p_center f, Some (p_normal f))) panels2)).
    exists (Array [length panels2; 3] (elements (matrix3 rows))). split; [|split; [reflexivity|split]].
    - unfold compute_velocity. rewrite (own_mesh_gradient t s Hs E), (props_length t panels2 E). cbn [bind shape elements]. unfold rows, u. destruct (Reqb (forward_speed r) 0).
      + do 4 f_equal. rewrite <- (map_id (Model_Points.mapi _ panels2)) at 1. apply map_ext. intros [[a b] c]. apply c3_ext; ring.
      + do 2 f_equal.
        apply add_first_rows.
    - unfold wf_array. cbn [shape elements]. rewrite rows_length. unfold rows. rewrite map_length, mapi_length. cbn. lia.
    - intros i f Hf. destruct (induced_gradient grad (length panels2) s (p_center f)) as [[x y] z] eqn:G. cbn zeta.
      assert (R1 : nth_error rows i = Some (Cplus (Cplus (Cmult (Cmult (s i) (RtoC (jump f))) (RtoC (vx (p_normal f)))) x) u,
         Cplus (Cmult (Cmult (s i) (RtoC (jump f))) (RtoC (vy (p_normal f)))) y, Cplus (Cmult (Cmult (s i) (RtoC (jump f))) (RtoC (vz (p_normal f)))) z)).
      { unfold rows. rewrite nth_error_map, (mapi_nth _ _ _ _ Hf). cbn [option_map]. rewrite (own_gradient s i f Hf), G. reflexivity. }
      assert (U : u = Copp (RtoC (forward_speed r))).
      { unfold u. destruct (Reqb (forward_speed r) 0) eqn:Z; [|reflexivity]. apply Reqb_true in Z. rewrite Z. rewrite <- RtoC_opp. f_equal. ring. }
      rewrite U in R1. apply rows_nth in R1. destruct R1 as (A & B & C1).
      assert (I : i < length panels2) by (apply nth_error_Some; congruence).
      assert (K : forall c, c < 3 -> index_in [length panels2; 3] [i; c] /\ position_of [length panels2; 3] [i; c] = i * 3 + c).
      { intros c Hc. split; [constructor; [exact I|constructor; [exact Hc|constructor]]|]. cbn. lia. }
      refine (conj (conj (proj1 (K 0 _)) _) (conj (conj (proj1 (K 1 _)) _) (conj (proj1 (K 2 _)) _))); try lia; cbn [shape elements];
        [rewrite (proj2 (K 0 ltac:(lia))), Nat.add_0_r|rewrite (proj2 (K 1 ltac:(lia)))|rewrite (proj2 (K 2 ltac:(lia)))]; assumption.
  Qed.
End Errors.
