From Coq Require Import Reals.
From Coquelicot Require Import Complex.
From Coq Require Import List Bool Arith Lia.
From Verif Require Import Model_Base Model_Mesh Model_Problem Model_Tree Model_Points Spec_Points Proofs_Mesh.
Import ListNotations.
Open Scope nat_scope.

(** ** Indices *)
Lemma index_length sh idx : index_in sh idx -> length idx = length sh.
Proof. induction 1; cbn; congruence. Qed.
Lemma position_lt sh idx : index_in sh idx -> position_of sh idx < size_of sh.
Proof.
  induction 1 as [|n i sh idx Hi H IH]; cbn [position_of size_of fold_right]; [lia|]. unfold size_of in *. nia.
Qed.
Lemma position_onto sh : forall k, k < size_of sh -> exists idx, index_in sh idx /\ position_of sh idx = k.
Proof.
  induction sh as [|n sh IH]; cbn [size_of fold_right]; intros k Hk.
  - exists []. split; [constructor|cbn; lia].
  - fold (size_of sh) in *. assert (Hz : size_of sh <> 0) by nia.
    destruct (IH (k mod size_of sh)) as (idx & I & P); [now apply Nat.mod_upper_bound|].
    exists (k / size_of sh :: idx). split.
    + constructor; [|exact I]. apply Nat.div_lt_upper_bound; [exact Hz|]. lia.
    + cbn [position_of]. fold (size_of sh). rewrite P. pose proof (Nat.div_mod k (size_of sh) Hz). lia.
Qed.
Lemma position_inj sh idx idx' : index_in sh idx -> index_in sh idx' -> position_of sh idx = position_of sh idx' -> idx = idx'.
Proof.
  intros H. revert idx'. induction H as [|n i sh idx Hi H IH]; intros idx' K E; inversion K as [|? i' ? idx2 Hi' K']; subst; [reflexivity|].
  cbn [position_of] in E. fold (size_of sh) in E. pose proof (position_lt _ _ H). pose proof (position_lt _ _ K').
  assert (i = i') by nia. subst i'. f_equal. apply IH; [exact K'|lia].
Qed.
Lemma position_last out n idx c : index_in out idx -> c < n -> index_in (out ++ [n]) (idx ++ [c]) /\ position_of (out ++ [n]) (idx ++ [c]) = position_of out idx * n + c.
Proof.
  intros H Hc. split; [apply Forall2_app; [exact H|constructor; [exact Hc|constructor]]|].
  induction H as [|m i out idx Hi H IH]; cbn [app position_of fold_right]; [lia|]. rewrite IH. rewrite fold_right_app. cbn [fold_right].
  assert (E : forall l, fold_right Nat.mul (n * 1) l = fold_right Nat.mul 1 l * n) by (induction l; cbn; [lia|rewrite IHl; lia]).
  rewrite E. lia.
Qed.
Lemma size_last out n : size_of (out ++ [n]) = size_of out * n.
Proof. unfold size_of. induction out as [|m out IH]; cbn; [lia|]. rewrite IH. lia. Qed.

(** ** Lists of coordinates *)
Lemma nth_prod {A B} (l : list A) (l' : list B) k c x y : nth_error l k = Some x -> nth_error l' c = Some y ->
  nth_error (list_prod l l') (k * length l' + c) = Some (x, y).
Proof.
  revert k. induction l as [|a l IH]; intros k Hk Hc; [destruct k; discriminate|]. cbn [list_prod].
  destruct k as [|k]; cbn [nth_error] in Hk.
  - injection Hk as ->. cbn [Nat.mul Nat.add]. rewrite nth_error_app1; [rewrite nth_error_map, Hc; reflexivity|]. rewrite map_length. apply nth_error_Some. congruence.
  - rewrite nth_error_app2 by (rewrite map_length; cbn; lia). rewrite map_length. replace (S k * length l' + c - length l') with (k * length l' + c) by (cbn; lia).
    now apply IH.
Qed.
Lemma triples_length l n : length l = n * 3 -> length (triples l) = n.
Proof.
  revert l. induction n as [|n IH]; intros l H; [destruct l; [reflexivity|discriminate]|].
  destruct l as [|x [|y [|z l]]]; try (cbn in H; lia). cbn [triples length]. f_equal. apply IH. cbn in H. lia.
Qed.
Lemma triples_nth k : forall l x y z, nth_error l (k * 3) = Some x -> nth_error l (k * 3 + 1) = Some y -> nth_error l (k * 3 + 2) = Some z ->
  nth_error (triples l) k = Some (V x y z).
Proof.
  induction k as [|k IH]; intros l x y z X Y Z.
  - destruct l as [|x' [|y' [|z' l]]]; try discriminate. cbn in *. congruence.
  - destruct l as [|x' [|y' [|z' l]]]; try discriminate. cbn [triples nth_error]. apply IH; assumption.
Qed.
Lemma zeros_length l n : length l = n * 2 -> length (zero_column l) = n * 3.
Proof.
  revert l. induction n as [|n IH]; intros l H; [destruct l; [reflexivity|discriminate]|].
  destruct l as [|x [|y l]]; try (cbn in H; lia). cbn [zero_column length]. rewrite IH; cbn in *; lia.
Qed.
Lemma zeros_nth k : forall l x y, nth_error l (k * 2) = Some x -> nth_error l (k * 2 + 1) = Some y ->
  nth_error (zero_column l) (k * 3) = Some x /\ nth_error (zero_column l) (k * 3 + 1) = Some y /\ nth_error (zero_column l) (k * 3 + 2) = Some 0%R.
Proof.
  induction k as [|k IH]; intros l x y X Y.
  - destruct l as [|x' [|y' l]]; try discriminate. cbn in *. auto.
  - destruct l as [|x' [|y' l]]; try discriminate. cbn [zero_column]. exact (IH l x y X Y).
Qed.
Lemma rows_length l : length (elements (matrix3 l)) = length l * 3.
Proof. cbn. induction l as [|[[a b] c] l IH]; cbn [flat_map app length]; [reflexivity|]. rewrite IH. cbn; lia. Qed.
Lemma rows_nth l : forall k a b c, nth_error l k = Some (a, b, c) -> nth_error (elements (matrix3 l)) (k * 3) = Some a
  /\ nth_error (elements (matrix3 l)) (k * 3 + 1) = Some b /\ nth_error (elements (matrix3 l)) (k * 3 + 2) = Some c.
Proof.
  induction l as [|[[a' b'] c'] l IH]; intros [|k] a b c H; try discriminate; cbn [nth_error] in H.
  - injection H as -> -> ->. cbn. auto.
  - exact (IH k a b c H).
Qed.

Lemma mapM_fails {A B} (f : A -> result B) l e : mapM f l = Err e -> exists x, In x l /\ f x = Err e.
Proof.
  induction l as [|a l IH]; cbn [mapM]; [discriminate|]. destruct (f a) as [b|e'] eqn:E; cbn [bind].
  - destruct (mapM f l) eqn:M; cbn [bind]; [discriminate|]. intros H. destruct (IH H) as (x & I & F). exists x. split; [now right|exact F].
  - intros H. injection H as ->. exists a. split; [now left|exact E].
Qed.

(** ** Normalisation *)
Lemma describes_unique a out f out' f' : describes a out f -> describes a out' f' -> out = out' /\ f = f'.
Proof.
  intros H K. destruct H.
  - inversion K; subst; [auto|]. cbn in *. lia.
  - inversion K; subst; [auto|]. cbn in *. lia.
  - inversion K; subst; try (cbn in *; lia). auto.
Qed.
Lemma normalized_array a d : wf_array a -> dimension a d -> 0 < d -> forall keep, exists b out f, describes a out f
  /\ normalize_points (Coordinates a) keep = Ok (PointsArray b, out) /\ shape b = [size_of out; d] /\ length (elements b) = size_of out * d
  /\ forall idx c x, index_in out idx -> c < d -> f idx c x -> nth_error (elements b) (position_of out idx * d + c) = Some x.
Proof.
  intros W D Hd keep. destruct a as [sh l]. unfold wf_array in W. cbn [shape elements] in W. unfold dimension in D. cbn [shape] in D.
  destruct sh as [|n [|m [|m' sh]]]; [contradiction| | |].
  - subst n. cbn in W. exists (Array [1; d] l), [1]. eexists. split; [constructor|]. cbn [normalize_points shape]. unfold reshape. cbn [size_of fold_right elements].
    replace (1 * (d * 1)) with (length l) by lia. rewrite Nat.eqb_refl. cbn [bind]. split; [reflexivity|]. split; [reflexivity|]. split; [cbn; lia|].
    intros idx c x I Hc (_ & E). inversion I as [|? i ? ? Hi I']; subst. inversion I'; subst. cbn [shape elements position_of fold_right] in *.
    replace (i * 1 + 0) with 0 by lia. replace (c * 1 + 0) with c in E by lia. exact E.
  - subst m. cbn in W. exists (Array [n; d] l), [n]. eexists. split; [constructor|]. split; [reflexivity|]. split; [cbn; f_equal; lia|]. split; [cbn; lia|].
    intros idx c x I Hc (_ & E). inversion I as [|? i ? ? Hi I']; subst. inversion I'; subst. cbn [shape elements position_of fold_right app] in *.
    replace (i * 1 + 0) with i by lia. replace (i * (d * 1) + (c * 1 + 0)) with (i * d + c) in E by lia. exact E.
  - subst n. set (out := m :: m' :: sh) in *. cbn [fold_right] in W. change (fold_right Nat.mul 1 out) with (size_of out) in W.
    assert (Dv : length l / d = size_of out) by (rewrite W, Nat.mul_comm; apply Nat.div_mul; lia).
    assert (T : exists r, transpose (Array [d; size_of out] l) = Ok (Array [size_of out; d] r) /\ length r = size_of out * d
      /\ forall k c x, k < size_of out -> c < d -> nth_error l (c * size_of out + k) = Some x -> nth_error r (k * d + c) = Some x).
    { unfold transpose. cbn [shape elements].
      destruct (mapM (fun ij => get l (snd ij * size_of out + fst ij)) (list_prod (seq 0 (size_of out)) (seq 0 d))) as [r|e] eqn:E.
      - exists r. split; [reflexivity|]. apply mapM_ok in E. destruct E as [L E]. split; [rewrite L, prod_length, !seq_length; reflexivity|].
        intros k c x Hk Hc Hx. destruct (E (k * d + c) (k, c)) as (y & G & Y).
        + pose proof (nth_prod (seq 0 (size_of out)) (seq 0 d) k c k c) as P. rewrite seq_length in P. apply P.
          * rewrite (nth_error_nth' _ 0) by (rewrite seq_length; exact Hk). rewrite seq_nth by exact Hk. reflexivity.
          * rewrite (nth_error_nth' _ 0) by (rewrite seq_length; exact Hc). rewrite seq_nth by exact Hc. reflexivity.
        + cbn [fst snd] in G. unfold get in G. rewrite Hx in G. congruence.
      - exfalso. apply mapM_fails in E. destruct E as ([k c] & Hi & Ge). apply in_prod_iff in Hi. destruct Hi as [H1 H2]. apply in_seq in H1, H2.
        cbn [fst snd] in Ge. unfold get in Ge. destruct (nth_error l (c * size_of out + k)) eqn:N; [discriminate|]. apply nth_error_None in N.
        assert (X : S c * size_of out <= d * size_of out) by (apply Nat.mul_le_mono_r; lia). rewrite Nat.mul_succ_l in X. lia. }
    destruct T as (r & T & Lr & Nr). exists (Array [size_of out; d] r), out. eexists. split; [constructor; cbn; lia|].
    cbn [normalize_points shape]. unfold reshape_rows. cbn [elements]. rewrite (proj2 (Nat.eqb_neq d 0)) by lia.
    replace (length l mod d =? 0) with true by (symmetry; apply Nat.eqb_eq; rewrite W, Nat.mul_comm; apply Nat.mod_mul; lia).
    cbn [bind]. rewrite Dv, T. cbn [bind]. split; [reflexivity|]. split; [reflexivity|]. split; [exact Lr|].
    intros idx c x I Hc (_ & E). cbn [shape elements position_of] in E. change (fold_right Nat.mul 1 out) with (size_of out) in E.
    apply Nr; [now apply position_lt|exact Hc|exact E].
Qed.

(** The array of the wrong dimension. *)
Lemma normalized_zero a keep : wf_array a -> dimension a 0 -> normalize_points (Coordinates a) keep = Err ValueError
  \/ exists b out, normalize_points (Coordinates a) keep = Ok (PointsArray b, out) /\ shape b = [size_of out; 0].
Proof.
  intros W D. destruct a as [sh l]. unfold wf_array in W. cbn [shape elements] in W. unfold dimension in D. cbn [shape] in D.
  destruct sh as [|n [|m [|m' sh]]]; [contradiction| | |].
  - subst n. right. cbn in W. destruct l; [|discriminate]. exists (Array [1; 0] []), [1]. split; reflexivity.
  - subst m. right. exists (Array [n; 0] l), [n]. split; [reflexivity|]. cbn. f_equal. lia.
  - subst n. left. reflexivity.
Qed.
Lemma point_index a flat idx p out f : describes a out f -> point_at a flat idx p -> index_in out idx /\ f idx 0 (vx p) /\ f idx 1 (vy p)
  /\ (dimension a 3 /\ f idx 2 (vz p) \/ flat = true /\ dimension a 2 /\ vz p = 0%R).
Proof. intros H (out' & f' & D & I). destruct (describes_unique _ _ _ _ _ H D) as [-> ->]. exact I. Qed.
Lemma dimension_unique a d d' : dimension a d -> dimension a d' -> d = d'.
Proof. unfold dimension. destruct (shape a) as [|n [|m [|k l]]]; [contradiction|congruence..]. Qed.

(** The points of an array with three coordinates. *)
Lemma points3 a keep : wf_array a -> dimension a 3 -> exists ps out b f, normalize_points (Coordinates a) keep = Ok (PointsArray b, out)
  /\ describes a out f /\ shape b = [size_of out; 3] /\ length (elements b) = size_of out * 3 /\ triples (elements b) = ps /\ length ps = size_of out
  /\ forall flat idx p, point_at a flat idx p -> index_in out idx /\ nth_error ps (position_of out idx) = Some p.
Proof.
  intros W D. destruct (normalized_array a 3 W D ltac:(lia) keep) as (b & out & f & De & E & Sb & Lb & N).
  exists (triples (elements b)), out, b, f. split; [exact E|]. split; [exact De|]. split; [exact Sb|]. split; [exact Lb|]. split; [reflexivity|].
  split; [now apply triples_length|]. intros flat idx p P. destruct (point_index _ _ _ _ _ _ De P) as (I & X & Y & Z). split; [exact I|].
  destruct Z as [[_ Z]|(_ & D2 & _)]; [|pose proof (dimension_unique _ _ _ D D2); discriminate].
  destruct p as [x y z]. apply triples_nth; [|apply N; auto..]. rewrite <- (Nat.add_0_r (position_of out idx * 3)). apply N; auto.
Qed.
(** The same with two or three coordinates, for the free surface. *)
Lemma points_flat a keep d : wf_array a -> dimension a d -> d = 2 \/ d = 3 -> exists ps out b f, normalize_free_surface_points (Coordinates a) keep = Ok (PointsArray b, out)
  /\ describes a out f /\ shape b = [size_of out; 3] /\ length (elements b) = size_of out * 3 /\ triples (elements b) = ps /\ length ps = size_of out
  /\ forall idx p, point_at a true idx p -> index_in out idx /\ nth_error ps (position_of out idx) = Some p.
Proof.
  intros W D [-> | ->].
  - destruct (normalized_array a 2 W D ltac:(lia) keep) as (b & out & f & De & E & Sb & Lb & N).
    exists (triples (zero_column (elements b))), out, (Array [size_of out; 3] (zero_column (elements b))), f.
    unfold normalize_free_surface_points. rewrite E. cbn [bind]. rewrite Sb. split; [reflexivity|]. split; [exact De|]. split; [reflexivity|].
    split; [cbn [elements]; now apply zeros_length|]. split; [reflexivity|]. split; [apply triples_length; now apply zeros_length|].
    intros idx p P. destruct (point_index _ _ _ _ _ _ De P) as (I & X & Y & Z). split; [exact I|].
    destruct Z as [[D3 _]|(_ & _ & Z)]; [pose proof (dimension_unique _ _ _ D D3); discriminate|].
    destruct p as [x y z]. cbn in Z. subst z. destruct (zeros_nth (position_of out idx) (elements b) x y) as (A & B & C).
    + rewrite <- (Nat.add_0_r (position_of out idx * 2)). apply N; auto.
    + apply N; auto.
    + now apply triples_nth.
  - destruct (points3 a keep W D) as (ps & out & b & f & E & De & Sb & Lb & T & L & P). exists ps, out, b, f.
    split; [unfold normalize_free_surface_points; rewrite E; cbn [bind]; rewrite Sb; reflexivity|]. split; [exact De|]. split; [exact Sb|]. split; [exact Lb|].
    split; [exact T|]. split; [exact L|]. intros idx p. apply P.
Qed.

(** The values are put at the places of the points. *)
Lemma scattered {B} a flat out f0 ps (f : vec -> B) : describes a out f0 -> length ps = size_of out ->
  (forall idx p, point_at a flat idx p -> index_in out idx /\ nth_error ps (position_of out idx) = Some p) ->
  exists r, reshape (vector (map f ps)) out = Ok r /\ values_at a flat f r /\ shape r = out /\ elements r = map f ps.
Proof.
  intros De L P. unfold reshape, vector. cbn [elements]. rewrite map_length, L, Nat.eqb_refl. eexists. split; [reflexivity|]. split; [|split; reflexivity].
  split; [exists f0; exact De|]. split; [unfold wf_array; cbn [elements shape]; rewrite map_length; exact L|].
  intros idx p H. destruct (P idx p H) as [I N]. split; [exact I|]. cbn [elements shape]. now rewrite nth_error_map, N.
Qed.
Lemma scattered3 a out f0 ps vs (f : vec -> C * C * C) : describes a out f0 -> length ps = size_of out -> vs = map f ps ->
  (forall idx p, point_at a false idx p -> index_in out idx /\ nth_error ps (position_of out idx) = Some p) ->
  exists r, reshape (matrix3 vs) (out ++ [3]) = Ok r /\ vectors_at a f r /\ shape r = out ++ [3] /\ elements r = elements (matrix3 vs).
Proof.
  intros De L Ev P. assert (Lv : length (elements (matrix3 vs)) = size_of out * 3) by (rewrite rows_length, Ev, map_length, L; reflexivity).
  unfold reshape. rewrite Lv, size_last, Nat.eqb_refl. eexists. split; [reflexivity|]. split; [|split; reflexivity].
  exists out. split; [reflexivity|]. split; [exists f0; exact De|]. split; [unfold wf_array; cbn [elements shape]; rewrite Lv; symmetry; apply size_last|].
  intros idx p H. destruct (P idx p H) as [I N]. destruct (f p) as [[a1 a2] a3] eqn:Ef.
  assert (Nv : nth_error vs (position_of out idx) = Some (a1, a2, a3)) by (rewrite Ev, nth_error_map, N; cbn; now rewrite Ef).
  destruct (rows_nth vs _ _ _ _ Nv) as (A & B & D). unfold element. cbn [shape elements].
  destruct (position_last out 3 idx 0 I ltac:(lia)) as [I0 E0]. destruct (position_last out 3 idx 1 I ltac:(lia)) as [I1 E1]. destruct (position_last out 3 idx 2 I ltac:(lia)) as [I2 E2].
  rewrite E0, E1, E2, Nat.add_0_r. auto.
Qed.

(** ** Airy waves *)
Lemma airy_potential_values a w : wf_array a -> dimension a 3 -> exists r, airy_waves_potential (Coordinates a) w = Ok r /\ values_at a false (airy_potential w) r.
Proof.
  intros W D. destruct (points3 a false W D) as (ps & out & b & f & E & De & Sb & Lb & T & L & P). unfold airy_waves_potential. rewrite E. cbn [bind fst snd array_points].
  unfold columns_xyz. rewrite Sb. cbn [bind]. rewrite T. destruct (scattered a false out f ps (airy_potential w) De L) as (r & Er & V & _); [intros; now apply (P false)|]. eauto.
Qed.
Lemma airy_velocity_values a w : wf_array a -> dimension a 3 -> exists r, airy_waves_velocity (Coordinates a) w = Ok r /\ vectors_at a (airy_velocity w) r.
Proof.
  intros W D. destruct (points3 a false W D) as (ps & out & b & f & E & De & Sb & Lb & T & L & P). unfold airy_waves_velocity. rewrite E. cbn [bind fst snd array_points].
  unfold columns_xyz. rewrite Sb. cbn [bind]. rewrite T. destruct (scattered3 a out f ps _ (airy_velocity w) De L eq_refl) as (r & Er & V & _); [intros; now apply (P false)|]. eauto.
Qed.
Lemma scale_values a flat k (f g : vec -> C) r : (forall p, g p = Cmult k (f p)) -> values_at a flat f r -> values_at a flat g (scale_array k r).
Proof.
  intros E (S & W & V). split; [exact S|]. split; [unfold wf_array, scale_array in *; cbn; now rewrite map_length|].
  intros idx p H. destruct (V idx p H) as [I N]. split; [exact I|]. cbn. rewrite nth_error_map, N, E. reflexivity.
Qed.
Lemma airy_pressure_values a w : wf_array a -> dimension a 3 -> exists r, airy_waves_pressure (Coordinates a) w = Ok r /\ values_at a false (airy_pressure w) r.
Proof.
  intros W D. destruct (airy_potential_values a w W D) as (r & E & V). unfold airy_waves_pressure. rewrite E. cbn [bind]. eexists. split; [reflexivity|].
  now apply (scale_values a false _ (airy_potential w)).
Qed.
(** A normalised array given again. *)
Lemma again_points b n : shape b = [n; 3] -> length (elements b) = n * 3 -> wf_array b /\ dimension b 3 /\ normalize_points (Coordinates b) false = Ok (PointsArray b, [n])
  /\ normalize_points (Coordinates b) true = Ok (PointsArray b, [n]).
Proof.
  intros S L. unfold wf_array, dimension. rewrite S. split; [cbn; lia|]. split; [reflexivity|]. cbn [normalize_points]. rewrite S. auto.
Qed.
Lemma reshape_elements {A} (a b : ndarray A) sh : elements a = elements b -> reshape a sh = reshape b sh.
Proof. unfold reshape. now intros ->. Qed.
Lemma flat_again {B} (f : vec -> B) ps out : length ps = size_of out -> reshape (vector (map f ps)) [size_of out] = Ok (Array [size_of out] (map f ps)).
Proof. intros L. unfold reshape, vector. cbn [elements size_of fold_right]. rewrite map_length, L, Nat.mul_1_r, Nat.eqb_refl. reflexivity. Qed.
Lemma airy_elevation_values a w d : wf_array a -> dimension a d -> d = 2 \/ d = 3 ->
  exists r, airy_waves_free_surface_elevation (Coordinates a) w = Ok r /\ values_at a true (airy_elevation w) r.
Proof.
  intros W D H. destruct (points_flat a false d W D H) as (ps & out & b & f & E & De & Sb & Lb & T & L & P). unfold airy_waves_free_surface_elevation. rewrite E. cbn [bind fst snd again].
  destruct (again_points b _ Sb Lb) as (_ & _ & Eb & _). unfold airy_waves_potential. rewrite Eb. cbn [bind fst snd array_points]. unfold columns_xyz. rewrite Sb. cbn [bind]. rewrite T.
  rewrite (flat_again _ ps out L). cbn [bind].
  destruct (scattered a true out f ps (airy_potential w) De L P) as (r & Er & V & _). rewrite (reshape_elements _ (vector (map (airy_potential w) ps))) by reflexivity.
  rewrite Er. cbn [bind]. eexists. split; [reflexivity|]. now apply (scale_values a true _ (airy_potential w)).
Qed.
