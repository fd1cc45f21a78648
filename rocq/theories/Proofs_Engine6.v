From Coq Require Import Reals List Bool ZArith Arith Lia Lra.
From Verif Require Import Model_Base Model_Ring Proofs_Ring Model_Block Spec_Block Proofs_Block Proofs_Block2 Model_Geometry Proofs_Geometry
  Model_Mesh Spec_Mesh Proofs_Mesh Model_Quality Model_Tree Spec_Tree Proofs_Tree Proofs_Symmetry Model_Engine Spec_Engine
  Proofs_Engine Proofs_Engine2 Proofs_Engine3 Proofs_Engine4 Proofs_Engine5.
Import ListNotations.
Open Scope nat_scope.

(** ** From the invariant to the full matrices *)
Lemma good_entries {A : coeffs} (G : bool -> panel -> panel -> A * A) (rel : A -> A -> Prop) pr same r1 r2 sk sk0 :
  good G rel pr same r1 r2 sk -> good G eq pr same r1 r2 sk0 -> same_entries rel (sel pr sk) (sel pr sk0).
Proof.
  intros (W & Sh & E) (W0 & Sh0 & E0). split; [congruence|].
  destruct (full_matrix_ok _ _ W (represents_entry _ W)) as (a & Ea & Ha).
  destruct (full_matrix_ok _ _ W0 (represents_entry _ W0)) as (a0 & Ea0 & Ha0).
  exists a, a0. split; [exact Ea|]. split; [exact Ea0|]. intros i j Hi Hj.
  assert (Hi0 : i < height (sel pr sk0)) by (unfold height in *; congruence).
  assert (Hj0 : j < width (sel pr sk0)) by (unfold width in *; congruence).
  eexists. eexists. split; [apply Ha; assumption|]. split; [apply Ha0; assumption|].
  unfold height in Hi. unfold width in Hj. rewrite Sh in Hi, Hj. cbn in Hi, Hj.
  destruct (coefficient_exists G same (map panel_raw r1) (map panel_raw r2) i j Hi Hj) as [x Hx].
  rewrite (E0 _ (represents_entry _ W0) i j x Hx). exact (E _ (represents_entry _ W) i j x Hx).
Qed.

(** ** Chunks *)
Lemma panel_of_any tri tri' q : (tri = true -> qa q = qd q) -> (tri' = true -> qa q = qd q) -> panel_of tri q = panel_of tri' q.
Proof.
  intros H H'. unfold panel_of. destruct tri, tri'; try reflexivity.
  - now rewrite triangle_as_quad by (now apply H).
  - now rewrite triangle_as_quad by (now apply H').
Qed.
Lemma mesh_panels_raw m : mesh_panels m = bind (mesh_raw m) (fun r => Ok (map panel_raw r)).
Proof. exact (t_panels_raw (Leaf m)). Qed.
Lemma valid_mesh_raw m : valid m -> exists r, mesh_raw m = Ok r.
Proof.
  intros Hv. unfold mesh_raw. apply mapM_total. intros f Hf.
  destruct (valid_points m f Hv Hf) as [q E]. rewrite E. cbn. eauto.
Qed.
Lemma face_is_panel m r i a b c d : mesh_raw m = Ok r -> face_is m i a b c d ->
  exists tri, nth_error r i = Some (tri, Q a b c d) /\ (tri = true -> a = d).
Proof.
  intros H (f & Ef & Ea & Eb & Ec & Ed). destruct (mapM_nth _ _ _ H i f Ef) as (y & Ey & Hy).
  destruct (face_points (m_vertices m) f) as [q|] eqn:Eq; [|discriminate]. cbn [bind] in Ey. apply Ok_inj' in Ey. subst y.
  destruct (face_points_ok _ _ _ Eq) as (A1 & A2 & A3 & A4). exists (is_tri f).
  assert (q = Q a b c d) by (destruct q; cbn in *; congruence). subst q. split; [exact Hy|].
  unfold is_tri. intros T. apply Nat.eqb_eq in T. rewrite T in Ea. congruence.
Qed.
Lemma raw_face_is m r i tri q : mesh_raw m = Ok r -> nth_error r i = Some (tri, q) ->
  face_is m i (qa q) (qb q) (qc q) (qd q) /\ (tri = true -> qa q = qd q).
Proof.
  intros H Hi. destruct (mesh_raw_nth _ _ _ _ _ H Hi) as (f & Ef & Eq & ->). destruct (face_points_ok _ _ _ Eq) as (A1 & A2 & A3 & A4).
  split; [exists f; repeat split; assumption|]. unfold is_tri. intros T. apply Nat.eqb_eq in T. rewrite T, A4 in A1. congruence.
Qed.

Lemma zrange_length a b : length (zrange a b) = b - a.
Proof. unfold zrange. now rewrite map_length, seq_length. Qed.
Lemma zrange_nth a b k : k < b - a -> nth_error (zrange a b) k = Some (Z.of_nat (a + k)).
Proof.
  intros H. unfold zrange. rewrite nth_error_map. assert (E : nth_error (seq a (b - a)) k = Some (a + k)).
  { rewrite (nth_error_nth' _ 0) by now rewrite seq_length. now rewrite seq_nth. }
  now rewrite E.
Qed.
Lemma chunk_panels m ps a b : valid m -> mesh_panels m = Ok ps -> b <= nb_faces m ->
  exists m' used ps', extract_faces m (zrange a b) = Ok (m', used) /\ mesh_panels m' = Ok ps' /\ length ps' = b - a
    /\ forall k, k < b - a -> nth_error ps' k = nth_error ps (a + k).
Proof.
  intros Hv Hps Hb.
  assert (Hr : forall z, In z (zrange a b) -> exists i, index_of (nb_faces m) z i).
  { intros z Hz. unfold zrange in Hz. apply in_map_iff in Hz. destruct Hz as (i & <- & Hi). apply in_seq in Hi.
    exists i. unfold index_of. lia. }
  destruct (extract_faces_spec m _ Hv Hr) as (m' & used & Ex & Hv' & _ & Hn & HF & _).
  destruct (valid_mesh_raw m' Hv') as [r' Er']. rewrite mesh_panels_raw in Hps.
  destruct (mesh_raw m) as [r|] eqn:Er; [|discriminate]. cbn [bind] in Hps. apply Ok_inj' in Hps. subst ps.
  exists m', used, (map panel_raw r'). split; [exact Ex|]. split; [now rewrite mesh_panels_raw, Er'|].
  split; [rewrite map_length; unfold mesh_raw in Er'; rewrite (mapM_length _ _ _ Er'); fold (nb_faces m'); now rewrite Hn, zrange_length|].
  intros k Hk. rewrite !nth_error_map.
  assert (Hl : a + k < length r) by (unfold mesh_raw in Er; rewrite (mapM_length _ _ _ Er); fold (nb_faces m); lia).
  destruct (nth_error r (a + k)) as [[tri q]|] eqn:Ek; [|apply nth_error_None in Ek; lia].
  destruct (raw_face_is _ _ _ _ _ Er Ek) as [F1 F2].
  pose proof (HF k (Z.of_nat (a + k)) (a + k) _ _ _ _ (zrange_nth a b k Hk) ltac:(unfold index_of; lia) F1) as F3.
  destruct (face_is_panel _ _ _ _ _ _ _ Er' F3) as (tri' & E' & T'). rewrite E'. cbn [option_map]. f_equal.
  unfold panel_raw. cbn [fst snd]. rewrite (panel_of_any tri' tri) by (cbn; assumption || (intros; now apply F2)).
  now destruct q.
Qed.

Section Potential.
Context {A : coeffs}.
Variable G : bool -> panel -> panel -> A * A.
Variable argsort : list R -> list nat.
Notation build := (basic_matrices G).
(** The sum of the influences of all the sources on a panel. *)
Definition influence (ps2 : list panel) (sources : nat -> A) (p : panel) : A :=
  ksum (length ps2) (fun j => match nth_error ps2 j with Some q => kmul (fst (G false p q)) (sources j) | None => k0 end).

Lemma potential_leaf m mesh2 ps ps2 fuel sources : mesh_panels m = Ok ps -> t_panels mesh2 = Ok ps2 ->
  exists phi, potential_of build (S fuel) (Leaf m) mesh2 sources = Ok phi
    /\ forall i p, nth_error ps i = Some p -> phi i = influence ps2 sources p.
Proof.
  intros E1 E2. unfold potential_of. cbn [basic_matrices]. unfold evaluate. cbn [t_panels]. rewrite E1, E2. cbn [bind fst].
  unfold dense. cbn [matvec]. eexists. split; [reflexivity|]. intros i p Hp. unfold influence. apply ksum_ext. intros j Hj.
  unfold coefficient. rewrite Hp. destruct (nth_error ps2 j) as [q|] eqn:Eq; [reflexivity|]. apply nth_error_None in Eq. lia.
Qed.

Section Loop.
  Variables (m : mesh) (ps : list panel) (mesh2 : tree) (ps2 : list panel) (fuel : nat) (sources : nat -> A) (chunk : nat).
  Hypothesis Hv : valid m.
  Hypothesis Hps : mesh_panels m = Ok ps.
  Hypothesis Hps2 : t_panels mesh2 = Ok ps2.
  Hypothesis Hchunk : 0 < chunk.
  Let step := (fun (acc : result (nat -> option A)) i =>
        bind acc (fun phi =>
        bind (extract_part argsort (Leaf m) (zrange i (Nat.min (i + chunk) (nb_faces m)))) (fun part =>
        bind (potential_of build (S fuel) (Leaf part) mesh2 sources) (fun values =>
        Ok (set_slice phi i chunk values))))).
  Lemma loop_spec K : exists phi, fold_left step (map (fun k => k * chunk) (seq 0 K)) (Ok (fun _ => None)) = Ok phi
    /\ forall i p, i < K * chunk -> nth_error ps i = Some p -> phi i = Some (influence ps2 sources p).
  Proof.
    induction K as [|K (phi & E & H)].
    - eexists. split; [reflexivity|]. intros. lia.
    - rewrite seq_S, map_app, fold_left_app, E. cbn [map fold_left]. replace (0 + K) with K by reflexivity.
      set (i := K * chunk). unfold step at 1. cbn [bind extract_part].
      destruct (chunk_panels m ps i (Nat.min (i + chunk) (nb_faces m)) Hv Hps ltac:(lia)) as (m' & used & ps' & Ex & Hp' & Hl & Hn).
      rewrite Ex. cbn [bind fst].
      destruct (potential_leaf m' mesh2 ps' ps2 fuel sources Hp' Hps2) as (val & Ev & HV). rewrite Ev. cbn [bind].
      eexists. split; [reflexivity|]. intros k p Hk Hpk. unfold set_slice.
      destruct (Nat.leb_spec i k) as [L|L]; cbn [andb]; [|apply H; assumption].
      destruct (Nat.ltb_spec k (i + chunk)) as [L'|L']; [|unfold i in *; lia].
      f_equal. apply HV.
      assert (Hkn : k < nb_faces m).
      { assert (Hk' : k < length ps) by (apply nth_error_Some; congruence). unfold mesh_panels in Hps. now rewrite (mapM_length _ _ _ Hps) in Hk'. }
      rewrite Hn by lia. rewrite <- Hpk. f_equal. lia.
  Qed.
End Loop.

Lemma ceil_ge n c : 0 < c -> n <= (n + c - 1) / c * c.
Proof.
  intros Hc. pose proof (Nat.div_mod (n + c - 1) c ltac:(lia)) as E. pose proof (Nat.mod_upper_bound (n + c - 1) c ltac:(lia)) as B. nia.
Qed.

Lemma chunked_potential m ps mesh2 ps2 fuel sources chunk : valid m -> mesh_panels m = Ok ps -> t_panels mesh2 = Ok ps2 -> (0 < chunk)%Z ->
  exists phi, get_potential_on_mesh argsort build (S fuel) (Leaf m) mesh2 (Some sources) chunk = Ok phi
    /\ forall i p, nth_error ps i = Some p -> phi i = Some (influence ps2 sources p).
Proof.
  intros Hv Hps Hps2 Hc. unfold get_potential_on_mesh. cbn [t_nb_faces].
  destruct (Z.ltb_spec (Z.of_nat (nb_faces m)) chunk) as [L|L].
  - destruct (potential_leaf m mesh2 ps ps2 fuel sources Hps Hps2) as (phi & E & H). rewrite E. cbn [bind].
    eexists. split; [reflexivity|]. intros i p Hp. cbn beta. f_equal. now apply H.
  - destruct (Z.eqb_spec chunk 0) as [->|_]; [lia|]. destruct (Z.ltb_spec chunk 0) as [?|_]; [lia|].
    set (c := Z.to_nat chunk). assert (Hc' : 0 < c) by (unfold c; lia). unfold starts.
    destruct (loop_spec m ps mesh2 ps2 fuel sources c Hv Hps Hps2 Hc' ((nb_faces m + c - 1) / c)) as (phi & E & H).
    exists phi. split; [exact E|]. intros i p Hp. apply H; [|exact Hp].
    assert (Hk' : i < length ps) by (apply nth_error_Some; congruence). unfold mesh_panels in Hps. rewrite (mapM_length _ _ _ Hps) in Hk'.
    fold (nb_faces m) in Hk'. pose proof (ceil_ge (nb_faces m) c Hc'). lia.
Qed.
End Potential.
