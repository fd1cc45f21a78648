(** Clipping a mesh: partition, merging of the crown and removal of the small faces. *)
From Coq Require Import Reals List Bool ZArith Arith Lra Lia Sorted.
From Verif Require Import Model_Base Model_Geometry Model_Mesh Spec_Mesh Model_Quality Spec_Quality Model_Tree Spec_Tree Spec_Clip
  Proofs_Geometry Proofs_Mesh Proofs_Mesh2 Proofs_Mesh3 Proofs_Tree Proofs_Tree2 Model_Clip Proofs_Clip Proofs_Clip2 Proofs_Clip3 Proofs_Clip4.
Import ListNotations.
Open Scope R_scope.

Lemma polygons_exist m : valid m -> exists qs, polygons_of m qs.
Proof.
  intros Hv. unfold polygons_of. assert (H : forall f, In f (m_faces m) -> exists q, corners_at (m_vertices m) f q).
  { intros f Hf. destruct (valid_points m f Hv Hf) as (q & Hq). apply face_points_ok in Hq.
    exists (qa q, qb q, qc q, qd q). exact Hq. }
  clear Hv. induction (m_faces m) as [|f fs IH]; [exists []; constructor|].
  destruct IH as (qs & Hqs); [intros; apply H; now right|]. destruct (H f) as (q & Hq); [now left|]. exists (q :: qs). now constructor.
Qed.
Lemma polygons_face m qs i q : polygons_of m qs -> nth_error qs i = Some q ->
  let '(a, b, c, d) := q in face_is m i a b c d.
Proof.
  intros P Hi. destruct (Forall2_nth_r _ _ _ _ _ P Hi) as (f & Hf & Hc). destruct q as [[[a b] c] d].
  exists f. split; [exact Hf|exact Hc].
Qed.
Lemma face_polygons m qs i a b c d : polygons_of m qs -> face_is m i a b c d -> nth_error qs i = Some (a, b, c, d).
Proof.
  intros P (f & Hf & A & B & C & E). destruct (Forall2_nth_l _ _ _ _ _ P Hf) as ([[[a' b'] c'] d'] & Hq & A' & B' & C' & E').
  rewrite Hq. congruence.
Qed.
Lemma polygons_intro m qs : length qs = nb_faces m ->
  (forall i a b c d, nth_error qs i = Some (a, b, c, d) -> face_is m i a b c d) -> polygons_of m qs.
Proof.
  intros L H. apply Forall2_nth. split; [symmetry; exact L|]. intros i f [[[a b] c] d] Hf Hq.
  destruct (H _ _ _ _ _ Hq) as (f' & Hf' & X). assert (f' = f) by congruence. subst. exact X.
Qed.
Lemma polygons_length m qs : polygons_of m qs -> length qs = nb_faces m.
Proof. intros P. apply Forall2_nth in P. unfold nb_faces. lia. Qed.
Lemma polygons_valid m qs : polygons_of m qs -> valid m.
Proof.
  intros P f i Hf Hi. apply In_nth_error in Hf. destruct Hf as (k & Hk).
  destruct (Forall2_nth_l _ _ _ _ _ P Hk) as ([[[a b] c] d] & _ & A & B & C & E).
  cbn in Hi. destruct Hi as [<-|[<-|[<-|[<-|[]]]]]; apply nth_error_Some; congruence.
Qed.

(** ** Positions *)
Lemma filtered_positions {A B} (t : B -> bool) : forall (fs : list A) (l : list B) k, length fs = length l ->
  Forall2 (fun i f => (k <= i)%nat /\ nth_error fs (i - k) = Some f)
    (map fst (filter (fun q => t (snd q)) (combine (seq k (length l)) l)))
    (map fst (filter (fun q => t (snd q)) (combine fs l))).
Proof.
  induction fs as [|f fs IH]; intros [|b l] k L; try discriminate; [constructor|].
  cbn [length seq combine filter snd]. specialize (IH l (S k)). cbn in L.
  assert (IH' : Forall2 (fun i f0 => (k <= i)%nat /\ nth_error (f :: fs) (i - k) = Some f0)
    (map fst (filter (fun q => t (snd q)) (combine (seq (S k) (length l)) l)))
    (map fst (filter (fun q => t (snd q)) (combine fs l)))).
  { assert (L' : length fs = length l) by lia. specialize (IH L'). clear -IH. induction IH as [|i x l1 l2 [H1 H2] F IH]; constructor; [|exact IH].
    split; [lia|]. replace (i - k)%nat with (S (i - S k)) by lia. exact H2. }
  destruct (t b); [|exact IH']. cbn [map fst]. constructor; [|exact IH'].
  split; [lia|]. now rewrite Nat.sub_diag.
Qed.
Lemma picks_positions {A B} (t : B -> bool) (fs : list A) (l : list B) : length fs = length l ->
  picks fs (positions t l) (map fst (filter (fun q => t (snd q)) (combine fs l))).
Proof.
  intros L. unfold picks, positions. pose proof (filtered_positions t fs l 0 L) as F.
  induction F as [|i x l1 l2 [H1 H2] F IH]; constructor; [|exact IH]. now rewrite Nat.sub_0_r in H2.
Qed.
Lemma positions_sorted {A} (t : A -> bool) (l : list A) : StronglySorted lt (positions t l).
Proof.
  unfold positions. generalize 0%nat. induction l as [|a l IH]; intros k; [constructor|].
  cbn [length seq combine filter snd].
  assert (Forall (lt k) (map fst (filter (fun q => t (snd q)) (combine (seq (S k) (length l)) l)))).
  { apply List.Forall_forall. intros i Hi. apply in_map_iff in Hi. destruct Hi as ([i' x] & <- & Hi).
    apply filter_In in Hi. destruct Hi as [Hi _]. apply in_combine_l in Hi. apply in_seq in Hi. cbn. lia. }
  destruct (t a); [|apply IH]. cbn [map fst]. constructor; [apply IH|exact H].
Qed.
Lemma positions_nth {A} (t : A -> bool) (l : list A) k : In k (positions t l) <-> exists x, nth_error l k = Some x /\ t x = true.
Proof. apply positions_In. Qed.

(** ** Removal of the unused vertices and of the small faces *)
Lemma finish_spec w qw : polygons_of w qw -> exists m' qs' fps kept, finish w = Ok m' /\ faces_props w = Ok fps
  /\ StronglySorted lt kept /\ (forall j, In j kept <-> big_enough fps j)
  /\ valid m' /\ polygons_of m' qs' /\ picks qw kept qs'.
Proof.
  intros P. pose proof (polygons_valid _ _ P) as Hv.
  destruct (remove_unused_spec w Hv) as (w1 & E1 & V1 & _ & N1 & F1 & P1).
  destruct (valid_faces_props w Hv) as (fps & Hfps).
  assert (Pw1 : polygons_of w1 qw).
  { apply polygons_intro; [rewrite (polygons_length _ _ P); now symmetry|].
    intros i a b c d Hq. apply F1. exact (polygons_face _ _ _ _ P Hq). }
  unfold finish. rewrite E1. cbn [bind]. unfold remove_degenerated.
  rewrite (proj2 (Rltb_true 0 (/ 100000))) by lra. cbn [negb]. rewrite P1, Hfps. cbn [bind].
  set (t := fun x : fprops => negb (Rltb (p_area x) (Rsum (map p_area fps) / INR (length fps) * / 100000))).
  assert (Lf : length (m_faces w1) = length fps).
  { unfold faces_props in Hfps. apply mapM_length in Hfps. unfold nb_faces in N1. lia. }
  pose proof (picks_positions t (m_faces w1) fps Lf) as Pk.
  set (fs' := map fst (filter (fun q => t (snd q)) (combine (m_faces w1) fps))) in *.
  assert (exists qs', Forall2 (corners_at (m_vertices w1)) fs' qs' /\ picks qw (positions t fps) qs') as (qs' & C1 & C2).
  { clear -Pk Pw1. revert Pk. generalize (positions t fps) as ids. generalize fs'. clear fs'. intros fs' ids Pk.
    induction Pk as [|i f ids fs' H F IH]; [exists []; split; constructor|]. destruct IH as (qs' & A & B).
    destruct (Forall2_nth_l _ _ _ _ _ Pw1 H) as (q & Hq & Hc). exists (q :: qs'). split; constructor; auto. }
  assert (Pm' : polygons_of (Mesh (m_vertices w1) fs') qs') by exact C1.
  exists (Mesh (m_vertices w1) fs'), qs', fps, (positions t fps). split; [reflexivity|]. split; [reflexivity|].
  split; [apply positions_sorted|]. split.
  { intros j. rewrite positions_nth. unfold big_enough, t. split; intros (x & Hx & Hb); exists x; (split; [exact Hx|]).
    - rewrite negb_true_iff in Hb. apply Rltb_false in Hb. lra.
    - rewrite negb_true_iff. apply Rltb_false. lra. }
  split; [exact (polygons_valid _ _ Pm')|]. split; [exact Pm'|exact C2].
Qed.
Lemma near_refl t x : 0 <= t -> near t x x.
Proof. intros H. unfold near. rewrite !Rminus_diag_eq by reflexivity. rewrite Rabs_R0. auto. Qed.
Lemma near_polygon_refl q : near_polygon (/ 100000000) q q.
Proof.
  destruct q as [[[a b] c] d]. exists a, b, c, d, a, b, c, d. split; [reflexivity|]. split; [now left|].
  assert (0 <= / 100000000) by lra. split; [now apply near_refl|]. split; [now apply near_refl|]. split; now apply near_refl.
Qed.
(** The conclusion, from the mesh before the removal of the small faces. *)
Lemma clipped_intro p m ps w qw : (forall g, In g ps -> (snd g < nb_faces m)%nat) ->
  (forall i a b c d, face_is m i a b c d -> clips p (a, b, c, d) (pieces_of ps i)) ->
  polygons_of w qw -> Forall2 (near_polygon (/ 100000000)) (map fst ps) qw ->
  exists m', finish w = Ok m' /\ clipped p m m' (map snd ps).
Proof.
  intros Hr Hc Pw Hn. destruct (finish_spec w qw Pw) as (m' & qs' & fps & kept & E & Hf & Hs & Hk & Vm & Pm & Pk).
  exists m'. split; [exact E|]. exists ps, w, qw, qs', fps, kept. split; [reflexivity|]. split.
  { intros i Hi. apply in_map_iff in Hi. destruct Hi as (g & <- & Hg). now apply Hr. }
  split; [exact Hc|]. split; [exact (polygons_valid _ _ Pw)|]. auto 10.
Qed.

(** ** The partition *)
Lemma count_all t l : length (filter t l) = length l -> forall x : side, In x l -> t x = true.
Proof.
  induction l as [|y l IH]; intros E x Hx; [destruct Hx|]. cbn [filter] in E. destruct (t y) eqn:T.
  - cbn in E. destruct Hx as [<-|Hx]; [exact T|]. apply IH; [lia|exact Hx].
  - exfalso. assert (length (filter t l) <= length l)%nat by (clear; induction l; cbn; [lia|destruct (t a); cbn; lia]). cbn in E. lia.
Qed.

Section Mesh.
  Variable argsort : list R -> list nat.
  Hypothesis Hsort : sorts argsort.
  Variable p : plane.
  Variable tol : R.
  Hypothesis tol_pos : 0 < tol.
  Notation D := (height p).
  Variable m : mesh.
  Hypothesis Vm : valid m.
  Hypothesis Cm : convex_faces m.
  Hypothesis Gm : general_position p tol m.
  Let ds := map (distance_to_point p) (m_vertices m).
  Let sides := map (side_of tol) ds.
  Variable qs : list polygon.
  Hypothesis Pm : polygons_of m qs.

  Lemma clear_vertex x : In x (m_vertices m) -> clear_of p tol x.
  Proof. intros H. exact (Gm x H). Qed.
  Lemma side_at i x : nth_error (m_vertices m) i = Some x -> nth_error sides i = Some (side_of tol (distance_to_point p x)).
  Proof. intros H. unfold sides, ds. now rewrite !nth_error_map, H. Qed.
  Lemma side_above x : clear_of p tol x -> is_above (side_of tol (distance_to_point p x)) = true -> 0 < D x.
  Proof. intros H. destruct (side_cases p tol tol_pos x H) as [[-> S]|[[-> S]|[-> S]]]; cbn; try discriminate; auto. Qed.
  Lemma side_below x : clear_of p tol x -> is_below (side_of tol (distance_to_point p x)) = true -> D x < 0.
  Proof. intros H. destruct (side_cases p tol tol_pos x H) as [[-> S]|[[-> S]|[-> S]]]; cbn; try discriminate; auto. Qed.
  Lemma four_spec t f a b c d : corners_at (m_vertices m) f (a, b, c, d) -> exists v, four t sides f = Ok v
    /\ (v = true -> forall x, In x [a; b; c; d] -> t (side_of tol (distance_to_point p x)) = true).
  Proof.
    intros (A & B & C & E). unfold four, face_ids. cbn [mapM]. unfold get.
    rewrite (side_at _ _ A), (side_at _ _ B), (side_at _ _ C), (side_at _ _ E). cbn [bind]. eexists. split; [reflexivity|].
    intros T. apply Nat.eqb_eq in T. unfold count in T.
    set (l := [side_of tol (distance_to_point p a); side_of tol (distance_to_point p b); side_of tol (distance_to_point p c);
       side_of tol (distance_to_point p d)]) in *.
    assert (H : forall s, In s l -> t s = true) by (apply count_all; exact T).
    intros x Hx. apply H. unfold l. cbn in *. intuition (subst; auto).
  Qed.
  Lemma four_total t : exists l, mapM (four t sides) (m_faces m) = Ok l /\ length l = nb_faces m
    /\ forall i q, nth_error l i = Some true -> nth_error qs i = Some q -> forall x, In x (polygon_corners q) -> t (side_of tol (distance_to_point p x)) = true.
  Proof.
    destruct (mapM_total (four t sides) (m_faces m)) as (l & El).
    { intros f Hf. apply In_nth_error in Hf. destruct Hf as (i & Hi). destruct (Forall2_nth_l _ _ _ _ _ Pm Hi) as ([[[a b] c] d] & _ & Hc).
      destruct (four_spec t f a b c d Hc) as (v & E & _). now exists v. }
    exists l. split; [exact El|]. split; [now apply mapM_length in El|].
    intros i [[[a b] c] d] Hi Hq x Hx. destruct (Forall2_nth_r _ _ _ _ _ Pm Hq) as (f & Hf & Hc).
    destruct (four_spec t f a b c d Hc) as (v & E & Hv). apply mapM_ok in El. destruct El as [_ El].
    destruct (El i f Hf) as (v' & E' & Hi'). assert (v = true) by congruence. now apply Hv.
  Qed.

  Lemma extract_polygons ids : (forall i, In i ids -> (i < nb_faces m)%nat) ->
    exists mx used qx, extract_faces m (map Z.of_nat ids) = Ok (mx, used) /\ polygons_of mx qx /\ picks qs ids qx
      /\ nb_faces mx = length ids
      /\ mapM (get ds) used = Ok (map (distance_to_point p) (m_vertices mx))
      /\ (forall x, In x (m_vertices mx) -> clear_of p tol x)
      /\ Forall2 (fun f q => corners_at (m_vertices mx) f q /\ (fa f = fd f \/ diagonals_meet q)) (m_faces mx) qx.
  Proof.
    intros Hi. destruct (extract_faces_spec m (map Z.of_nat ids) Vm) as (mx & used & E & Vx & Ux & Nx & Fx & _ & Lu & Hu).
    { intros z Hz. apply in_map_iff in Hz. destruct Hz as (i & <- & Hz). exists i. split; [now apply Hi|now left]. }
    rewrite map_length in Nx.
    assert (exists qx, picks qs ids qx) as (qx & Pk).
    { clear -Hi Pm. pose proof (polygons_length _ _ Pm) as L. induction ids as [|i ids IH]; [exists []; constructor|].
      destruct IH as (qx & H); [intros; apply Hi; now right|]. specialize (Hi i (or_introl eq_refl)).
      destruct (nth_error qs i) as [q|] eqn:E; [|apply nth_error_None in E; lia]. exists (q :: qx). constructor; auto. }
    assert (Px : polygons_of mx qx).
    { apply polygons_intro; [rewrite Nx; symmetry; apply (proj1 (proj1 (Forall2_nth _ _ _) Pk))|].
      intros k a b c d Hk. destruct (Forall2_nth_r _ _ _ _ _ Pk Hk) as (i & Hk' & Hq). cbn in Hq.
      apply (Fx k (Z.of_nat i) i); [now apply map_nth_error| |exact (polygons_face _ _ _ _ Pm Hq)].
      split; [|now left]. apply Hi. now apply nth_error_In in Hk'. }
    assert (Hin : forall k x, nth_error (m_vertices mx) k = Some x -> exists i, nth_error used k = Some i /\ nth_error (m_vertices m) i = Some x).
    { intros k x Hx. assert (k < length used)%nat by (rewrite Lu; apply nth_error_Some; congruence).
      destruct (nth_error used k) as [i|] eqn:Ei; [|apply nth_error_None in Ei; lia]. exists i. split; [reflexivity|].
      rewrite <- (Hu _ _ Ei). exact Hx. }
    exists mx, used, qx. split; [exact E|]. split; [exact Px|]. split; [exact Pk|]. split; [exact Nx|]. split; [|split].
    - apply mapM_ok. rewrite map_length. split; [now symmetry|]. intros k i Hk.
      assert (k < length (m_vertices mx))%nat by (unfold nb_vertices in Lu; rewrite <- Lu; apply nth_error_Some; congruence).
      destruct (nth_error (m_vertices mx) k) as [x|] eqn:Ex; [|apply nth_error_None in Ex; lia].
      exists (distance_to_point p x). split; [|now apply map_nth_error].
      unfold get, ds. rewrite nth_error_map, <- (Hu _ _ Hk), Ex. reflexivity.
    - intros x Hx. apply In_nth_error in Hx. destruct Hx as (k & Hk). destruct (Hin k x Hk) as (i & _ & Hx).
      apply clear_vertex. now apply nth_error_In in Hx.
    - apply Forall2_nth. split; [symmetry; exact (polygons_length _ _ Px)|]. intros k f q Hf Hq. split.
      + destruct (Forall2_nth_r _ _ _ _ _ Px Hq) as (f' & Hf' & Hc). assert (f' = f) by congruence. now subst.
      + destruct (Forall2_nth_r _ _ _ _ _ Pk Hq) as (i & Hk' & Hq'). cbn in Hq'.
        destruct (Forall2_nth_r _ _ _ _ _ Pm Hq') as (f0 & Hf0 & Hc0).
        destruct q as [[[a b] c] d].
        destruct (Cm i f0 a b c d Hf0) as [T|T]; [exact (polygons_face _ _ _ _ Pm Hq')| |now right].
        left. unfold extract_faces in E.
        destruct (mapM (geti (m_faces m)) (map Z.of_nat ids)) as [fs|] eqn:Efs; [|discriminate]. cbn [bind] in E.
        destruct (mapM (get (m_vertices m)) (used_vertices (nb_vertices m) fs)) as [vs|]; [|discriminate]. cbn [bind] in E.
        destruct (build_mesh vs (map (face_map (new_id (used_vertices (nb_vertices m) fs))) fs)) as [mb|] eqn:Eb; [|discriminate].
        cbn [bind] in E. apply build_mesh_ok in Eb. destruct Eb as [-> _].
        assert (Emx : mx = Mesh vs (map (face_map (new_id (used_vertices (nb_vertices m) fs))) fs)) by congruence.
        rewrite Emx in Hf. cbn [m_faces] in Hf. rewrite nth_error_map in Hf.
        apply mapM_ok in Efs. destruct Efs as [_ Efs]. destruct (Efs k (Z.of_nat i)) as (f1 & G1 & H1); [now apply map_nth_error|].
        rewrite H1 in Hf. injection Hf as <-. cbn.
        assert (f1 = f0); [|subst; now rewrite T].
        assert (G0 : geti (m_faces m) (Z.of_nat i) = Ok f0) by (apply (geti_ok _ _ i); [split; [apply nth_error_Some; congruence|now left]|exact Hf0]).
        congruence.
  Qed.

  Lemma picks_nth {A} (l : list A) ids l' k i : picks l ids l' -> nth_error ids k = Some i -> nth_error l' k = nth_error l i.
  Proof. intros P Hk. destruct (Forall2_nth_l _ _ _ _ _ P Hk) as (x & -> & Hx). now symmetry. Qed.

  Theorem clip_spec : exists m' ids, clip argsort p tol m = Ok (m', ids) /\ clipped p m m' ids.
  Proof.
    unfold clip. fold ds. fold sides.
    assert (Ls : length sides = nb_vertices m) by (unfold sides, ds, nb_vertices; now rewrite !map_length).
    assert (Hsid : forall x, In x (m_vertices m) -> In (side_of tol (distance_to_point p x)) sides).
    { intros x Hx. unfold sides, ds. apply in_map, in_map, Hx. }
    assert (Hcor : forall i a b c d, face_is m i a b c d -> forall x, In x [a; b; c; d] -> In x (m_vertices m)).
    { intros i a b c d (f & _ & A & B & C & E) x Hx. cbn in Hx.
      destruct Hx as [<-|[<-|[<-|[<-|[]]]]]; eapply nth_error_In; eassumption. }
    destruct (Nat.eqb_spec (count is_above sides) (nb_vertices m)) as [Ea|Ea].
    { (* everything is above *)
      destruct (clipped_intro p m [] (Mesh [] []) []) as (m' & Em & Hc).
      - intros g [].
      - intros i a b c d Hf. apply clips_drop. intros x Hx. left.
        apply side_above; [apply clear_vertex, (Hcor _ _ _ _ _ Hf x Hx)|].
        apply (count_all is_above sides); [unfold count in Ea; lia|apply Hsid, (Hcor _ _ _ _ _ Hf x Hx)].
      - constructor.
      - constructor.
      - exists m', []. rewrite Em. cbn [bind]. split; [reflexivity|exact Hc]. }
    destruct (Nat.eqb_spec (count (fun s => is_below s || is_on s) sides) (nb_vertices m)) as [Eb|Eb].
    { (* nothing is above *)
      assert (Lq := polygons_length _ _ Pm).
      assert (Ecq : map snd (combine qs (seq 0 (nb_faces m))) = seq 0 (nb_faces m)).
      { rewrite <- Lq. clear. generalize 0%nat. induction qs as [|q l IH]; intros n; [reflexivity|]. cbn. now rewrite IH. }
      assert (Ecq' : map fst (combine qs (seq 0 (nb_faces m))) = qs).
      { rewrite <- Lq. clear. generalize 0%nat. induction qs as [|q l IH]; intros n; [reflexivity|]. cbn. now rewrite IH. }
      destruct (clipped_intro p m (combine qs (seq 0 (nb_faces m))) m qs) as (m' & Em & Hc).
      - intros [g i] Hg. apply in_combine_r in Hg. apply in_seq in Hg. cbn. lia.
      - intros i a b c d Hf. pose proof (face_polygons _ _ _ _ _ _ _ Pm Hf) as Hq.
        assert (i < nb_faces m)%nat by (rewrite <- Lq; apply nth_error_Some; congruence).
        rewrite (pieces_of_combine _ _ i i (a, b, c, d)); auto.
        + apply clips_same. intros x Hx. cbn [polygon_corners] in Hx. pose proof (Hcor _ _ _ _ _ Hf x Hx) as Hin.
          assert (T : is_below (side_of tol (distance_to_point p x)) || is_on (side_of tol (distance_to_point p x)) = true).
          { apply (count_all (fun s => is_below s || is_on s) sides); [unfold count in Eb; lia|now apply Hsid]. }
          destruct (side_cases p tol tol_pos x (clear_vertex x Hin)) as [[S0 S1]|[[S0 S1]|[S0 S1]]]; rewrite S0 in T; cbn in T; try discriminate; lra.
        + apply seq_NoDup.
        + now rewrite seq_length.
        + rewrite nth_error_nth' with (d := 0%nat) by now rewrite seq_length. now rewrite seq_nth.
      - exact Pm.
      - rewrite Ecq'. clear. induction qs; constructor; auto using near_polygon_refl.
      - exists m', (seq 0 (nb_faces m)). rewrite Em. cbn [bind]. split; [reflexivity|]. now rewrite Ecq in Hc. }
    (* the general case *)
    destruct (four_total is_above) as (la & Ela & Lla & Hla). destruct (four_total is_below) as (lb & Elb & Llb & Hlb).
    unfold partition_ids. rewrite Ela. cbn [bind]. rewrite Elb. cbn [bind].
    set (up := positions (fun b : bool => b) la). set (low := positions (fun b : bool => b) lb).
    set (mid := positions (fun b : bool * bool => negb (fst b || snd b)) (combine la lb)).
    assert (Rup : forall i, In i up -> (i < nb_faces m)%nat) by (intros i Hi; apply positions_lt in Hi; lia).
    assert (Rlow : forall i, In i low -> (i < nb_faces m)%nat) by (intros i Hi; apply positions_lt in Hi; lia).
    assert (Rmid : forall i, In i mid -> (i < nb_faces m)%nat).
    { intros i Hi. apply positions_lt in Hi. rewrite combine_length in Hi. lia. }
    assert (Hcomb : forall i, (i < nb_faces m)%nat -> exists x y, nth_error la i = Some x /\ nth_error lb i = Some y /\ nth_error (combine la lb) i = Some (x, y)).
    { intros i Hi. rewrite <- Lla in Hi. assert (L : length la = length lb) by lia. clear -Hi L. revert lb L i Hi.
      induction la as [|x la IH]; intros [|y lb] L i Hi; try discriminate; [cbn in Hi; lia|]. destruct i as [|i]; [cbn; eauto|].
      cbn in *. apply IH; lia. }
    assert (Dmid : forall i, In i low -> In i mid -> False).
    { intros i Hl Hm. destruct (Hcomb i (Rlow i Hl)) as (x & y & Hx & Hy & Hxy).
      apply positions_nth in Hl. destruct Hl as (y' & Hy' & Ty). apply positions_nth in Hm. destruct Hm as ([x1 y1] & Hm & Tm).
      assert (y = true) by congruence. assert ((x1, y1) = (x, y)) by congruence. inversion H0; subst. cbn in Tm. rewrite orb_true_r in Tm. discriminate. }
    destruct (extract_polygons up Rup) as (mu & uu & qu & Eu & _). rewrite Eu. cbn [bind].
    destruct (extract_polygons mid Rmid) as (mc & uc & qc' & Ec & Pc & Kc & Nc & Dc & Clc & Fc). rewrite Ec. cbn [bind].
    destruct (extract_polygons low Rlow) as (ml & ul & ql & El & Pl & Kl & Nl & _). rewrite El. cbn [bind fst snd].
    assert (Lql : length ql = length low) by (symmetry; apply (proj1 (proj1 (Forall2_nth _ _ _) Kl))).
    assert (Epl1 : map fst (combine ql low) = ql).
    { revert Lql. generalize low. clear. induction ql as [|q l IH]; intros [|i low] L; try discriminate; [reflexivity|]. cbn. rewrite IH; [reflexivity|]. cbn in L. lia. }
    assert (Epl2 : map snd (combine ql low) = low).
    { revert Lql. generalize low. clear. induction ql as [|q l IH]; intros [|i low] L; try discriminate; [reflexivity|]. cbn. rewrite IH; [reflexivity|]. cbn in L. lia. }
    (* the pieces of the faces of the lower part *)
    assert (Low : forall i a b c d, face_is m i a b c d -> In i low -> clips p (a, b, c, d) (pieces_of (combine ql low) i)).
    { intros i a b c d Hf Hi. pose proof (face_polygons _ _ _ _ _ _ _ Pm Hf) as Hq.
      apply In_nth_error in Hi as Hk. destruct Hk as (k & Hk).
      rewrite (pieces_of_combine _ _ k i (a, b, c, d)); auto; [|apply positions_NoDup|rewrite (picks_nth _ _ _ _ _ Kl Hk); exact Hq].
      apply clips_same. intros x Hx. apply positions_nth in Hi. destruct Hi as (v & Hv & ->).
      left. apply side_below; [apply clear_vertex, (Hcor _ _ _ _ _ Hf x Hx)|]. exact (Hlb i _ Hv Hq x Hx). }
    assert (NotLow : forall i, ~ In i low -> pieces_of (combine ql low) i = []).
    { intros i Hi. apply pieces_of_none. intros [g j] Hg. apply in_combine_r in Hg. cbn. congruence. }
    assert (Up : forall i a b c d, face_is m i a b c d -> ~ In i low -> ~ In i mid -> forall x, In x [a; b; c; d] -> 0 <= D x).
    { intros i a b c d Hf Nl0 Nm x Hx. pose proof (face_polygons _ _ _ _ _ _ _ Pm Hf) as Hq.
      assert (Hi : (i < nb_faces m)%nat) by (rewrite <- (polygons_length _ _ Pm); apply nth_error_Some; congruence).
      destruct (Hcomb i Hi) as (u & v & Hu & Hv & Huv).
      assert (u = true).
      { destruct u; [reflexivity|]. destruct v.
        - elim Nl0. apply positions_nth. now exists true.
        - elim Nm. apply positions_nth. now exists (false, false). }
      subst. left. apply side_above; [apply clear_vertex, (Hcor _ _ _ _ _ Hf x Hx)|]. exact (Hla i _ Hu Hq x Hx). }
    destruct (Nat.ltb_spec 0 (nb_faces mc)) as [Pos|Zero].
    - (* some faces cross the plane *)
      rewrite Dc. cbn [bind].
      destruct (clip_faces_good p tol tol_pos (m_vertices mc) Clc (m_faces mc) (length (m_vertices mc)) 0%nat qc' Fc) as (ls & news & Els & Rls & G).
      destruct (G (m_vertices mc ++ news)) as (ps & Lps & Cps & Kps).
      { split; [intros i x Hx; rewrite nth_error_app1; [exact Hx|apply nth_error_Some; congruence]|].
        intros k y Hy. rewrite nth_error_app2 by lia. replace (length (m_vertices mc) + k - length (m_vertices mc))%nat with k by lia. exact Hy. }
      unfold clip_crown. rewrite Els. cbn [bind fst snd].
      assert (Pcr : polygons_of (Mesh (m_vertices mc ++ news) (map fst ls)) (map fst ps)) by exact Cps.
      assert (Bm : build_mesh (m_vertices mc ++ news) (map fst ls) = Ok (Mesh (m_vertices mc ++ news) (map fst ls))).
      { apply build_mesh_ok. split; [reflexivity|]. exact (polygons_valid _ _ Pcr). }
      rewrite Bm. cbn [bind].
      assert (Lm : mapM (fun g : face * nat => get mid (snd g)) ls = Ok (map (fun g => nth (snd g) mid 0%nat) ls)).
      { apply mapM_map. intros g Hg. specialize (Rls g Hg). unfold get.
        rewrite nth_error_nth' with (d := 0%nat); [reflexivity|]. change (length (m_faces mc)) with (nb_faces mc) in Rls. lia. }
      rewrite Lm. cbn [bind fst snd].
      set (cr := Mesh (m_vertices mc ++ news) (map fst ls)) in *.
      set (t := Node Plain [Leaf ml; Leaf cr]).
      assert (Ft : filled t).
      { constructor; [discriminate|]. intros x [<-|[<-|[]]]; constructor. }
      assert (Vt : all_valid t).
      { intros x [<-|[<-|[]]]; [exact (polygons_valid _ _ Pl)|exact (polygons_valid _ _ Pcr)]. }
      assert (Nt : (0 < t_nb_vertices t)%nat).
      { unfold t. cbn. unfold nb_vertices, cr. cbn [m_vertices]. rewrite app_length.
        assert (0 < length (m_vertices mc))%nat; [|lia].
        unfold nb_faces in Pos. destruct (m_faces mc) as [|f0 fs0] eqn:Ef; [cbn in Pos; lia|].
        assert (fa f0 < length (m_vertices mc))%nat; [|lia].
        apply (polygons_valid _ _ Pc f0); [rewrite Ef; now left|cbn; auto]. }
      destruct (merged_spec argsort t Plain [Leaf ml; Leaf cr] Hsort eq_refl Ft Vt Nt) as (w & Ew & Vw & Nw & Fw).
      rewrite Ew. cbn [bind].
      destruct (polygons_exist w Vw) as (qw & Pw).
      set (ps' := map (fun g => (fst g, nth (snd g) mid 0%nat)) ps).
      assert (Rps : forall g, In g ps -> (snd g < length mid)%nat).
      { intros g Hg. assert (H : In (snd g) (map snd ls)) by (rewrite <- Lps; now apply in_map).
        apply in_map_iff in H. destruct H as (g' & E & Hg'). specialize (Rls g' Hg'). change (length (m_faces mc)) with (nb_faces mc) in Rls. lia. }
      assert (Efst : map fst (combine ql low ++ ps') = ql ++ map fst ps).
      { rewrite map_app, Epl1. unfold ps'. now rewrite map_map. }
      assert (Wg : gathers (leaves t) (whole (leaves t))) by (apply whole_gathers; exact Vt).
      destruct (clipped_intro p m (combine ql low ++ ps') w qw) as (m' & Em & Hc).
      + intros g Hg. apply in_app_or in Hg. destruct Hg as [Hg|Hg].
        * destruct g as [g i]. apply in_combine_r in Hg. cbn. now apply Rlow.
        * unfold ps' in Hg. apply in_map_iff in Hg. destruct Hg as (g' & <- & Hg). cbn. apply Rmid. apply nth_In. now apply Rps.
      + intros i a b c d Hf. rewrite pieces_of_app. pose proof (face_polygons _ _ _ _ _ _ _ Pm Hf) as Hq.
        destruct (in_dec Nat.eq_dec i low) as [Il|Il].
        * rewrite (pieces_of_none ps'), app_nil_r; [now apply Low|].
          intros g Hg. unfold ps' in Hg. apply in_map_iff in Hg. destruct Hg as (g' & <- & Hg). cbn.
          intros E. apply (Dmid i Il). rewrite <- E. apply nth_In. now apply Rps.
        * rewrite NotLow by exact Il. cbn [app]. destruct (in_dec Nat.eq_dec i mid) as [Im|Im].
          -- apply In_nth_error in Im. destruct Im as (j & Hj). unfold ps'.
             rewrite (relabel mid ps j i); [|apply positions_NoDup|exact Hj|exact Rps].
             apply (Kps j). rewrite (picks_nth _ _ _ _ _ Kc Hj). exact Hq.
          -- rewrite pieces_of_none.
             ++ apply clips_drop. exact (Up _ _ _ _ _ Hf Il Im).
             ++ intros g Hg. unfold ps' in Hg. apply in_map_iff in Hg. destruct Hg as (g' & <- & Hg). cbn.
                intros E. apply Im. rewrite <- E. apply nth_In. now apply Rps.
      + exact Pw.
      + rewrite Efst. apply Forall2_nth. split.
        * rewrite (polygons_length _ _ Pw), Nw. unfold t. cbn [t_nb_faces map list_sum fold_right].
          rewrite app_length, (polygons_length _ _ Pl), (polygons_length _ _ Pcr). unfold nb_faces. lia.
        * intros i g g' Hg Hg'. destruct g as [[[a b] c] d]. destruct g' as [[[a' b'] c'] d'].
          assert (Hwh : face_is (whole (leaves t)) i a b c d).
          { destruct Wg as (_ & _ & _ & W). destruct (Nat.lt_ge_cases i (length ql)) as [L|L].
            - rewrite nth_error_app1 in Hg by exact L. apply (W 0%nat ml i a b c d eq_refl). exact (polygons_face _ _ _ _ Pl Hg).
            - rewrite nth_error_app2 in Hg by exact L.
              specialize (W 1%nat cr (i - length ql)%nat a b c d eq_refl (polygons_face _ _ _ _ Pcr Hg)).
              replace i with (faces_before (leaves t) 1 + (i - length ql))%nat; [exact W|].
              unfold t. cbn. rewrite (polygons_length _ _ Pl) in *. unfold nb_faces in *. lia. }
          destruct (Fw i a b c d Hwh) as (a2 & b2 & c2 & d2 & H2 & Nr).
          pose proof (face_polygons _ _ _ _ _ _ _ Pw H2) as Hw. assert ((a', b', c', d') = (a2, b2, c2, d2)) by congruence.
          now rewrite H.
      + exists m', (low ++ map (fun g => nth (snd g) mid 0%nat) ls). rewrite Em. cbn [bind]. split; [reflexivity|].
        rewrite map_app, Epl2 in Hc. unfold ps' in Hc. rewrite map_map in Hc. cbn [snd] in Hc.
        replace (map (fun g => nth (snd g) mid 0%nat) ls) with (map (fun x : polygon * nat => nth (snd x) mid 0%nat) ps); [exact Hc|].
        rewrite <- (map_map snd (fun i => nth i mid 0%nat) ps), Lps. now rewrite map_map.
    - (* no face crosses the plane *)
      assert (Hmid : mid = []) by (destruct mid; [reflexivity|cbn in Nc; lia]).
      destruct (clipped_intro p m (combine ql low) ml ql) as (m' & Em & Hc).
      + intros [g i] Hg. apply in_combine_r in Hg. cbn. now apply Rlow.
      + intros i a b c d Hf. destruct (in_dec Nat.eq_dec i low) as [Il|Il]; [now apply Low|].
        rewrite NotLow by exact Il. apply clips_drop. apply (Up _ _ _ _ _ Hf Il). rewrite Hmid. intros [].
      + exact Pl.
      + rewrite Epl1. clear. induction ql; constructor; auto using near_polygon_refl.
      + exists m', low. rewrite Em. cbn [bind]. split; [reflexivity|]. now rewrite Epl2 in Hc.
  Qed.
End Mesh.
