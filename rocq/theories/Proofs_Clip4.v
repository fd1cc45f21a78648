(** Clipping a mesh. *)
From Coq Require Import Reals List Bool ZArith Arith Lra Lia.
From Verif Require Import Model_Base Model_Geometry Model_Mesh Spec_Mesh Model_Quality Spec_Quality Model_Tree Spec_Tree Spec_Clip
  Proofs_Geometry Proofs_Mesh Proofs_Mesh2 Proofs_Mesh3 Proofs_Tree Proofs_Tree2 Model_Clip Proofs_Clip Proofs_Clip2 Proofs_Clip3.
Import ListNotations.
Open Scope R_scope.

Lemma pieces_of_app ps ps' i : pieces_of (ps ++ ps') i = pieces_of ps i ++ pieces_of ps' i.
Proof. unfold pieces_of. now rewrite filter_app, map_app. Qed.
Lemma pieces_of_none ps i : (forall g, In g ps -> snd g <> i) -> pieces_of ps i = [].
Proof.
  intros H. unfold pieces_of. induction ps as [|g ps IH]; [reflexivity|]. cbn [filter].
  rewrite (proj2 (Nat.eqb_neq (snd g) i)) by (apply H; now left). apply IH. intros; apply H; now right.
Qed.
Lemma pieces_of_same gs k : pieces_of (map (fun g => (g, k)) gs) k = gs.
Proof.
  unfold pieces_of. induction gs as [|g gs IH]; [reflexivity|]. cbn [map filter snd].
  rewrite Nat.eqb_refl. cbn [map fst]. now rewrite IH.
Qed.
Lemma Forall2_nth {A B} (P : A -> B -> Prop) l l' : Forall2 P l l' <->
  length l = length l' /\ forall i a b, nth_error l i = Some a -> nth_error l' i = Some b -> P a b.
Proof.
  split.
  - induction 1 as [|a b l l' H F [IH1 IH2]]; [split; [reflexivity|]; intros [|i]; discriminate|].
    split; [cbn; lia|]. intros [|i] x y; cbn; [congruence|]. apply IH2.
  - revert l'. induction l as [|a l IH]; intros [|b l'] [L H]; try discriminate; constructor.
    + apply (H 0%nat); reflexivity.
    + apply IH. split; [cbn in L; lia|]. intros i. apply (H (S i)).
Qed.
Lemma Forall2_nth_l {A B} (P : A -> B -> Prop) l l' i a : Forall2 P l l' -> nth_error l i = Some a ->
  exists b, nth_error l' i = Some b /\ P a b.
Proof.
  intros F Ha. apply Forall2_nth in F. destruct F as [L H].
  assert (i < length l)%nat by (apply nth_error_Some; congruence).
  destruct (nth_error l' i) as [b|] eqn:E; [|apply nth_error_None in E; lia]. exists b. split; [reflexivity|]. now apply (H i).
Qed.
Lemma Forall2_nth_r {A B} (P : A -> B -> Prop) l l' i b : Forall2 P l l' -> nth_error l' i = Some b ->
  exists a, nth_error l i = Some a /\ P a b.
Proof.
  intros F Ha. apply Forall2_nth in F. destruct F as [L H].
  assert (i < length l')%nat by (apply nth_error_Some; congruence).
  destruct (nth_error l i) as [b'|] eqn:E; [|apply nth_error_None in E; lia]. exists b'. split; [reflexivity|]. now apply (H i).
Qed.

(** ** The loop on the faces of the crown *)
Section Loop.
  Variable p : plane.
  Variable tol : R.
  Hypothesis tol_pos : 0 < tol.
  Notation D := (height p).
  Variable vs : list vec.
  Hypothesis clear : forall x, In x vs -> clear_of p tol x.

  Lemma clip_one_face n f q : corners_at vs f q -> fa f = fd f \/ diagonals_meet q ->
    good_face p vs n q (clip_face p vs (map (distance_to_point p) vs) tol n (if is_tri f then [fa f; fb f; fc f] else face_ids f)).
  Proof.
    destruct q as [[[a b] c] d]. intros (A & B & C & E) H. unfold is_tri.
    pose proof (clear a (nth_error_In _ _ A)). pose proof (clear b (nth_error_In _ _ B)).
    pose proof (clear c (nth_error_In _ _ C)). pose proof (clear d (nth_error_In _ _ E)).
    destruct (Nat.eqb_spec (fa f) (fd f)) as [T|T].
    - assert (d = a) by congruence. subst d. now apply clip_triangle.
    - destruct H as [H|H]; [contradiction|]. now apply clip_quadrangle.
  Qed.

  Lemma clip_faces_good fs : forall n k qs, Forall2 (fun f q => corners_at vs f q /\ (fa f = fd f \/ diagonals_meet q)) fs qs ->
    exists ls news, clip_faces p vs (map (distance_to_point p) vs) tol n k fs = Ok (ls, news)
      /\ (forall g, In g ls -> (k <= snd g < k + length fs)%nat)
      /\ forall vs', extends vs n news vs' ->
        exists ps, map snd ps = map snd ls /\ Forall2 (corners_at vs') (map fst ls) (map fst ps)
          /\ forall j q, nth_error qs j = Some q -> clips p q (pieces_of ps (k + j)).
  Proof.
    induction fs as [|f fs IH]; intros n k qs F; inversion F as [|? q ? qs' [Hc Hq] F']; subst; clear F.
    - exists [], []. split; [reflexivity|]. split; [intros g []|]. intros vs' _. exists []. split; [reflexivity|]. split; [constructor|].
      intros [|j]; discriminate.
    - destruct (clip_one_face n f q Hc Hq) as (fs1 & news1 & E1 & G1).
      destruct (IH (n + length news1)%nat (S k) qs' F') as (ls & news & E2 & R2 & G2).
      cbn [clip_faces]. rewrite E1. cbn [bind fst snd]. rewrite E2. cbn [bind fst snd].
      eexists. eexists. split; [reflexivity|]. split.
      + intros g Hg. apply in_app_or in Hg. cbn [length]. destruct Hg as [Hg|Hg].
        * apply in_map_iff in Hg. destruct Hg as (x & <- & _). cbn. lia.
        * specialize (R2 g Hg). lia.
      + intros vs' [X1 X2].
        destruct (G1 vs') as (gs & C1 & K1).
        { split; [exact X1|]. intros i y Hy. apply X2. rewrite nth_error_app1; [exact Hy|]. apply nth_error_Some. congruence. }
        destruct (G2 vs') as (ps & L2 & C2 & K2).
        { split; [exact X1|]. intros i y Hy. rewrite <- Nat.add_assoc. apply X2.
          rewrite nth_error_app2 by lia. replace (length news1 + i - length news1)%nat with i by lia. exact Hy. }
        assert (L1 : length gs = length fs1) by (apply Forall2_nth in C1; lia).
        exists (map (fun g => (g, k)) gs ++ ps). split; [|split].
        * rewrite !map_app, !map_map, L2. cbn [snd]. f_equal.
          clear -L1. revert fs1 L1. induction gs as [|g gs IH]; intros [|f fs1] L; try discriminate; [reflexivity|].
          cbn. f_equal. apply IH. cbn in L. lia.
        * rewrite !map_app, !map_map. cbn [fst]. rewrite !map_id. now apply Forall2_app.
        * assert (R : forall g, In g ps -> (S k <= snd g)%nat).
          { intros g Hg. assert (In (snd g) (map snd ls)) by (rewrite <- L2; now apply in_map).
            apply in_map_iff in H. destruct H as (g' & E & Hg'). specialize (R2 g' Hg'). lia. }
          intros [|j] q0; cbn [nth_error].
          -- intros [= <-]. rewrite Nat.add_0_r, pieces_of_app, pieces_of_same, (pieces_of_none ps), app_nil_r; [exact K1|].
             intros g Hg. specialize (R g Hg). lia.
          -- intros Hj. rewrite pieces_of_app, (pieces_of_none (map _ gs)).
             ++ replace (k + S j)%nat with (S k + j)%nat by lia. now apply K2.
             ++ intros g Hg. apply in_map_iff in Hg. destruct Hg as (x & <- & _). cbn. lia.
  Qed.
End Loop.

(** ** Labels *)
Lemma relabel ids ps j i : NoDup ids -> nth_error ids j = Some i -> (forall g, In g ps -> (snd g < length ids)%nat) ->
  pieces_of (map (fun g => (fst g, nth (snd g) ids 0%nat)) ps) i = pieces_of ps j.
Proof.
  intros Nd Hj Hr. unfold pieces_of. induction ps as [|g ps IH]; [reflexivity|]. cbn [map filter fst snd].
  assert (E : Nat.eqb (nth (snd g) ids 0%nat) i = Nat.eqb (snd g) j).
  { specialize (Hr g (or_introl eq_refl)). destruct (Nat.eqb_spec (snd g) j) as [->|N].
    - rewrite (nth_error_nth _ _ _ Hj). apply Nat.eqb_refl.
    - apply Nat.eqb_neq. intros E. apply N. apply (NoDup_nth ids 0%nat); auto.
      + apply nth_error_Some. congruence.
      + now rewrite (nth_error_nth _ _ _ Hj). }
  rewrite E. specialize (IH (fun g Hg => Hr g (or_intror Hg))). destruct (Nat.eqb (snd g) j); cbn [map fst]; [f_equal|]; exact IH.
Qed.
Lemma pieces_of_combine : forall ids (qs : list polygon) j i q, NoDup ids -> length qs = length ids -> nth_error ids j = Some i -> nth_error qs j = Some q ->
  pieces_of (combine qs ids) i = [q].
Proof.
  induction ids as [|x ids IH]; intros [|q0 qs] [|j] i q Nd L Hi Hq; try discriminate; inversion Nd; subst.
  - injection Hi as ->. injection Hq as ->. unfold pieces_of. cbn [combine filter snd]. rewrite Nat.eqb_refl. cbn [map fst]. f_equal.
    apply pieces_of_none. intros [g l] Hg. apply in_combine_r in Hg. cbn. congruence.
  - cbn in Hi, Hq. unfold pieces_of. cbn [combine filter snd].
    rewrite (proj2 (Nat.eqb_neq x i)) by (intros ->; apply nth_error_In in Hi; contradiction).
    apply (IH qs j i q); auto. 
Qed.
