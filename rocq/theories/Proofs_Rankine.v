(** Proofs about the Rankine source: isometries. *)
From Coq Require Import Reals.
From Coquelicot Require Import Complex.
From Coq Require Import List Bool Lra Lia.
From Verif Require Import Model_Base Model_Geometry Model_Mesh Spec_Mesh Proofs_Geometry Proofs_Mesh Proofs_Mesh2 Proofs_Mesh3 Proofs_Integrals Model_Rankine.
Import ListNotations.
Open Scope R_scope.

(** A map of the points with a linear part, that keeps or reverses the orientation. *)
Record isometry (pt dir : vec -> vec) (keeps : bool) : Prop := {
  iso_sub : forall x y, vsub (pt x) (pt y) = dir (vsub x y);
  iso_add : forall u v, dir (vadd u v) = vadd (dir u) (dir v);
  iso_scale : forall k u, dir (vscale k u) = vscale k (dir u);
  iso_dot : forall u v, dot (dir u) (dir v) = dot u v;
  iso_cross : forall u v, cross (dir u) (dir v) = (if keeps then dir (cross u v) else vscale (-1) (dir (cross u v))) }.

Definition image_quad (pt : vec -> vec) (keeps : bool) (q : quad) : quad :=
  if keeps then Q (pt (qa q)) (pt (qb q)) (pt (qc q)) (pt (qd q)) else Q (pt (qd q)) (pt (qc q)) (pt (qb q)) (pt (qa q)).

Section Motion.
  Variables (pt dir : vec -> vec) (keeps : bool).
  Hypothesis H : isometry pt dir keeps.

  Lemma dir_norm u : norm (dir u) = norm u.
  Proof. apply norm_eq, (iso_dot _ _ _ H). Qed.
  Lemma dir_sub u v : dir (vsub u v) = vsub (dir u) (dir v).
  Proof.
    replace (vsub u v) with (vadd u (vscale (-1) v)) by vring'. rewrite (iso_add _ _ _ H), (iso_scale _ _ _ H). vring'.
  Qed.
  Lemma dir_v0 : dir v0 = v0.
  Proof. replace v0 with (vscale 0 v0) at 1 by vring'. rewrite (iso_scale _ _ _ H). vring'. Qed.
  Lemma dir_vsum l : vsum (map dir l) = dir (vsum l).
  Proof.
    induction l as [|x l IH]; [symmetry; exact dir_v0|]. cbn [map].
    change (vadd (dir x) (vsum (map dir l)) = dir (vadd x (vsum l))). now rewrite IH, (iso_add _ _ _ H).
  Qed.

  Section Face.
    Variables (M c n : vec) (rad : R).
    Notation M' := (pt M). Notation c' := (pt c). Notation n' := (dir n).
    Lemma GZ_moved : GZ M' c' n' = GZ M c n.
    Proof. unfold GZ. now rewrite (iso_sub _ _ _ H), (iso_dot _ _ _ H). Qed.
    Lemma RR_moved a : RR M' (pt a) = RR M a.
    Proof. unfold RR. now rewrite (iso_sub _ _ _ H), dir_norm. Qed.
    Lemma DRX_moved a : DRX M' (pt a) = dir (DRX M a).
    Proof. unfold DRX. now rewrite RR_moved, (iso_sub _ _ _ H), (iso_scale _ _ _ H). Qed.
    Lemma DK_moved a b : DK (pt a) (pt b) = DK a b.
    Proof. unfold DK. now rewrite (iso_sub _ _ _ H), dir_norm. Qed.
    Lemma DK_comm a b : DK a b = DK b a.
    Proof. unfold DK. apply norm_eq. vring'. Qed.
    Lemma GYX_swap a b : GYX n b a = vscale (-1) (GYX n a b).
    Proof. unfold GYX, PJ. rewrite (DK_comm b a). generalize (/ DK a b). intros k. vring'. Qed.
    Lemma GYX_moved a b : GYX n' (pt a) (pt b) = if keeps then dir (GYX n a b) else vscale (-1) (dir (GYX n a b)).
    Proof.
      unfold GYX, PJ. rewrite DK_moved, (iso_sub _ _ _ H), <- (iso_scale _ _ _ H), (iso_cross _ _ _ H). reflexivity.
    Qed.
    (** The image of a side is listed in the same direction or in the other. *)
    Definition image_side (ab : vec * vec) : vec * vec := if keeps then (pt (fst ab), pt (snd ab)) else (pt (snd ab), pt (fst ab)).
    Lemma GY_swap a b : dot (vsub M b) (GYX n a b) = GY M n a b.
    Proof.
      unfold GY, GYX, PJ. generalize (/ DK a b). intros k. vring'.
    Qed.
    Lemma side_image a b : side M' c' n' rad (image_side (a, b)) = (fst (side M c n rad (a, b)), dir (snd (side M c n rad (a, b)))).
    Proof.
      set (a' := fst (image_side (a, b))). set (b' := snd (image_side (a, b))).
      replace (image_side (a, b)) with (a', b') by (unfold a', b'; now destruct (image_side (a, b))).
      assert (Ea : a' = if keeps then pt a else pt b) by (unfold a', image_side; now case keeps).
      assert (Eb : b' = if keeps then pt b else pt a) by (unfold b', image_side; now case keeps).
      assert (EK : DK a' b' = DK a b) by (rewrite Ea, Eb; case keeps; rewrite DK_moved; [reflexivity|apply DK_comm]).
      assert (ER : RR M' b' + RR M' a' = RR M b + RR M a) by (rewrite Ea, Eb; case keeps; rewrite !RR_moved; ring).
      assert (EX : GYX n' a' b' = dir (GYX n a b)).
      { rewrite Ea, Eb. pose proof (GYX_moved a b) as G1. pose proof (GYX_moved b a) as G2. revert G1 G2; case keeps; intros G1 G2; [exact G1|].
        rewrite G2, GYX_swap, (iso_scale _ _ _ H). generalize (dir (GYX n a b)). intros u. vring'. }
      assert (EY : GY M' n' a' b' = GY M n a b).
      { unfold GY at 1. rewrite EX, Ea. case keeps; rewrite (iso_sub _ _ _ H), (iso_dot _ _ _ H); [reflexivity|apply GY_swap]. }
      assert (EL : ANLX M' a' b' = dir (ANLX M a b)).
      { unfold ANLX. rewrite Ea, Eb, (iso_add _ _ _ H). case keeps; rewrite !DRX_moved; [reflexivity|vring']. }
      assert (EZ := GZ_moved).
      assert (E1 : ANT M' n' a' b' = ANT M n a b) by (unfold ANT; now rewrite EY, EK).
      assert (E2 : DNT M' c' n' a' b' = DNT M c n a b) by (unfold DNT; now rewrite ER, EK, EZ).
      assert (E3 : ANL M' a' b' = ANL M a b) by (unfold ANL; now rewrite ER, EK).
      assert (E4 : DNL M' a' b' = DNL M a b) by (unfold DNL; now rewrite ER, EK).
      assert (E5 : ALDEN M' a' b' = ALDEN M a b) by (unfold ALDEN; now rewrite E3, E4).
      assert (E6 : AT M' c' n' rad a' b' = AT M c n rad a b) by (unfold AT; now rewrite EZ, E1, E2).
      assert (E7 : ANTX n' a' b' = dir (ANTX n a b)) by (unfold ANTX; now rewrite EK, EX, (iso_scale _ _ _ H)).
      assert (E8 : DNTX M' c' n' a' b' = dir (DNTX M c n a b)).
      { unfold DNTX. rewrite EL, EZ, ER, (iso_add _ _ _ H), !(iso_scale _ _ _ H). reflexivity. }
      unfold side. rewrite EK. destruct (Rleb (/ 1000 * rad) (DK a b)); cbn [fst snd]; [|now rewrite dir_v0].
      f_equal.
      - unfold side_G. now rewrite EY, E5, E6, EZ.
      - unfold side_nabla. rewrite E5, EX, EZ, E6, EY, E4, E3, EL, E1, E2, E7, E8.
        repeat (rewrite dir_sub || rewrite (iso_add _ _ _ H) || rewrite (iso_scale _ _ _ H)). reflexivity.
    Qed.
    Lemma sum_sides_image q : sum_sides M' c' n' rad (image_quad pt keeps q) = (fst (sum_sides M c n rad q), dir (snd (sum_sides M c n rad q))).
    Proof.
      pose proof (side_image (qa q) (qb q)) as S1. pose proof (side_image (qb q) (qc q)) as S2.
      pose proof (side_image (qc q) (qd q)) as S3. pose proof (side_image (qd q) (qa q)) as S4.
      unfold sum_sides, sides, image_quad. unfold image_side in S1, S2, S3, S4. cbn [fst snd] in S1, S2, S3, S4 |- *.
      rewrite <- dir_vsum. revert S1 S2 S3 S4. case keeps; intros S1 S2 S3 S4; cbn [qa qb qc qd map]; rewrite S1, S2, S3, S4; cbn [fst snd]; [reflexivity|].
      f_equal; unfold Rsum, vsum; cbn [fold_right]; [ring|vring'].
    Qed.
  End Face.

  Definition moved_value (v : R * vec) : R * vec := (fst v, dir (snd v)).
  Lemma oriented_moved b v : oriented b (moved_value v) = moved_value (oriented b v).
  Proof. destruct b; [reflexivity|]. unfold oriented, moved_value. cbn [fst snd]. now rewrite (iso_scale _ _ _ H). Qed.

  Variables (f f' : fprops).
  Hypothesis Hf : moved pt dir f f'.
  Lemma exact_moved b M q : exact_rankine b (pt M) (image_quad pt keeps q) f' = moved_value (exact_rankine b M q f).
  Proof.
    destruct Hf as (E1 & E2 & E3 & E4). unfold exact_rankine. rewrite E2, E3, E4, sum_sides_image. apply (oriented_moved b).
  Qed.
  Lemma one_point_moved b M : one_point_rankine b (pt M) f' = moved_value (one_point_rankine b M f).
  Proof.
    destruct Hf as (E1 & E2 & E3 & E4). unfold one_point_rankine. rewrite E1, E3, (iso_sub _ _ _ H), dir_norm, <- oriented_moved. f_equal.
    destruct (Rltb _ _); unfold moved_value; cbn [fst snd]; [now rewrite (iso_scale _ _ _ H)|now rewrite dir_v0].
  Qed.
  Lemma rankine_moved b M q : rankine b (pt M) (image_quad pt keeps q) f' = moved_value (rankine b M q f).
  Proof.
    unfold rankine. rewrite exact_moved, one_point_moved. destruct Hf as (E1 & E2 & E3 & E4). rewrite E3, E4, (iso_sub _ _ _ H), dir_norm.
    now destruct (Rltb _ _).
  Qed.
End Motion.
