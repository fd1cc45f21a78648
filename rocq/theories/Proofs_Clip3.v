(** Clipping the faces of the crown. *)
From Coq Require Import Reals List Bool ZArith Arith Lra Lia.
From Verif Require Import Model_Base Model_Geometry Model_Mesh Spec_Mesh Spec_Clip Proofs_Geometry Proofs_Mesh Model_Clip
  Proofs_Clip Proofs_Clip2.
Import ListNotations.
Open Scope R_scope.

Lemma corners_cons vs i j k l fs a b c d gs : nth_error vs i = Some a -> nth_error vs j = Some b -> nth_error vs k = Some c ->
  nth_error vs l = Some d -> Forall2 (corners_at vs) fs gs -> Forall2 (corners_at vs) (F i j k l :: fs) ((a, b, c, d) :: gs).
Proof. intros. constructor; [|assumption]. now repeat split. Qed.

Section Face.
  Variable p : plane.
  Variable tol : R.
  Hypothesis tol_pos : 0 < tol.
  Notation D := (height p).
  Definition clear_of (x : vec) : Prop := D x = 0 \/ tol < Rabs (D x).

  Lemma side_cases x : clear_of x ->
    (side_of tol (distance_to_point p x) = Above /\ 0 < D x) \/ (side_of tol (distance_to_point p x) = On /\ D x = 0)
    \/ (side_of tol (distance_to_point p x) = Below /\ D x < 0).
  Proof.
    rewrite height_distance. unfold side_of. intros [Z|Z].
    - right. left. split; [|exact Z]. rewrite Z. rewrite (proj2 (Rltb_false tol 0)) by lra.
      rewrite (proj2 (Rltb_true (Rabs 0) tol)); [reflexivity|]. rewrite Rabs_R0. exact tol_pos.
    - destruct (Rle_lt_dec 0 (D x)) as [P|P].
      + left. rewrite Rabs_right in Z by lra. rewrite (proj2 (Rltb_true tol (D x))) by lra. split; [reflexivity|lra].
      + right. right. split; [|exact P]. rewrite (proj2 (Rltb_false tol (D x))) by lra.
        rewrite (proj2 (Rltb_false (Rabs (D x)) tol)) by lra.
        rewrite Rabs_left in Z by lra. now rewrite (proj2 (Rltb_true (D x) (- tol))) by lra.
  Qed.

  Lemma crossing_ok vs i j a b : nth_error vs i = Some a -> nth_error vs j = Some b ->
    (0 < D a /\ D b < 0) \/ (D a < 0 /\ 0 < D b) -> crossing p vs i j = Ok (cut p a b).
  Proof.
    intros Hi Hj Hab. unfold crossing, get. rewrite Hi, Hj. cbn [bind]. unfold edge_intersection.
    assert (Ea : dot a (pl_normal p) = D a + pl_s p) by (unfold height, pl_s, dot, vsub; cbn; ring).
    assert (Eb : dot b (pl_normal p) = D b + pl_s p) by (unfold height, pl_s, dot, vsub; cbn; ring).
    rewrite Ea, Eb. destruct (Req_EM_T (D a + pl_s p) (D b + pl_s p)) as [E|E]; [lra|].
    replace (D a + pl_s p - pl_s p) with (D a) by ring. replace (D a + pl_s p - (D b + pl_s p)) with (D a - D b) by ring.
    destruct (cut_crosses p a b Hab) as (t & Ht & _ & Et).
    assert (Et' : D a / (D a - D b) = t).
    { apply (Rmult_eq_reg_r (D a - D b)); [|lra]. unfold Rdiv. rewrite Rmult_assoc, Rinv_l by lra. lra. }
    rewrite Et'. rewrite (proj2 (Rltb_false t 0)) by lra. rewrite (proj2 (Rltb_false 1 t)) by lra. cbn [orb bind].
    unfold cut. now rewrite Et'.
  Qed.
  Lemma lower_ok vs i a : nth_error vs i = Some a -> lower (map (distance_to_point p) vs) i = Ok (Rltb (D a) 0).
  Proof.
    intros H. unfold lower, get. rewrite nth_error_map, H. cbn. now rewrite height_distance.
  Qed.

  Section Old.
    Variable vs : list vec.
    Variable n : nat.
    (** The vertices of the new mesh: the old ones, and the new ones from the number [n]. *)
    Definition extends (news vs' : list vec) : Prop :=
      (forall i x, nth_error vs i = Some x -> nth_error vs' i = Some x)
      /\ (forall k y, nth_error news k = Some y -> nth_error vs' (n + k) = Some y).
    Definition good_face (q : polygon) (r : result (list face * list vec)) : Prop :=
      exists fs news, r = Ok (fs, news) /\ forall vs', extends news vs' ->
        exists gs, Forall2 (corners_at vs') fs gs /\ clips p q gs.
    Lemma good_intro q fs news gs : (forall vs', extends news vs' -> Forall2 (corners_at vs') fs gs) -> clips p q gs ->
      good_face q (Ok (fs, news)).
    Proof. intros H C. exists fs, news. split; [reflexivity|]. intros vs' E. exists gs. split; [now apply H|exact C]. Qed.

    Ltac known := match goal with
      | E : extends _ _ |- nth_error _ n = Some _ => rewrite <- (Nat.add_0_r n) at 1; apply (proj2 E); reflexivity
      | E : extends _ _ |- nth_error _ (n + 1) = Some _ => apply (proj2 E); reflexivity
      | E : extends _ _ |- nth_error _ _ = Some _ => apply (proj1 E); eassumption
      end.
    Ltac made := intros vs' Ext; repeat (apply corners_cons; [known|known|known|known|]); apply Forall2_nil.
    Ltac cross_tac := first [apply cut_crosses; solve [left; split; assumption|right; split; assumption]
                            |apply cut_crosses'; solve [left; split; assumption|right; split; assumption]
                            |apply crosses_on; assumption].
    Ltac corner_signs := cbn [polygon_corners]; intros ? I; cbn [In] in I;
      repeat (destruct I as [<-|I]; [lra|]); destruct I.
    Ltac posl := first [assumption|lra|left; assumption|right; assumption|right; left; assumption|right; right; assumption].
    Ltac piece_tri := first
      [ apply tri_piece_below; [lra|lra|lra|posl|cross_tac|cross_tac]
      | apply tri_piece_above; [lra|lra|lra|cross_tac|cross_tac] ].
    Ltac piece_quad Hq := first
      [ apply quad_piece_below; [Hq|lra|lra|lra|lra|posl|cross_tac|cross_tac]
      | apply quad_piece_two; [Hq|lra|lra|lra|lra|posl|cross_tac|cross_tac]
      | apply quad_piece_above; [Hq|lra|lra|lra|lra|cross_tac|cross_tac] ].
    Ltac keep := first [apply clips_same; corner_signs | apply clips_drop; corner_signs].
    Ltac convex_tac := first [assumption|apply diagonals_roll; assumption|apply diagonals_roll, diagonals_roll; assumption
                             |apply diagonals_roll, diagonals_roll, diagonals_roll; assumption].
    Ltac tri_done := first [keep|piece_tri|apply clips_roll3; first [keep|piece_tri]|apply clips_roll3, clips_roll3; first [keep|piece_tri]].
    Ltac quad_done := first [keep|piece_quad ltac:(convex_tac)|apply clips_roll; first [keep|piece_quad ltac:(convex_tac)]
      |apply clips_roll, clips_roll; first [keep|piece_quad ltac:(convex_tac)]
      |apply clips_roll, clips_roll, clips_roll; first [keep|piece_quad ltac:(convex_tac)]].
    Ltac reduce_face := cbn [map count filter is_above is_on is_below length rolled first_of second_of adjacent_firsts
      positions combine seq fst snd nth skipn firstn app Nat.add Nat.eqb].
    Ltac solve_crossings := repeat match goal with
      | |- context [lower _ ?i] => erewrite (lower_ok vs i) by eassumption; cbn [bind];
          first [rewrite (proj2 (Rltb_true _ 0)) by lra|rewrite (proj2 (Rltb_false _ 0)) by lra]
      | |- context [crossing p vs ?i ?j] => erewrite (crossing_ok vs i j);
          [|eassumption|eassumption|solve [left; split; assumption|right; split; assumption]]; cbn [bind]
      end.

    Lemma clip_triangle i1 i2 i3 a b c :
      nth_error vs i1 = Some a -> nth_error vs i2 = Some b -> nth_error vs i3 = Some c ->
      clear_of a -> clear_of b -> clear_of c ->
      good_face (a, b, c, a) (clip_face p vs (map (distance_to_point p) vs) tol n [i1; i2; i3]).
    Proof.
      intros H1 H2 H3 Ca Cb Cc. unfold clip_face.
      assert (E : mapM (get (map (distance_to_point p) vs)) [i1; i2; i3] =
                  Ok [distance_to_point p a; distance_to_point p b; distance_to_point p c]).
      { cbn [mapM]. unfold get. rewrite !nth_error_map, H1, H2, H3. reflexivity. }
      rewrite E. cbn [bind map].
      destruct (side_cases a Ca) as [[Ea Sa]|[[Ea Sa]|[Ea Sa]]]; destruct (side_cases b Cb) as [[Eb Sb]|[[Eb Sb]|[Eb Sb]]];
        destruct (side_cases c Cc) as [[Ec Sc]|[[Ec Sc]|[Ec Sc]]]; rewrite Ea, Eb, Ec; clear E Ea Eb Ec;
        reduce_face; solve_crossings; (eapply good_intro; [made|tri_done]).
    Qed.

    Ltac impossible Hq := exfalso; destruct (diagonals_D p _ _ _ _ Hq) as (s & t & Hs & Ht & Eq);
      repeat match goal with
      | S : 0 < D ?x |- _ =>
        assert (0 < (1 - s) * D x) by (apply Rmult_lt_0_compat; lra); assert (0 < s * D x) by (apply Rmult_lt_0_compat; lra);
        assert (0 < (1 - t) * D x) by (apply Rmult_lt_0_compat; lra); assert (0 < t * D x) by (apply Rmult_lt_0_compat; lra); clear S
      | S : D ?x < 0 |- _ =>
        assert (0 < (1 - s) * - D x) by (apply Rmult_lt_0_compat; lra); assert (0 < s * - D x) by (apply Rmult_lt_0_compat; lra);
        assert (0 < (1 - t) * - D x) by (apply Rmult_lt_0_compat; lra); assert (0 < t * - D x) by (apply Rmult_lt_0_compat; lra); clear S
      | S : D ?x = 0 |- _ => rewrite S in *; clear S
      end; lra.

    Lemma clip_quadrangle i1 i2 i3 i4 a b c d :
      nth_error vs i1 = Some a -> nth_error vs i2 = Some b -> nth_error vs i3 = Some c -> nth_error vs i4 = Some d ->
      clear_of a -> clear_of b -> clear_of c -> clear_of d -> diagonals_meet (a, b, c, d) ->
      good_face (a, b, c, d) (clip_face p vs (map (distance_to_point p) vs) tol n [i1; i2; i3; i4]).
    Proof.
      intros H1 H2 H3 H4 Ca Cb Cc Cd Hq. unfold clip_face.
      assert (E : mapM (get (map (distance_to_point p) vs)) [i1; i2; i3; i4] =
                  Ok [distance_to_point p a; distance_to_point p b; distance_to_point p c; distance_to_point p d]).
      { cbn [mapM]. unfold get. rewrite !nth_error_map, H1, H2, H3, H4. reflexivity. }
      rewrite E. cbn [bind map].
      destruct (side_cases a Ca) as [[Ea Sa]|[[Ea Sa]|[Ea Sa]]]; destruct (side_cases b Cb) as [[Eb Sb]|[[Eb Sb]|[Eb Sb]]];
        destruct (side_cases c Cc) as [[Ec Sc]|[[Ec Sc]|[Ec Sc]]]; destruct (side_cases d Cd) as [[Ed Sd]|[[Ed Sd]|[Ed Sd]]];
        rewrite Ea, Eb, Ec, Ed; clear E Ea Eb Ec Ed Ca Cb Cc Cd;
        first [solve [impossible Hq] | (reduce_face; solve_crossings; (eapply good_intro; [made|quad_done]))].
    Qed.
  End Old.
End Face.
