(** Slices of meshes and collections. *)
From Coq Require Import Reals String Ascii List Bool ZArith Arith Lra Lia Permutation.
From Verif Require Import Model_Base Model_Geometry Model_Mesh Model_Quality Spec_Mesh Model_Tree Spec_Tree Spec_Clip Spec_Quality Proofs_Geometry Proofs_Mesh Proofs_Mesh2 Proofs_Mesh3
  Proofs_Tree Proofs_Clip5 Spec_Integrals Proofs_Integrals Model_Body Spec_Body Proofs_Body Proofs_Body2 Spec_Slice Proofs_Clip4.
Import ListNotations.
Open Scope R_scope.

(** ** Parts of tidy meshes are tidy *)
Lemma extract_used m ids m' : extract m ids = Ok m' -> exists used, extract_faces m (map Z.of_nat ids) = Ok (m', used) /\ NoDup used.
Proof.
  unfold extract. destruct (extract_faces m (map Z.of_nat ids)) as [[m1 used]|] eqn:E; [|discriminate]. cbn [bind fst]. intros H. injection H as <-.
  exists used. split; [reflexivity|]. unfold extract_faces in E. destruct (mapM (geti (m_faces m)) (map Z.of_nat ids)) as [fs|]; [|discriminate E]. cbn [bind] in E.
  destruct (mapM _ (used_vertices _ _)) as [vs|]; [|discriminate E]. cbn [bind] in E. destruct (build_mesh _ _) as [m2|]; [|discriminate E]. cbn [bind] in E.
  assert (used = used_vertices (nb_vertices m) fs) as -> by congruence. unfold used_vertices. apply NoDup_filter, seq_NoDup.
Qed.
Lemma extract_tidy m ids : tidy m -> ids <> [] -> (forall i, In i ids -> (i < nb_faces m)%nat) ->
  exists m', extract m ids = Ok m' /\ tidy m' /\ selects m ids m'.
Proof.
  intros (Vm & Um & Fm & Sm & Tm & A & Am) Ni Hi. destruct (extract_selects m ids Vm Hi) as (m' & E & Sel). exists m'. split; [exact E|]. split; [|exact Sel].
  destruct (extract_used _ _ _ E) as (used & Eu & Nu).
  destruct (extract_faces_spec m (map Z.of_nat ids) Vm) as (m1 & used1 & E1 & V1 & U1 & N1 & G1 & _ & Lu & Uv).
  { intros z Hz. apply in_map_iff in Hz. destruct Hz as (i & <- & H). exists i. split; [now apply Hi|now left]. }
  assert (m1 = m' /\ used1 = used) as [-> ->] by (rewrite E1 in Eu; injection Eu as -> ->; auto). clear E1.
  rewrite map_length in N1.
  assert (Sp : spread (m_vertices m')).
  { intros i j u v Hu Hv Nr.
    assert (K : forall i u, nth_error (m_vertices m') i = Some u -> exists a, nth_error used i = Some a /\ nth_error (m_vertices m) a = Some u).
    { intros i0 u0 H0. assert (L : (i0 < length used)%nat) by (rewrite Lu; unfold nb_vertices; apply nth_error_Some; congruence). apply nth_error_Some in L.
      destruct (nth_error used i0) as [a|] eqn:Ea; [|contradiction]. exists a. split; [reflexivity|]. now rewrite <- (Uv i0 a Ea). }
    destruct (K i u Hu) as (a & Ea & Ha). destruct (K j v Hv) as (b & Eb & Hb). pose proof (Sm a b u v Ha Hb Nr) as ->.
    assert (Li : (i < length used)%nat) by (apply nth_error_Some; congruence). apply (proj1 (NoDup_nth_error used) Nu i j Li). congruence. }
  assert (Back : forall k f', nth_error (m_faces m') k = Some f' -> exists i f a b c d, nth_error ids k = Some i /\ nth_error (m_faces m) i = Some f
     /\ face_is m i a b c d /\ corners_at (m_vertices m) f (a, b, c, d) /\ corners_at (m_vertices m') f' (a, b, c, d)).
  { intros k f' Hk. assert (Lk : (k < length ids)%nat) by (rewrite <- N1; unfold nb_faces; apply nth_error_Some; congruence).
    apply nth_error_Some in Lk. destruct (nth_error ids k) as [i|] eqn:Ei; [|contradiction]. assert (Li : (i < nb_faces m)%nat) by (apply Hi; eapply nth_error_In; eauto).
    destruct (polygons_exist m Vm) as [qs P]. rewrite <- (polygons_length _ _ P) in Li. apply nth_error_Some in Li. destruct (nth_error qs i) as [[[[a b] c] d]|] eqn:Eq; [|contradiction].
    pose proof (polygons_face m qs i _ P Eq) as Fq. pose proof Fq as (f & Ef & Ca).
    pose proof (proj2 (proj2 Sel) k i a b c d Ei Fq) as (f2 & Ef2 & Cb). assert (f2 = f') as -> by congruence.
    exists i, f, a, b, c, d. split; [reflexivity|]. split; [exact Ef|]. split; [exact Fq|]. split; [exact Ca|exact Cb]. }
  assert (Near : forall u, near (/ 100000000) u u) by (intros u; unfold near; rewrite !Rminus_diag_eq, Rabs_R0 by reflexivity; lra).
  split; [exact V1|]. split; [exact U1|]. split.
  { intros E0. unfold nb_faces in N1. rewrite E0 in N1. destruct ids; [contradiction|discriminate]. }
  split; [exact Sp|]. split.
  - intros f' Hf'. apply In_nth_error in Hf'. destruct Hf' as [k Hk]. destruct (Back k f' Hk) as (i & f & a & b & c & d & Ei & Ef & _ & (Ca & Cb & Cc & Cd) & (Da & Db & Dc & Dd)).
    destruct (Tm f (nth_error_In _ _ Ef)) as [T|T].
    + left. assert (a = d) by congruence. subst d. exact (Sp _ _ a a Da Dd (Near a)).
    + right. assert (J : forall x y u v, nth_error (m_vertices m) x = Some u -> nth_error (m_vertices m) y = Some v -> x <> y -> u <> v).
      { intros x y u v Hx Hy Nxy ->. apply Nxy. exact (Sm _ _ v v Hx Hy (Near v)). }
      assert (J' : forall x y u v, nth_error (m_vertices m') x = Some u -> nth_error (m_vertices m') y = Some v -> u <> v -> x <> y) by (intros x y u v Hx Hy Nuv ->; congruence).
      repeat match goal with H : NoDup (_ :: _) |- _ => apply NoDup_cons_iff in H; destruct H end. cbn [In] in *.
      assert (fa f' <> fb f') by (eapply J'; [exact Da|exact Db|]; eapply J; [exact Ca|exact Cb|]; intuition congruence).
      assert (fa f' <> fc f') by (eapply J'; [exact Da|exact Dc|]; eapply J; [exact Ca|exact Cc|]; intuition congruence).
      assert (fa f' <> fd f') by (eapply J'; [exact Da|exact Dd|]; eapply J; [exact Ca|exact Cd|]; intuition congruence).
      assert (fb f' <> fc f') by (eapply J'; [exact Db|exact Dc|]; eapply J; [exact Cb|exact Cc|]; intuition congruence).
      assert (fb f' <> fd f') by (eapply J'; [exact Db|exact Dd|]; eapply J; [exact Cb|exact Cd|]; intuition congruence).
      assert (fc f' <> fd f') by (eapply J'; [exact Dc|exact Dd|]; eapply J; [exact Cc|exact Cd|]; intuition congruence).
      repeat constructor; cbn [In]; intuition congruence.
  - exists A. intros k a b c d (f' & Hk & C'). destruct (Back k f' Hk) as (i & f & a0 & b0 & c0 & d0 & _ & _ & Fq & _ & D').
    destruct C' as (Ca & Cb & Cc & Cd), D' as (Da & Db & Dc & Dd). assert (a = a0) by congruence. assert (b = b0) by congruence. assert (c = c0) by congruence. assert (d = d0) by congruence.
    subst. exact (Am i _ _ _ _ Fq).
Qed.
Lemma selects_picks m ids m' qs : selects m ids m' -> polygons_of m qs -> (forall i, In i ids -> (i < nb_faces m)%nat) ->
  exists qs', polygons_of m' qs' /\ picks qs ids qs'.
Proof.
  intros (V' & L & H) P Hi. destruct (polygons_exist m' V') as [qs' P']. exists qs'. split; [exact P'|]. apply Forall2_nth. split.
  - rewrite (polygons_length _ _ P'). symmetry. exact L.
  - intros k i q Ek Eq. assert (Li : (i < length qs)%nat) by (rewrite (polygons_length _ _ P); apply Hi; eapply nth_error_In; eauto). apply nth_error_Some in Li.
    destruct (nth_error qs i) as [[[[a b] c] d]|] eqn:E; [|contradiction]. pose proof (polygons_face m qs i _ P E) as Fq.
    pose proof (face_polygons m' qs' k _ _ _ _ P' (H k i a b c d Ek Fq)). congruence.
Qed.
Lemma picks_unique {A} (l : list A) ids l1 l2 : picks l ids l1 -> picks l ids l2 -> l1 = l2.
Proof. intros H. revert l2. induction H as [|i x ids l1 Hx F IH]; intros l2 H2; inversion H2; subst; [reflexivity|]. f_equal; [congruence|]. now apply IH. Qed.
Lemma f2_implied {A B} (P P' : A -> B -> Prop) l l' : (forall a b, P a b -> P' a b) -> Forall2 P l l' -> Forall2 P' l l'.
Proof. intros H F. induction F; constructor; auto. Qed.
Lemma picks_seq {A} (l : list A) ids l' : Permutation ids (seq 0 (length l)) -> picks l ids l' -> Permutation l l'.
Proof.
  intros P H. assert (Hs : picks l (seq 0 (length l)) l).
  { apply Forall2_nth. split; [apply seq_length|]. intros k i x Hk Hx. assert (k < length l)%nat by (apply nth_error_Some; congruence).
    rewrite (nth_error_nth' _ 0%nat) in Hk by (rewrite seq_length; lia). rewrite seq_nth in Hk by lia. injection Hk as <-. exact Hx. }
  destruct (Permutation_Forall2 P H) as (l2 & Pl & H2). assert (l2 = l); [|now subst; apply Permutation_sym].
  exact (picks_unique _ _ _ _ H2 Hs).
Qed.
Lemma picks_app {A} (l : list A) i1 i2 l1 l2 : picks l i1 l1 -> picks l i2 l2 -> picks l (i1 ++ i2) (l1 ++ l2).
Proof. intros H1 H2. apply Forall2_app; assumption. Qed.

Section Slice.
  Variable set_order : list nat -> list nat.
  Hypothesis order_perm : forall l, Permutation l (set_order l).

  Lemma distance_height p x : distance_to_point p x = height p x.
  Proof. unfold distance_to_point, height. generalize (pl_point p) (pl_normal p). clear. intros u v. revert x u v. intros [x1 x2 x3] [u1 u2 u3] [v1 v2 v3]. unfold dot, vsub. cbn. ring. Qed.
  Lemma leaf_sliced p m qs : tidy m -> polygons_of m qs ->
    exists l, sliced_by_plane set_order m p = Ok l
    /\ ((l = [m] /\ ((forall q, In q qs -> height p (p_center (face_of q)) < 0) \/ (forall q, In q qs -> 0 <= height p (p_center (face_of q)))))
        \/ exists m1 m2 qs1 qs2, l = [m1; m2] /\ tidy m1 /\ tidy m2 /\ polygons_of m1 qs1 /\ polygons_of m2 qs2
           /\ qs1 = filter (fun q => Rltb (height p (p_center (face_of q))) 0) qs
           /\ Permutation qs2 (filter (fun q => negb (Rltb (height p (p_center (face_of q))) 0)) qs)).
  Proof.
    intros T P. pose proof (proj1 T) as Vm. pose proof (leaf_props m qs P) as Hp. unfold sliced_by_plane. rewrite Hp. cbn [bind].
    set (side := positions _ (map face_of qs)).
    assert (Si : forall i, In i side <-> exists q, nth_error qs i = Some q /\ height p (p_center (face_of q)) < 0).
    { intros i. unfold side. rewrite positions_In. split.
      - intros (x & Hx & Tx). rewrite nth_error_map in Hx. destruct (nth_error qs i) as [q|] eqn:Eq; [|discriminate Hx]. injection Hx as <-. exists q. split; [reflexivity|].
        apply Rltb_true in Tx. now rewrite distance_height in Tx.
      - intros (q & Hq & L). exists (face_of q). split; [now rewrite nth_error_map, Hq|]. apply Rltb_true. now rewrite distance_height. }
    assert (Ls : forall i, In i side -> (i < nb_faces m)%nat) by (intros i Hi; apply Si in Hi; destruct Hi as (q & Hq & _); rewrite <- (polygons_length _ _ P); apply nth_error_Some; congruence).
    assert (Nd : NoDup side) by apply positions_NoDup.
    assert (Hlt : forall i, In i (others set_order (nb_faces m) side) -> (i < nb_faces m)%nat) by (intros i Hi; apply (others_In set_order order_perm) in Hi; tauto).
    destruct (Nat.eqb_spec (length side) 0) as [Z0|Z0]; cbn [orb].
    { exists [m]. split; [reflexivity|]. left. split; [reflexivity|]. right. intros q Hq. apply Rnot_lt_le. intros L. apply In_nth_error in Hq. destruct Hq as [i Hi].
      assert (In i side) by (apply Si; exists q; auto). destruct side; [contradiction|discriminate Z0]. }
    destruct (others_splits set_order order_perm (nb_faces m) side Nd Ls) as [Nd' In'].
    assert (Pm : Permutation (side ++ others set_order (nb_faces m) side) (seq 0 (length qs))).
    { apply NoDup_Permutation; [exact Nd'|apply seq_NoDup|]. intros i. rewrite In', in_seq, (polygons_length _ _ P). lia. }
    destruct (Nat.eqb_spec (length side) (nb_faces m)) as [Z1|Z1]; cbn [orb].
    { exists [m]. split; [reflexivity|]. left. split; [reflexivity|]. left. intros q Hq. apply In_nth_error in Hq. destruct Hq as [i Hi].
      assert (Li : (i < nb_faces m)%nat) by (rewrite <- (polygons_length _ _ P); apply nth_error_Some; congruence).
      assert (H : In i side).
      { pose proof (Permutation_length Pm) as Lp. rewrite app_length, seq_length, (polygons_length _ _ P) in Lp.
        apply In' in Li. apply in_app_or in Li. destruct Li as [Li|Li]; [exact Li|]. destruct (others set_order (nb_faces m) side); [destruct Li|cbn in Lp; lia]. }
      apply Si in H. destruct H as (q' & Hq' & L). congruence. }
    assert (Ns : side <> []) by (intros E; rewrite E in Z0; cbn in Z0; lia).
    assert (No : others set_order (nb_faces m) side <> []).
    { intros E. rewrite E, app_nil_r in Pm. apply Permutation_length in Pm. rewrite seq_length, (polygons_length _ _ P) in Pm. contradiction. }
    destruct (extract_tidy m side T Ns Ls) as (m1 & E1 & T1 & S1). destruct (extract_tidy m _ T No Hlt) as (m2 & E2 & T2 & S2).
    rewrite E1, E2. cbn [bind]. destruct (selects_picks m side m1 qs S1 P Ls) as (qs1 & P1 & K1). destruct (selects_picks m _ m2 qs S2 P Hlt) as (qs2 & P2 & K2).
    exists [m1; m2]. split; [reflexivity|]. right. exists m1, m2, qs1, qs2. split; [reflexivity|]. split; [exact T1|]. split; [exact T2|]. split; [exact P1|]. split; [exact P2|].
    assert (F1 : qs1 = filter (fun q => Rltb (height p (p_center (face_of q))) 0) qs).
    { assert (H : picks qs side (filter (fun q => Rltb (height p (p_center (face_of q))) 0) qs)).
      { clear - qs. unfold side, picks. rewrite <- (map_id qs) at 1.
        assert (G : forall l n, Forall2 (fun i x => nth_error l (i - n) = Some x /\ (n <= i)%nat)
            (map fst (filter (fun z => Rltb (distance_to_point p (p_center (snd z))) 0) (combine (seq n (length (map face_of l))) (map face_of l))))
            (filter (fun q => Rltb (height p (p_center (face_of q))) 0) l)).
        { induction l as [|q l IH]; intros n; [constructor|]. cbn [map length seq combine filter]. cbn [snd]. rewrite distance_height.
          assert (IH' : Forall2 (fun i x => nth_error (q :: l) (i - n) = Some x /\ (n <= i)%nat)
            (map fst (filter (fun z => Rltb (distance_to_point p (p_center (snd z))) 0) (combine (seq (S n) (length (map face_of l))) (map face_of l))))
            (filter (fun q => Rltb (height p (p_center (face_of q))) 0) l)).
          { refine (f2_implied _ _ _ _ _ (IH (S n))). intros i x [H L]. replace (i - n)%nat with (S (i - S n)) by lia. cbn. split; [exact H|lia]. }
          destruct (Rltb (height p (p_center (face_of q))) 0); [|exact IH']. cbn [map fst]. constructor; [|exact IH']. rewrite Nat.sub_diag. cbn. split; [reflexivity|lia]. }
        rewrite map_id. refine (f2_implied _ _ _ _ _ (G qs 0%nat)). intros i x [H _]. now rewrite Nat.sub_0_r in H. }
      exact (picks_unique _ _ _ _ K1 H). }
    split; [exact F1|].
    pose proof (picks_seq qs _ _ Pm (picks_app qs _ _ _ _ K1 K2)) as PP.
    assert (Pf : Permutation qs (filter (fun q => Rltb (height p (p_center (face_of q))) 0) qs ++ filter (fun q => negb (Rltb (height p (p_center (face_of q))) 0)) qs)).
    { clear. induction qs as [|q l IH]; [constructor|]. cbn [filter]. destruct (Rltb (height p (p_center (face_of q))) 0); cbn [negb app].
      - now constructor.
      - rewrite <- Permutation_middle. now constructor. }
    rewrite F1 in PP. apply (Permutation_app_inv_l (filter (fun q => Rltb (height p (p_center (face_of q))) 0) qs)). rewrite <- PP. exact Pf.
  Qed.
End Slice.
