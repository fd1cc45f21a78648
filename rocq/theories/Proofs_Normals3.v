(** Proofs about the orientation of the faces: after the flooding, the orientations are consistent. *)
From Coq Require Import Reals List Bool Arith Permutation Lia.
From Verif Require Import Model_Base Model_Geometry Model_Mesh Spec_Mesh Proofs_Mesh Proofs_Mesh2 Model_Normals Spec_Normals
  Proofs_Normals Proofs_Normals2.
Import ListNotations.
Open Scope nat_scope.

Lemma filter_set (l : list bool) j : nth_error l j = Some false ->
  S (length (filter negb (set_nth j true l))) = length (filter negb l).
Proof.
  revert j. induction l as [|b l IH]; intros [|j] H; cbn in *; try discriminate.
  - injection H as ->. reflexivity.
  - destruct b; cbn; [now apply IH|f_equal; now apply IH].
Qed.

Section Flooding.
  Variable set_order : list nat -> list nat.
  Hypothesis order_perm : forall l, Permutation l (set_order l).
  Variable fs0 : list face.
  Hypothesis Hc : conformal fs0.
  Variable o : nat -> bool.
  Hypothesis Ho : forall i j f g a b, nth_error fs0 i = Some f -> nth_error fs0 j = Some g -> i <> j ->
    In (a, b) (sides (flipif (o i) f)) -> ~ In (a, b) (sides (flipif (o j) g)).

  Notation adj := (adjacent fs0).
  Definition seen (s : flood) (k : nat) : Prop := nth_error (fl_seen s) k = Some true.
  Definition col (p : nat -> bool) (k : nat) : bool := xorb (p k) (o k).

  Lemma adj_face a b : adj a b -> exists f, nth_error fs0 a = Some f.
  Proof. intros (_ & i & j & _ & (f & E & _) & _). eauto. Qed.
  Lemma adj_lt a b : adj a b -> a < length fs0.
  Proof. intros H. apply adj_face in H. destruct H as [f E]. apply nth_error_Some. congruence. Qed.

  Lemma adj_common a b f g p q : adj a b -> nth_error fs0 a = Some f -> nth_error fs0 b = Some g ->
    exists v w, set_order (set_inter (nodup Nat.eq_dec (face_ids (flipif p f))) (face_ids (flipif q g))) = [v; w]
      /\ is_side f v w /\ is_side g v w.
  Proof.
    intros (N & v & w & Nvw & (f' & Ef & Fv & Fw) & (g' & Eg & Gv & Gw)) Ef' Eg'.
    rewrite Ef in Ef'. injection Ef' as ->. rewrite Eg in Eg'. injection Eg' as ->.
    destruct Hc as (W & P2 & _). destruct (P2 a b f g v w Ef Eg N Nvw Fv Fw Gv Gw) as (Sf & Sg & U).
    set (l := set_order _).
    assert (Hl : forall x, In x l <-> x = v \/ x = w).
    { intros x. unfold l. rewrite (order_In set_order order_perm), set_inter_In, nodup_In.
      change (In x (face_ids (flipif p f))) with (has (flipif p f) x). change (In x (face_ids (flipif q g))) with (has (flipif q g) x).
      rewrite !flipif_has. split; [intros [A B]; now apply U|]. intros [->| ->]; auto. }
    assert (ND : NoDup l) by (apply (order_NoDup set_order order_perm); unfold set_inter; apply NoDup_filter, NoDup_nodup).
    assert (E : l = [v; w] \/ l = [w; v]).
    { assert (P : Permutation l [v; w]).
      { apply NoDup_Permutation; [exact ND| |].
        - repeat constructor; cbn; intuition congruence.
        - intros x. rewrite Hl. cbn. intuition. }
      apply Permutation_sym, Permutation_length_2_inv in P. exact P. }
    destruct E as [->| ->]; [exists v, w|exists w, v]; (split; [reflexivity|]); split; auto using is_side_sym.
  Qed.

  Record inv (p : nat -> bool) (old : nat -> Prop) (c : bool) (s : flood) : Prop := {
    i_faces : forall k f, nth_error fs0 k = Some f -> nth_error (fl_faces s) k = Some (flipif (p k) f);
    i_length : length (fl_faces s) = length fs0;
    i_table : length (fl_ff s) = length fs0;
    i_linked : forall a b, linked (fl_ff s) a b -> adj a b;
    i_removed : forall a b, adj a b -> linked (fl_ff s) a b \/ (seen s a /\ seen s b);
    i_seen : length (fl_seen s) = length fs0;
    i_old : forall a, old a -> seen s a;
    i_closed : forall a b, old a -> adj a b -> old b;
    i_old_col : forall a b, old a -> adj a b -> col p a = col p b;
    i_col : forall a, seen s a -> old a \/ col p a = c;
    i_stack : forall a, In a (fl_stack s) -> seen s a /\ col p a = c;
    i_zero : (forall k, o k = false) -> forall k, p k = false
  }.

  Lemma seen_dec s a : a < length (fl_seen s) -> seen s a \/ nth_error (fl_seen s) a = Some false.
  Proof. intros H. unfold seen. destruct (nth_error (fl_seen s) a) as [[]|] eqn:E; [auto|auto|]. apply nth_error_None in E. lia. Qed.
  Lemma seen_set s j k l st ff fs : l = fl_seen s -> j < length l -> (seen (Flood fs ff (set_nth j true l) st) k <-> seen s k \/ k = j).
  Proof.
    intros -> H. unfold seen. cbn [fl_seen]. destruct (Nat.eq_dec k j) as [->|N].
    - rewrite set_nth_same by exact H. tauto.
    - rewrite set_nth_other by exact N. tauto.
  Qed.

  Lemma visit_ok p old c s i j : inv p old c s -> seen s i -> col p i = c -> adj i j -> nth_error (fl_seen s) j = Some false ->
    exists s' p', visit set_order i j s = Ok s' /\ inv p' old c s' /\ (forall k, seen s' k <-> seen s k \/ k = j)
      /\ fl_stack s' = j :: fl_stack s /\ S (length (filter negb (fl_seen s'))) = length (filter negb (fl_seen s))
      /\ col p' i = c.
  Proof.
    intros I Si Ci A Uj. destruct I.
    assert (Nij : i <> j) by (destruct A; assumption).
    assert (Lj : j < length fs0) by (apply adj_lt with i; now apply adjacent_sym).
    assert (Lk : linked (fl_ff s) j i).
    { destruct (i_removed0 j i (adjacent_sym _ _ _ A)) as [H|[H _]]; [exact H|]. unfold seen in H. congruence. }
    destruct Lk as (fj & Ej & Mj). apply memb_In in Mj.
    destruct (adj_face i j A) as [f Ef]. destruct (adj_face j i (adjacent_sym _ _ _ A)) as [g Eg].
    destruct (adj_common i j f g (p i) (p j) A Ef Eg) as (v & w & El & Sf & Sg).
    assert (W : well_formed f /\ well_formed g) by (destruct Hc as [W _]; split; apply W; eapply nth_error_In; eassumption).
    destruct W as [Wf Wg].
    unfold visit. unfold get at 1. rewrite Ej. cbn [bind]. rewrite Mj. cbn [negb].
    unfold get. rewrite (i_faces0 _ _ Ef), (i_faces0 _ _ Eg). cbn [bind]. rewrite El.
    rewrite same_side_ok by (try apply flipif_well_formed; try apply flipif_is_side; assumption). cbn [bind].
    rewrite !dir_flip by assumption.
    set (b := eqb _ _).
    assert (Hb : xorb (xorb b (p j)) (o j) = c).
    { rewrite <- Ci. unfold col, b.
      assert (D : xorb (o i) (dir f v w) = negb (xorb (o j) (dir g v w))).
      { pose proof (Ho i j f g v w Ef Eg Nij) as H1. pose proof (Ho i j f g w v Ef Eg Nij) as H2.
        rewrite <- !dir_In in H1. rewrite <- !dir_In in H2.
        rewrite !dir_flip in H1 by assumption. rewrite !dir_flip in H2 by (auto using is_side_sym).
        rewrite (dir_back f v w), (dir_back g v w) in H2 by assumption.
        destruct (o i), (o j), (dir f v w), (dir g v w); cbn in *; try reflexivity; exfalso; first [exact (H1 eq_refl eq_refl)|exact (H2 eq_refl eq_refl)]. }
      destruct (p i), (p j), (o i), (o j), (dir f v w), (dir g v w); cbn in *; congruence. }
    set (p' := fun k => if Nat.eqb k j then xorb b (p j) else p k).
    assert (Pj : p' j = xorb b (p j)) by (unfold p'; now rewrite Nat.eqb_refl).
    assert (Po : forall k, k <> j -> p' k = p k) by (intros k Hk; unfold p'; destruct (Nat.eqb_spec k j); [contradiction|reflexivity]).
    assert (Co : forall k, k <> j -> col p' k = col p k) by (intros k Hk; unfold col; now rewrite Po).
    assert (Cj : col p' j = c) by (unfold col; now rewrite Pj).
    assert (Old : forall k, old k -> k <> j) by (intros k Hk ->; apply i_old0 in Hk; unfold seen in Hk; congruence).
    eexists _, p'. split; [reflexivity|].
    assert (Ss : forall k fs ff st, seen (Flood fs ff (set_nth j true (fl_seen s)) st) k <-> seen s k \/ k = j)
      by (intros; apply seen_set; [reflexivity|lia]).
    split; [|split; [intros k; apply Ss|split; [reflexivity|split; [cbn [fl_seen]; now apply filter_set|now rewrite Co]]]].
    split; cbn [fl_faces fl_ff fl_stack].
    - intros k h Eh. destruct (Nat.eq_dec k j) as [->|N].
      + rewrite Eg in Eh. injection Eh as <-. rewrite Pj. destruct b.
        * rewrite set_nth_same by lia. f_equal. now rewrite <- (flipif_flipif true (p j)).
        * replace (xorb false (p j)) with (p j) by now destruct (p j). apply (i_faces0 _ _ Eg).
      + rewrite Po by exact N. destruct b; [rewrite set_nth_other by exact N|]; now apply i_faces0.
    - destruct b; [now rewrite set_nth_length|assumption].
    - now rewrite set_nth_length.
    - intros a d H. rewrite linked_set in H by lia. destruct H as [[-> H]|[_ H]]; [|now apply i_linked0].
      apply filter_In in H. apply i_linked0. exists fj. tauto.
    - intros a d Hd. rewrite !Ss. rewrite linked_set by lia. destruct (i_removed0 a d Hd) as [(sa & Ea & Ia)|[Ha Hd']]; [|auto].
      destruct (Nat.eq_dec a j) as [->|Na].
      + destruct (Nat.eq_dec d i) as [->|Nd]; [auto|]. left. left. split; [reflexivity|]. apply filter_In.
        rewrite Ej in Ea. injection Ea as <-. split; [exact Ia|]. apply negb_true_iff. now apply Nat.eqb_neq.
      + left. right. split; [exact Na|]. exists sa. auto.
    - cbn [fl_seen]. now rewrite set_nth_length.
    - intros a Ha. apply Ss. left. now apply i_old0.
    - exact i_closed0.
    - intros a d Ha Hd. rewrite !Co; [now apply i_old_col0|now apply Old, (i_closed0 a)|now apply Old].
    - intros a Ha. apply Ss in Ha. destruct (Nat.eq_dec a j) as [->|N]; [now right|]. destruct Ha as [Ha|]; [|contradiction].
      rewrite Co by exact N. now apply i_col0.
    - intros a [<-|Ha].
      + split; [apply Ss; now right|exact Cj].
      + destruct (i_stack0 a Ha) as [Sa Ca]. split; [apply Ss; now left|]. rewrite Co; [exact Ca|]. intros ->. unfold seen in Sa. congruence.
    - intros Z k. specialize (i_zero0 Z). destruct (Nat.eq_dec k j) as [->|N]; [|now rewrite Po].
      rewrite Pj. revert Hb Ci. unfold col. rewrite !Z, (i_zero0 i). destruct (xorb b (p j)), c; cbn; congruence.
  Qed.

  Lemma visit_all_ok i js : forall p old c s, inv p old c s -> seen s i -> col p i = c -> (forall j, In j js -> adj i j) ->
    exists s' p', visit_all set_order i js s = Ok s' /\ inv p' old c s'
      /\ (forall k, seen s k -> seen s' k) /\ (forall j, In j js -> seen s' j)
      /\ (forall k, seen s' k -> seen s k \/ In k (fl_stack s')) /\ (forall k, In k (fl_stack s) -> In k (fl_stack s'))
      /\ length (fl_stack s') + length (filter negb (fl_seen s')) = length (fl_stack s) + length (filter negb (fl_seen s)).
  Proof.
    induction js as [|j js IH]; intros p old c s I Si Ci A.
    - exists s, p. cbn. split; [reflexivity|]. split; [exact I|]. repeat split; auto. intros j [].
    - cbn [visit_all]. assert (Lj : j < length (fl_seen s)).
      { rewrite (i_seen _ _ _ _ I). apply adj_lt with i. apply adjacent_sym, A. now left. }
      destruct (seen_dec s j Lj) as [Sj|Uj].
      + unfold get. rewrite Sj. cbn [bind]. destruct (IH p old c s I Si Ci) as (s' & p' & E & I' & H1 & H2 & H3 & H4 & H5); [intros; apply A; now right|].
        exists s', p'. split; [exact E|]. split; [exact I'|]. split; [exact H1|]. split; [intros k [<-|Hk]; auto|]. auto.
      + unfold get. rewrite Uj. cbn [bind].
        destruct (visit_ok p old c s i j I Si Ci (A j (or_introl eq_refl)) Uj) as (s1 & p1 & E1 & I1 & S1 & St1 & L1 & C1).
        rewrite E1. cbn [bind].
        destruct (IH p1 old c s1 I1) as (s' & p' & E & I' & H1 & H2 & H3 & H4 & H5); [apply S1; now left|exact C1|intros; apply A; now right|].
        exists s', p'. split; [exact E|]. split; [exact I'|].
        split; [intros k Hk; apply H1, S1; now left|]. split; [intros k [<-|Hk]; [apply H1, S1; now right|auto]|].
        split; [intros k Hk; destruct (H3 k Hk) as [Hk'|]; [|auto]; apply S1 in Hk'; destruct Hk' as [| ->]; [auto|right; apply H4; rewrite St1; now left]|].
        split; [intros k Hk; apply H4; rewrite St1; now right|].
        rewrite H5, St1. cbn [length]. lia.
  Qed.

  Lemma process_ok p old c s i : inv p old c s -> seen s i -> col p i = c ->
    (forall a, seen s a -> old a \/ In a (fl_stack s) \/ a = i \/ forall b, adj a b -> seen s b) ->
    i < length fs0 ->
    exists s' p', process set_order i s = Ok s' /\ inv p' old c s'
      /\ (forall a, seen s' a -> old a \/ In a (fl_stack s') \/ forall b, adj a b -> seen s' b)
      /\ length (fl_stack s') + length (filter negb (fl_seen s')) = length (fl_stack s) + length (filter negb (fl_seen s)).
  Proof.
    intros I Si Ci Fr Li. unfold process.
    destruct (nth_error (fl_ff s) i) as [fi|] eqn:Ei; [|apply nth_error_None in Ei; rewrite (i_table _ _ _ _ I) in Ei; lia].
    unfold get. rewrite Ei. cbn [bind].
    destruct (visit_all_ok i (set_order fi) p old c s I Si Ci) as (s' & p' & E & I' & H1 & H2 & H3 & H4 & H5).
    { intros j Hj. apply (proj1 (order_In set_order order_perm _ _)) in Hj. apply (i_linked _ _ _ _ I). exists fi. auto. }
    exists s', p'. split; [exact E|]. split; [exact I'|]. split; [|exact H5].
    intros a Ha. destruct (H3 a Ha) as [Ha'|Ha']; [|auto].
    destruct (Fr a Ha') as [O|[St|[->|N]]]; [auto|auto| |].
    - right. right. intros b Hb. destruct (i_removed _ _ _ _ I i b Hb) as [(fi' & Ei' & Hi')|[_ Hb']]; [|auto].
      rewrite Ei in Ei'. injection Ei' as <-. apply H2. now apply (proj2 (order_In set_order order_perm _ _)).
    - right. right. intros b Hb. apply H1. now apply N.
  Qed.

  Lemma flooding_ok n : forall p old c s, inv p old c s ->
    (forall a, seen s a -> old a \/ In a (fl_stack s) \/ forall b, adj a b -> seen s b) ->
    length (fl_stack s) + length (filter negb (fl_seen s)) <= n ->
    exists s' p', flooding set_order n s = Ok s' /\ length (fl_faces s') = length fs0
      /\ (forall k f, nth_error fs0 k = Some f -> nth_error (fl_faces s') k = Some (flipif (p' k) f))
      /\ (forall a b, adj a b -> col p' a = col p' b) /\ ((forall k, o k = false) -> forall k, p' k = false).
  Proof.
    induction n as [|n IH]; intros p old c s I Fr L.
    - destruct (fl_stack s) as [|i st] eqn:Es; [|cbn in L; lia].
      assert (All : forall a b, adj a b -> seen s a).
      { intros a b A. destruct (seen_dec s a) as [Sa|Ua]; [rewrite (i_seen _ _ _ _ I); now apply adj_lt with b|exact Sa|]. exfalso.
        pose proof (filter_set _ _ Ua). cbn in L. lia. }
      cbn [flooding]. rewrite Es. destruct (positions negb (fl_seen s)) as [|k r] eqn:Ep.
      2:{ exfalso. assert (H : In k (positions negb (fl_seen s))) by (rewrite Ep; now left). apply positions_In in H. destruct H as (b & Eb & Hb).
          destruct b; [discriminate|]. pose proof (filter_set _ _ Eb). cbn in L. lia. }
      exists s, p. split; [reflexivity|]. split; [apply (i_length _ _ _ _ I)|]. split; [apply (i_faces _ _ _ _ I)|]. split; [|apply (i_zero _ _ _ _ I)].
      intros a b A. destruct (i_col _ _ _ _ I a (All a b A)) as [O|Ca]; [now apply (i_old_col _ _ _ _ I)|].
      destruct (i_col _ _ _ _ I b (All b a (adjacent_sym _ _ _ A))) as [O|Cb]; [|congruence].
      symmetry. apply (i_old_col _ _ _ _ I); [exact O|now apply adjacent_sym].
    - cbn [flooding]. destruct (fl_stack s) as [|i st] eqn:Es.
      + assert (Cc : forall a b, adj a b -> seen s a -> seen s b /\ col p a = col p b).
        { intros a b A Sa. assert (Sb : seen s b).
          { destruct (Fr a Sa) as [O|[[]|N]]; [|now apply N]. apply (i_old _ _ _ _ I). now apply (i_closed _ _ _ _ I a). }
          split; [exact Sb|]. destruct (i_col _ _ _ _ I a Sa) as [O|Ca]; [now apply (i_old_col _ _ _ _ I)|].
          destruct (i_col _ _ _ _ I b Sb) as [O|Cb]; [|congruence]. symmetry. apply (i_old_col _ _ _ _ I); [exact O|now apply adjacent_sym]. }
        destruct (positions negb (fl_seen s)) as [|i r] eqn:Ep.
        * assert (All : forall a b, adj a b -> seen s a).
          { intros a b A. destruct (seen_dec s a) as [Sa|Ua]; [rewrite (i_seen _ _ _ _ I); now apply adj_lt with b|exact Sa|]. exfalso.
            assert (H : In a (positions negb (fl_seen s))) by (apply positions_In; eauto). rewrite Ep in H. destruct H. }
          exists s, p. split; [reflexivity|]. split; [apply (i_length _ _ _ _ I)|]. split; [apply (i_faces _ _ _ _ I)|]. split; [|apply (i_zero _ _ _ _ I)].
          intros a b A. now apply (Cc a b A), (All a b).
        * assert (Ui : nth_error (fl_seen s) i = Some false).
          { assert (H : In i (positions negb (fl_seen s))) by (rewrite Ep; now left). apply positions_In in H. destruct H as ([] & Eb & Hb); [discriminate|exact Eb]. }
          assert (Li : i < length fs0) by (rewrite <- (i_seen _ _ _ _ I); apply nth_error_Some; congruence).
          set (s1 := Flood (fl_faces s) (fl_ff s) (set_nth i true (fl_seen s)) []).
          assert (Ss : forall k, seen s1 k <-> seen s k \/ k = i) by (intros; apply seen_set; [reflexivity|rewrite (i_seen _ _ _ _ I); lia]).
          assert (I1 : inv p (seen s) (col p i) s1).
          { destruct I. split; try assumption.
            - intros a b A. destruct (i_removed0 a b A) as [H|[H1 H2]]; [now left|right]. rewrite !Ss. auto.
            - cbn [s1 fl_seen]. now rewrite set_nth_length.
            - intros a Ha. apply Ss. now left.
            - intros a b Ha A. now apply (Cc a b A).
            - intros a b Ha A. now apply (Cc a b A).
            - intros a Ha. apply Ss in Ha. destruct Ha as [Ha| ->]; auto.
            - intros a []. }
          destruct (process_ok p (seen s) (col p i) s1 i I1) as (s2 & p2 & E2 & I2 & Fr2 & L2).
          -- apply Ss. now right.
          -- reflexivity.
          -- intros a Ha. apply Ss in Ha. tauto.
          -- exact Li.
          -- rewrite E2. cbn [bind]. apply (IH p2 (seen s) (col p i) s2 I2 Fr2). rewrite L2. cbn [s1 fl_stack fl_seen length].
             pose proof (filter_set _ _ Ui). cbn in L. lia.
      + destruct (i_stack _ _ _ _ I i) as [Si Ci]; [rewrite Es; now left|].
        assert (Li : i < length fs0) by (rewrite <- (i_seen _ _ _ _ I); apply nth_error_Some; unfold seen in Si; congruence).
        set (s1 := Flood (fl_faces s) (fl_ff s) (fl_seen s) st).
        assert (I1 : inv p old c s1).
        { destruct I. split; try assumption. intros a Ha. apply i_stack0. rewrite Es. now right. }
        destruct (process_ok p old c s1 i I1 Si Ci) as (s2 & p2 & E2 & I2 & Fr2 & L2).
        * intros a Ha. destruct (Fr a Ha) as [O|[[<-|St]|N]]; auto.
        * exact Li.
        * rewrite E2. cbn [bind]. apply (IH p2 old c s2 I2 Fr2). rewrite L2. cbn [s1 fl_stack fl_seen]. cbn in L. lia.
  Qed.
End Flooding.
