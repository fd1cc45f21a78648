(** Clipping a collection or a body. *)
From Coq Require Import Reals List Bool ZArith Arith Lra Lia Sorted.
From Verif Require Import Model_Base Model_Geometry Model_Mesh Spec_Mesh Model_Quality Spec_Quality Model_Tree Spec_Tree Spec_Clip
  Proofs_Geometry Proofs_Mesh Proofs_Mesh2 Proofs_Mesh3 Proofs_Tree Proofs_Tree2 Model_Clip Proofs_Clip Proofs_Clip2 Proofs_Clip3 Proofs_Clip4
  Proofs_Clip5.
Import ListNotations.
Open Scope nat_scope.

Lemma sorted_all kept n : StronglySorted lt kept -> (forall j, In j kept -> j < n) -> length kept = n -> kept = seq 0 n.
Proof.
  intros Hs Hr L. subst n.
  assert (G : forall l k, StronglySorted lt l -> (forall j, In j l -> k <= j < k + length l) -> l = seq k (length l)).
  { induction l as [|x l IH]; intros k H R; [reflexivity|]. inversion H as [|? ? H1 H2]; subst. cbn [length seq].
    assert (x = k).
    { destruct (Nat.eq_dec x k) as [E|N]; [exact E|exfalso]. assert (Hx := R x (or_introl eq_refl)). cbn [length] in *.
      rewrite List.Forall_forall in H2.
      assert (NoDup l /\ forall j, In j l -> S x <= j < k + S (length l)) as [Nd Rg].
      { split; [clear -H1; induction H1 as [|a l Hl IHl Ha]; constructor; [|exact IHl]; rewrite List.Forall_forall in Ha; intros Hin; specialize (Ha a Hin); lia|].
        intros j Hj. specialize (H2 j Hj). specialize (R j (or_intror Hj)). lia. }
      assert (I : incl l (seq (S x) (k + S (length l) - S x))) by (intros j Hj; apply in_seq; specialize (Rg j Hj); lia).
      apply (NoDup_incl_length Nd) in I. rewrite seq_length in I. lia. }
    subst x. f_equal. apply IH; [exact H1|]. intros j Hj. specialize (R j (or_intror Hj)). cbn [length] in R.
    rewrite List.Forall_forall in H2. specialize (H2 j Hj). lia. }
  apply G; [exact Hs|]. intros j Hj. specialize (Hr j Hj). lia.
Qed.
Lemma picks_seq {A} (l l' : list A) : picks l (seq 0 (length l)) l' -> l' = l.
Proof.
  intros P. apply Forall2_nth in P. destruct P as [L H]. rewrite seq_length in L.
  assert (E : forall i, nth_error l' i = nth_error l i).
  { intros i. destruct (nth_error l' i) as [x|] eqn:Ex.
    - assert (i < length l') by (apply nth_error_Some; congruence).
      symmetry. apply (H i i x); [|exact Ex]. rewrite nth_error_nth' with (d := 0) by (rewrite seq_length; lia). now rewrite seq_nth by lia.
    - symmetry. apply nth_error_None. apply nth_error_None in Ex. lia. }
  clear -E. revert l E. induction l' as [|x l' IH]; intros [|y l] E; [reflexivity|specialize (E 0); discriminate|specialize (E 0); discriminate|].
  pose proof (E 0) as E0. injection E0 as ->. f_equal. apply IH. intros i. exact (E (S i)).
Qed.

Lemma clipped_fewer p m m' ids : clipped p m m' ids -> nb_faces m' <= length ids.
Proof.
  intros (ps & w & qw & qs' & fps & kept & -> & _ & _ & Vw & Pw & Nw & Hf & Hs & Hk & Vm & Pm & Pk).
  rewrite <- (polygons_length _ _ Pm). destruct (proj1 (Forall2_nth _ _ _) Pk) as [L _]. rewrite <- L.
  destruct (proj1 (Forall2_nth _ _ _) Nw) as [Lw _]. rewrite map_length in *.
  assert (Nd : NoDup kept).
  { clear -Hs. induction Hs as [|a l Hl IHl Ha]; constructor; [|exact IHl]. rewrite List.Forall_forall in Ha. intros Hin. specialize (Ha a Hin). lia. }
  assert (I : incl kept (seq 0 (length fps))).
  { intros j Hj. apply in_seq. apply Hk in Hj. destruct Hj as (x & Hx & _). split; [lia|]. apply nth_error_Some. congruence. }
  apply (NoDup_incl_length Nd) in I. rewrite seq_length in I.
  unfold faces_props in Hf. apply mapM_length in Hf. pose proof (polygons_length _ _ Pw). unfold nb_faces in *. lia.
Qed.
Lemma clipped_traced p m m' ids qs qs' : clipped p m m' ids -> nb_faces m' = length ids -> polygons_of m qs -> polygons_of m' qs' ->
  traced p qs qs' ids.
Proof.
  intros (ps & w & qw & qs1 & fps & kept & -> & Hr & Hc & Vw & Pw & Nw & Hf & Hs & Hk & Vm & Pm & Pk) N Pq Pq'.
  assert (qs1 = qs').
  { unfold polygons_of in *. clear -Pm Pq'. revert qs' Pq'. induction Pm as [|f q fs ql H F IH]; intros qs' P; inversion P; subst; [reflexivity|].
    f_equal; [|now apply IH]. destruct q as [[[? ?] ?] ?]. destruct y as [[[? ?] ?] ?]. destruct H as (? & ? & ? & ?). destruct H2 as (? & ? & ? & ?). congruence. }
  subst qs1. rewrite map_length in N.
  assert (Lq : length qs' = length ps) by (rewrite (polygons_length _ _ Pq'); exact N).
  assert (Lfps : length fps = length ps).
  { unfold faces_props in Hf. apply mapM_length in Hf. pose proof (polygons_length _ _ Pw). unfold nb_faces in *.
    destruct (proj1 (Forall2_nth _ _ _) Nw) as [Lw _]. rewrite map_length in Lw. lia. }
  assert (kept = seq 0 (length ps)).
  { apply sorted_all; [exact Hs| |].
    - intros j Hj. apply Hk in Hj. destruct Hj as (x & Hx & _). rewrite <- Lfps. apply nth_error_Some. congruence.
    - destruct (proj1 (Forall2_nth _ _ _) Pk) as [L _]. lia. }
  subst kept. assert (Lw : length qw = length ps) by (destruct (proj1 (Forall2_nth _ _ _) Nw) as [Lw _]; rewrite map_length in Lw; lia).
  rewrite <- Lw in Pk. apply picks_seq in Pk. subst qw.
  split; [now rewrite map_length|]. intros k q' i Hk' Hi. rewrite nth_error_map in Hi.
  destruct (nth_error ps k) as [[g j]|] eqn:Ep; [|discriminate]. cbn in Hi. injection Hi as ->.
  assert (Ri : i < nb_faces m) by (apply Hr; apply in_map_iff; exists (g, i); split; [reflexivity|now apply nth_error_In in Ep]).
  rewrite <- (polygons_length _ _ Pq) in Ri. destruct (nth_error qs i) as [q|] eqn:Eq; [|apply nth_error_None in Eq; lia].
  exists q, (pieces_of ps i), g. split; [reflexivity|]. destruct q as [[[a b] c] d].
  split; [apply Hc; exact (polygons_face _ _ _ _ Pq Eq)|]. split.
  - unfold pieces_of. apply in_map_iff. exists (g, i). split; [reflexivity|]. apply filter_In. split; [now apply nth_error_In in Ep|apply Nat.eqb_refl].
  - destruct (proj1 (Forall2_nth _ _ _) Nw) as [_ Hn]. apply (Hn k); [|exact Hk']. rewrite nth_error_map, Ep. reflexivity.
Qed.
Lemma traced_app p q1 q1' i1 q2 q2' i2 : traced p q1 q1' i1 -> traced p q2 q2' i2 ->
  traced p (q1 ++ q2) (q1' ++ q2') (i1 ++ map (fun i => i + length q1) i2).
Proof.
  intros [L1 H1] [L2 H2]. split; [rewrite !app_length, map_length; lia|]. intros k q' i Hk Hi.
  destruct (Nat.lt_ge_cases k (length q1')) as [L|L].
  - rewrite nth_error_app1 in Hk, Hi by lia. destruct (H1 k q' i Hk Hi) as (q & ps & g & Hq & Hr). exists q, ps, g. split; [|exact Hr].
    rewrite nth_error_app1; [exact Hq|]. apply nth_error_Some. congruence.
  - rewrite nth_error_app2 in Hk, Hi by lia. rewrite <- L1 in Hi. rewrite nth_error_map in Hi.
    destruct (nth_error i2 (k - length q1')) as [i'|] eqn:Ei; [|discriminate]. cbn in Hi. injection Hi as <-.
    destruct (H2 _ _ _ Hk Ei) as (q & ps & g & Hq & Hr). exists q, ps, g. split; [|exact Hr].
    rewrite nth_error_app2 by lia. replace (i' + length q1 - length q1) with i' by lia. exact Hq.
Qed.

Lemma shifted_app ms ms' labels labels' : forall off, length ms = length labels ->
  shifted off (ms ++ ms') (labels ++ labels') = shifted off ms labels ++ shifted (off + total_faces ms) ms' labels'.
Proof.
  revert labels. induction ms as [|m ms IH]; intros [|l labels] off L; try discriminate.
  - cbn. unfold total_faces. cbn. now rewrite Nat.add_0_r.
  - cbn [app shifted]. rewrite IH by (cbn in L; lia). rewrite <- app_assoc, total_faces_cons. do 3 f_equal. lia.
Qed.
Lemma shifted_off ms labels : forall off, shifted off ms labels = map (fun i => i + off) (shifted 0 ms labels).
Proof.
  revert labels. induction ms as [|m ms IH]; intros [|l labels] off; try reflexivity. cbn [shifted].
  rewrite map_app, map_map. f_equal; [apply map_ext; intros; lia|].
  rewrite (IH labels (off + nb_faces m)), (IH labels (0 + nb_faces m)), map_map. apply map_ext. intros; lia.
Qed.
Lemma shifted_length ms labels off : length ms = length labels -> length (shifted off ms labels) = list_sum (map (@length nat) labels).
Proof.
  revert labels off. induction ms as [|m ms IH]; intros [|l labels] off L; try discriminate; [reflexivity|].
  cbn [shifted map]. rewrite app_length, map_length, IH by (cbn in L; lia). reflexivity.
Qed.

Section Tree.
  Variable argsort : list R -> list nat.
  Hypothesis Hsort : sorts argsort.
  Variable p : plane.

  Definition leaf_result (m : mesh) (r : mesh * list nat) : Prop :=
    clip argsort p vicinity m = Ok r /\ clipped p m (fst r) (snd r).
  (** The faces of the clipped tree are those of its clipped meshes: [prune] only removes empty meshes. *)
  Definition tree_result (t t' : tree) (ids : list nat) : Prop :=
    exists rs, Forall2 leaf_result (leaves t) rs /\ ids = shifted 0 (leaves t) (map snd rs)
      /\ all_valid t' /\ forall qs, tree_polygons t' qs <-> exists qss, Forall2 polygons_of (map fst rs) qss /\ qs = concat qss.

  Lemma vicinity_pos : (0 < vicinity)%R.
  Proof. unfold vicinity. lra. Qed.
  Lemma leaf_ok m : clippable p vicinity m -> exists r, leaf_result m r.
  Proof.
    intros (Hv & Hc & Hg). destruct (polygons_exist m Hv) as (qs & Pq).
    destruct (clip_spec argsort Hsort p vicinity vicinity_pos m Hv Hc Hg qs Pq) as (m' & ids & E & C). exists (m', ids). now split.
  Qed.
  Lemma Forall2_concat {A B} (P : A -> B -> Prop) ls ls' : Forall2 (Forall2 P) ls ls' -> Forall2 P (concat ls) (concat ls').
  Proof. induction 1; cbn; [constructor|now apply Forall2_app]. Qed.

  Definition sums (l : list tree) : list nat := map (fun i => list_sum (map t_nb_faces (firstn i l))) (seq 0 (length l)).
  Lemma sums_cons x l : sums (x :: l) = 0 :: map (fun n => t_nb_faces x + n) (sums l).
  Proof.
    unfold sums. cbn [length seq map firstn list_sum fold_right]. f_equal. rewrite <- seq_shift, !map_map. apply map_ext. intros i.
    reflexivity.
  Qed.
  Lemma combine_shift {A} (f : nat -> nat) : forall (l : list nat) (r : list A),
    combine (map f l) r = map (fun x => (f (fst x), snd x)) (combine l r).
  Proof. induction l as [|x l IH]; intros [|y r]; try reflexivity. cbn. now rewrite IH. Qed.

  Lemma empty_part t qs : all_valid t -> not_empty t = false -> tree_polygons t qs -> qs = [].
  Proof.
    intros Hv Hn (qss & F & ->).
    assert (Z : total_faces (leaves t) = 0).
    { unfold not_empty in Hn. apply andb_false_iff in Hn. rewrite nb_faces_leaves, nb_vertices_leaves in Hn. destruct Hn as [Hn|Hn]; apply Nat.ltb_ge in Hn.
      - lia.
      - assert (Hz : forall m, In m (leaves t) -> nb_vertices m = 0).
        { intros m Hm. clear -Hn Hm. induction (leaves t) as [|x l IH]; [destruct Hm|]. rewrite total_vertices_cons in Hn.
          destruct Hm as [<-|Hm]; [lia|apply IH; [lia|exact Hm]]. }
        clear Hn F. unfold total_faces. unfold all_valid in Hv. induction (leaves t) as [|x l IH]; [reflexivity|].
        cbn [map list_sum fold_right].
        assert (nb_faces x = 0).
        { assert (Vx := Hv x (or_introl eq_refl)). assert (Zx := Hz x (or_introl eq_refl)). unfold nb_faces, nb_vertices in *.
          destruct (m_faces x) as [|f fs] eqn:Ef; [reflexivity|]. assert (fa f < length (m_vertices x)); [|lia].
          apply (Vx f); [rewrite Ef; now left|cbn; auto]. }
        rewrite H. cbn [Nat.add]. change (fold_right Nat.add 0 (map nb_faces l)) with (list_sum (map nb_faces l)).
        apply IH; [intros; apply Hv; now right|intros; apply Hz; now right]. }
    clear -F Z. induction F as [|m q ms qss P F IH]; [reflexivity|]. rewrite total_faces_cons in Z.
    cbn [concat]. rewrite IH by lia. rewrite app_nil_r. apply polygons_length in P. destruct q; [reflexivity|cbn in P; lia].
  Qed.
  Lemma tree_polygons_exist t : all_valid t -> exists qs, tree_polygons t qs.
  Proof.
    intros Hv. unfold tree_polygons. unfold all_valid in Hv. induction (leaves t) as [|m ms IH]; [exists [], []; split; [constructor|reflexivity]|].
    destruct IH as (qs & qss & F & E); [intros; apply Hv; now right|]. destruct (polygons_exist m) as (q & Pq); [apply Hv; now left|].
    exists (q ++ qs), (q :: qss). split; [now constructor|]. cbn. now rewrite E.
  Qed.
  Lemma node_polygons k l qs : tree_polygons (Node k l) qs <-> exists qss, Forall2 tree_polygons l qss /\ qs = concat qss.
  Proof.
    revert qs. induction l as [|x l IH]; intros qs.
    - split.
      + intros (qss & F & E). inversion F; subst. exists []. split; [constructor|reflexivity].
      + intros (qss & F & E). inversion F; subst. exists []. split; [constructor|reflexivity].
    - split.
      + intros (qss & F & E). cbn [leaves map concat] in F. apply Forall2_app_inv_l in F. destruct F as (q1 & q2 & F1 & F2 & ->).
        destruct (proj1 (IH (concat q2))) as (qss & F3 & E3); [exists q2; split; [exact F2|reflexivity]|].
        exists (concat q1 :: qss). split; [constructor; [exists q1; split; [exact F1|reflexivity]|exact F3]|]. rewrite E, concat_app. cbn. now rewrite E3.
      + intros (qss & F & E). inversion F as [|? q ? qss' H1 H2]; subst. destruct H1 as (q1 & F1 & ->).
        destruct (proj2 (IH (concat qss'))) as (q2 & F2 & E2); [now exists qss'|].
        exists (q1 ++ q2). split; [cbn [leaves map concat]; now apply Forall2_app|]. cbn. rewrite concat_app. now rewrite E2.
  Qed.
  Lemma prune_polygons k l qs : (forall x, In x l -> all_valid x) -> tree_polygons (Node k (prune l)) qs <-> tree_polygons (Node k l) qs.
  Proof.
    intros Hv. transitivity (tree_polygons (Node k (filter not_empty l)) qs).
    - unfold prune. destruct (filter not_empty l); [|reflexivity]. rewrite !node_polygons. split.
      + intros (qss & F & ->). inversion F as [|? q ? qss' H1 H2]; subst. inversion H2; subst. destruct H1 as (q1 & F1 & ->).
        cbn in F1. inversion F1 as [|? y ? l2 P F2]; subst. inversion F2; subst. inversion P; subst. exists []. split; [constructor|reflexivity].
      + intros (qss & F & ->). inversion F; subst. exists [[]]. split; [|reflexivity]. constructor; [|constructor].
        exists [[]]. split; [cbn; constructor; [constructor|constructor]|reflexivity].
    - rewrite !node_polygons. revert qs. induction l as [|x l IH]; intros qs; [reflexivity|].
      assert (IH' := IH (fun y Hy => Hv y (or_intror Hy))). clear IH. cbn [filter]. destruct (not_empty x) eqn:E.
      + split; intros (qss & F & ->); inversion F as [|? q ? qss' H1 H2]; subst;
          [destruct (proj1 (IH' (concat qss'))) as (q2 & F2 & E2)|destruct (proj2 (IH' (concat qss'))) as (q2 & F2 & E2)];
          try (now exists qss'); exists (q :: q2); (split; [now constructor|cbn; now rewrite E2]).
      + split.
        * intros (qss & F & ->). destruct (proj1 (IH' (concat qss))) as (q2 & F2 & E2); [now exists qss|].
          destruct (tree_polygons_exist x) as (q & Hq); [apply Hv; now left|].
          pose proof (empty_part x q (Hv x (or_introl eq_refl)) E Hq). subst q. exists ([] :: q2). split; [now constructor|exact E2].
        * intros (qss & F & ->). inversion F as [|? q ? qss' H1 H2]; subst.
          pose proof (empty_part x q (Hv x (or_introl eq_refl)) E H1). subst q. cbn. apply IH'. now exists qss'.
  Qed.

  Lemma tree_clip_spec t : (forall m, In m (leaves t) -> clippable p vicinity m) ->
    exists t' ids, t_clip argsort p t = Ok (t', ids) /\ tree_result t t' ids.
  Proof.
    induction t as [m|k l IH] using tree_induction; intros H.
    - destruct (leaf_ok m) as ([m' ids] & E & C); [apply H; now left|]. cbn [t_clip]. rewrite E. cbn [bind fst snd].
      exists (Leaf m'), ids. split; [reflexivity|]. exists [(m', ids)]. split; [constructor; [split; [exact E|exact C]|constructor]|].
      split; [cbn; rewrite app_nil_r; rewrite map_ext with (g := fun i => i) by (intros; lia); symmetry; apply map_id|].
      split; [|intros qs; reflexivity].
      intros x [<-|[]]. cbn in C. destruct C as (? & ? & ? & ? & ? & ? & C). tauto.
    - cbn [t_clip].
      assert (exists ts, sequence (map (t_clip argsort p) l) = Ok ts /\ Forall2 (fun t r => tree_result t (fst r) (snd r)) l ts) as (ts & Es & F).
      { induction l as [|x l IHl]; [exists []; split; [reflexivity|constructor]|].
        destruct (IH x) as (t' & ids & E & R); [now left|intros m Hm; apply H; cbn [leaves map concat]; apply in_or_app; now left|].
        destruct IHl as (ts & Es & F).
        - intros y Hy. apply IH. now right.
        - intros m Hm. apply H. cbn [leaves map concat] in *. apply in_or_app. now right.
        - exists ((t', ids) :: ts). unfold sequence in *. cbn [map mapM]. rewrite E. cbn [bind]. rewrite Es. split; [reflexivity|]. now constructor. }
      rewrite Es. cbn [bind]. eexists. eexists. split; [reflexivity|].
      change (map (fun i => list_sum (map t_nb_faces (firstn i l))) (seq 0 (length l))) with (sums l).
      assert (Hv : forall x, In x (map fst ts) -> all_valid x).
      { intros x Hx. apply in_map_iff in Hx. destruct Hx as ([t' ids] & <- & Hin). apply In_nth_error in Hin. destruct Hin as (j & Hj).
        destruct (Forall2_nth_r _ _ _ _ _ F Hj) as (y & _ & R). destruct R as (rs & _ & _ & V & _). exact V. }
      assert (G : exists rs, Forall2 leaf_result (concat (map leaves l)) rs
          /\ concat (map (fun sr : nat * (tree * list nat) => map (fun i => i + fst sr) (snd (snd sr))) (combine (sums l) ts))
             = shifted 0 (concat (map leaves l)) (map snd rs)
          /\ forall qs, tree_polygons (Node k (map fst ts)) qs <-> exists qss, Forall2 polygons_of (map fst rs) qss /\ qs = concat qss).
      { clear Es IH H Hv. induction F as [|x [t' ids] l ts R F IH].
        - exists []. split; [constructor|]. split; [reflexivity|]. intros qs. rewrite node_polygons. cbn [map].
          split; intros (qss & Fq & ->); inversion Fq; subst; exists []; (split; [constructor|reflexivity]).
        - destruct IH as (rs2 & F2 & E2 & P2). destruct R as (rs1 & F1 & E1 & V1 & P1). cbn [fst snd] in *.
          exists (rs1 ++ rs2). split; [cbn [map concat]; now apply Forall2_app|]. split.
          + rewrite sums_cons. cbn [combine map concat fst snd]. rewrite map_app, shifted_app by (rewrite map_length; apply (proj1 (proj1 (Forall2_nth _ _ _) F1))).
            rewrite E1. f_equal; [rewrite map_ext with (g := fun i => i) by (intros; lia); apply map_id|].
            rewrite combine_shift, map_map. cbn [fst snd Nat.add]. rewrite <- nb_faces_leaves.
            rewrite shifted_off, <- E2, concat_map, map_map. f_equal. apply map_ext. intros sr. rewrite map_map. apply map_ext. intros i. lia.
          + intros qs. rewrite node_polygons. cbn [map fst]. rewrite map_app. split.
            * intros (qss & Fq & ->). inversion Fq as [|? q ? qss' H1 H2]; subst. apply P1 in H1. destruct H1 as (q1 & A1 & ->).
              destruct (proj1 (P2 (concat qss'))) as (q2 & A2 & A3); [apply node_polygons; now exists qss'|].
              exists (q1 ++ q2). split; [now apply Forall2_app|]. cbn. now rewrite concat_app, A3.
            * intros (qss & Fq & ->). apply Forall2_app_inv_l in Fq. destruct Fq as (q1 & q2 & A1 & A2 & ->).
              destruct (proj1 (node_polygons k (map fst ts) (concat q2))) as (qss' & B1 & B2); [apply P2; now exists q2|].
              exists (concat q1 :: qss'). split; [constructor; [apply P1; now exists q1|exact B1]|]. rewrite concat_app. cbn. now rewrite B2. }
      destruct G as (rs & G1 & G2 & G3). exists rs. split; [exact G1|]. split; [exact G2|]. split.
      + intros m Hm. cbn [leaves] in Hm. apply in_concat in Hm. destruct Hm as (lv & Hlv & Hm). apply in_map_iff in Hlv. destruct Hlv as (x & <- & Hx).
        unfold prune in Hx. destruct (filter not_empty (map fst ts)) as [|y l0] eqn:Ef.
        * destruct Hx as [<-|[]]. cbn in Hm. destruct Hm as [<-|[]]. intros f i [].
        * apply (Hv x); [|exact Hm]. assert (In x (filter not_empty (map fst ts))) by (rewrite Ef; exact Hx). apply filter_In in H0. apply H0.
      + intros qs. rewrite prune_polygons by exact Hv. apply G3.
  Qed.

  Lemma polygons_total qs t : tree_polygons t qs -> length qs = t_nb_faces t.
  Proof.
    intros (qss & F & ->). rewrite nb_faces_leaves. induction F as [|m q ms qss P F IH]; [reflexivity|].
    cbn [concat]. rewrite app_length, IH, total_faces_cons. now rewrite (polygons_length _ _ P).
  Qed.
  (** No small face was removed: the labels match the faces. *)
  Lemma tree_traced t t' ids qs qs' : tree_result t t' ids -> t_nb_faces t' = length ids -> tree_polygons t qs -> tree_polygons t' qs' ->
    traced p qs qs' ids.
  Proof.
    intros (rs & F & -> & _ & P) N (qss & Fq & ->) Hq'. pose proof (polygons_total _ _ Hq') as L'. apply P in Hq'. destruct Hq' as (qss' & Fq' & ->).
    rewrite N, shifted_length in L' by (rewrite map_length; apply (proj1 (proj1 (Forall2_nth _ _ _) F))). clear N P.
    revert qss qss' Fq Fq' L'. induction F as [|m r ms rs [_ C] F IH]; intros qss qss' Fq Fq' L'.
    - inversion Fq; subst. cbn in Fq'. inversion Fq'; subst. split; [reflexivity|]. intros [|k] q' i; discriminate.
    - inversion Fq as [|? q ? qss1 A1 A2]; subst. cbn [map] in Fq'. inversion Fq' as [|? q' ? qss1' B1 B2]; subst.
      cbn [concat shifted map]. cbn [map concat] in L'. rewrite app_length in L'.
      pose proof (clipped_fewer _ _ _ _ C) as Le. pose proof (polygons_length _ _ B1) as Lq'.
      assert (Le2 : length (concat qss1') <= list_sum (map (@length nat) (map snd rs))).
      { clear -F B2. revert qss1' B2. induction F as [|m r ms rs [_ C] F IH]; intros qss1' B2; cbn in B2; inversion B2; subst; [cbn; lia|].
        cbn [concat map]. rewrite app_length. specialize (IH _ H3). pose proof (clipped_fewer _ _ _ _ C). apply polygons_length in H1.
        change (list_sum (length (snd r) :: map (@length nat) (map snd rs))) with (length (snd r) + list_sum (map (@length nat) (map snd rs))). lia. }
      change (list_sum (length (snd r) :: map (@length nat) (map snd rs))) with (length (snd r) + list_sum (map (@length nat) (map snd rs))) in L'.
      assert (nb_faces (fst r) = length (snd r)) by lia.
      rewrite shifted_off. replace (0 + nb_faces m) with (length q) by (rewrite (polygons_length _ _ A1); lia).
      rewrite map_ext with (g := fun i => i) by (intros; lia). rewrite map_id.
      apply traced_app; [now apply (clipped_traced p m (fst r))|]. apply IH; [exact A2|exact B2|lia].
  Qed.
End Tree.

Section BodyClip.
  Variable argsort : list R -> list nat.
  Hypothesis Hsort : sorts argsort.
  Variable p : plane.

  Lemma body_clip_inv b b' : body_clip argsort p b = Ok b' ->
    exists ids, t_clip argsort p (cb_mesh b) = Ok (cb_mesh b', ids)
      /\ (forall d, In d (cb_dofs b) -> length (snd d) = t_nb_faces (cb_mesh b))
      /\ Forall2 (fun d d' => fst d' = fst d /\ picks (snd d) ids (snd d')) (cb_dofs b) (cb_dofs b').
  Proof.
    unfold body_clip. destruct (negb _) eqn:Ec; [discriminate|]. apply negb_false_iff in Ec. rewrite forallb_forall in Ec.
    destruct (t_clip argsort p (cb_mesh b)) as [[t' ids]|] eqn:Et; [|discriminate]. cbn [bind].
    destruct (match cb_lid b with Some lid => _ | None => Ok None end) as [lid|]; [|discriminate]. cbn [bind fst snd].
    destruct (mapM _ (cb_dofs b)) as [dofs|] eqn:Ed; [|discriminate]. cbn [bind]. intros E. injection E as <-. exists ids. cbn [cb_mesh cb_dofs].
    split; [reflexivity|]. split; [intros d Hd; apply Nat.eqb_eq; now apply Ec|].
    apply mapM_ok in Ed. destruct Ed as [L Ed]. apply Forall2_nth. split; [now symmetry|]. intros k d d' Hd Hd'.
    destruct (Ed k d Hd) as (y & Hy & Hk). assert (y = d') by congruence. subst y.
    destruct (mapM (get (snd d)) ids) as [rows|] eqn:Er; [|discriminate]. cbn [bind] in Hy. apply Ok_inj' in Hy. subst d'.
    split; [reflexivity|]. cbn [snd]. apply mapM_ok in Er. destruct Er as [Lr Er]. apply Forall2_nth. split; [now symmetry|].
    intros j i x Hi Hx. destruct (Er j i Hi) as (y & Hy & Hj). apply get_ok in Hy. congruence.
  Qed.
  Lemma ids_range t t' ids : tree_result argsort p t t' ids -> forall i, In i ids -> i < t_nb_faces t.
  Proof.
    intros (rs & F & -> & _) i Hi. rewrite nb_faces_leaves. revert i Hi.
    assert (G : forall off i, In i (shifted off (leaves t) (map snd rs)) -> i < off + total_faces (leaves t)); [|intros i Hi; now apply (G 0)].
    induction F as [|m r ms rs [_ C] F IH]; intros off i Hi; [destruct Hi|]. cbn [map shifted] in Hi. rewrite total_faces_cons.
    apply in_app_or in Hi. destruct Hi as [Hi|Hi].
    - apply in_map_iff in Hi. destruct Hi as (j & <- & Hj). destruct C as (ps & w & qw & qs' & fps & kept & _ & Hr & _). specialize (Hr j Hj). lia.
    - specialize (IH _ _ Hi). lia.
  Qed.
  Lemma body_clip_total b : (forall m, In m (leaves (cb_mesh b)) -> clippable p vicinity m) ->
    (forall lid m, cb_lid b = Some lid -> In m (leaves lid) -> clippable p vicinity m) ->
    (forall d, In d (cb_dofs b) -> length (snd d) = t_nb_faces (cb_mesh b)) ->
    exists b', body_clip argsort p b = Ok b'.
  Proof.
    intros Hm Hl Hd. unfold body_clip.
    assert (Ec : forallb (fun d : nat * list vec => length (snd d) =? t_nb_faces (cb_mesh b)) (cb_dofs b) = true).
    { apply forallb_forall. intros d H. apply Nat.eqb_eq. now apply Hd. }
    rewrite Ec. cbn [negb].
    destruct (tree_clip_spec argsort Hsort p (cb_mesh b) Hm) as (t' & ids & E & R). rewrite E. cbn [bind fst snd].
    assert (exists lid, (match cb_lid b with Some lid => bind (t_clip argsort p lid) (fun l => Ok (if t_nb_faces (fst l) =? 0 then None else Some (fst l))) | None => Ok None end)
      = Ok lid) as (lid & El).
    { destruct (cb_lid b) as [lid|]; [|now exists None]. destruct (tree_clip_spec argsort Hsort p lid (fun m Hm' => Hl lid m eq_refl Hm')) as (l' & i' & E' & _).
      rewrite E'. cbn [bind]. eexists. reflexivity. }
    rewrite El. cbn [bind].
    destruct (mapM_total (fun d : nat * list vec => bind (mapM (get (snd d)) ids) (fun rows => Ok (fst d, rows))) (cb_dofs b)) as (dofs & Ed).
    { intros d H. destruct (mapM_total (get (snd d)) ids) as (rows & Er); [|rewrite Er; cbn [bind]; eexists; reflexivity].
      intros i Hi. apply get_lt. rewrite (Hd d H). exact (ids_range _ _ _ R i Hi). }
    rewrite Ed. cbn [bind]. eexists. reflexivity.
  Qed.
End BodyClip.
