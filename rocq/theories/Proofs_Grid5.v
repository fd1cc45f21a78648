From Coq Require Import Reals List Bool Arith ZArith Lia Lra Permutation.
From Verif Require Import Model_Base Model_Geometry Model_Mesh Model_Clip Spec_Mesh Spec_Tree Spec_Clip Model_Tree Model_Body Spec_Body
  Proofs_Geometry Proofs_Mesh Proofs_Mesh3 Proofs_Clip4 Proofs_Clip5 Proofs_Integrals Proofs_Tree Proofs_Tree2 Proofs_Body Proofs_Body2
  Model_Quality Spec_Quality Model_Normals Spec_Normals Proofs_Normals4 Model_Grid Spec_Grid Proofs_Grid Proofs_Grid2 Proofs_Grid3 Proofs_Grid4.
Import ListNotations.
Open Scope R_scope.

(** ** Trees of meshes made of rectangles *)
Lemma carried_tree t qss : Forall2 carried (leaves t) qss -> exists qs', tree_polygons t qs' /\ Forall2 same_polygon (concat qss) qs'.
Proof.
  unfold tree_polygons. generalize (leaves t). clear t. intros ms H. induction H as [|m qs ms qss C H (qs' & (qss' & P & ->) & S)].
  - exists []. split; [exists []; now split|constructor].
  - destruct C as (_ & _ & _ & q & Pq & Sq). exists (q ++ concat qss'). split; [exists (q :: qss'); split; [now constructor|reflexivity]|].
    cbn. now apply Forall2_app.
Qed.
Lemma made_carried t qss qs : Forall2 carried (leaves t) qss -> Permutation qs (concat qss) -> made_of t qs.
Proof. intros H P. destruct (carried_tree t qss H) as (qs' & T & S). exists (concat qss), qs'. auto. Qed.
Definition rect_props (A D : R) (n : vec) (p : fprops) : Prop := p_area p = A /\ p_normal p = n /\ p_radius p = D / 2.
Lemma carried_props t qss A D n : unit_vector n -> / 1000000000000 <= A -> 0 <= D -> filled t -> Forall2 carried (leaves t) qss ->
  Forall (rectq A D n) (concat qss) -> exists ps, t_props t = Ok ps /\ length ps = length (concat qss) /\ Forall (rect_props A D n) ps.
Proof.
  intros Un HA HD F H Rq. destruct (carried_tree t qss H) as (qs' & T & S). exists (map face_of qs'). split; [now apply tree_props|].
  split; [rewrite map_length; symmetry; exact (proj1 (proj1 (Forall2_nth _ _ _) S))|]. clear T H F. induction S as [|q q' qs qs' Sq S IH]; cbn; [constructor|].
  inversion Rq; subst. constructor; [|now apply IH].
  destruct (rectq_props A D n q') as (X & Y & Z & _); [assumption..|eapply rectq_same; eassumption|]. repeat split; assumption.
Qed.
Lemma rectq_moved f l A D n q : motion f l -> rectq A D n q -> rectq A D (l n) (poly_map f q).
Proof.
  intros (F & Ad & Sc & Dt & Cr) (p & u & v & -> & O & X & L). exists (f p), (l u), (l v). cbn [poly_map]. rewrite !F, !Ad, !Dt, Cr, X, Sc. auto.
Qed.
Lemma poly_map_map f g q : poly_map f (poly_map g q) = poly_map (fun p => f (g p)) q.
Proof. now destruct q as [[[a b] c] d]. Qed.

Section Finish.
  Variable argsort : list R -> list nat.
  Hypothesis Hs : sorts argsort.
  Variable set_order : list nat -> list nat.
  Hypothesis Ho : forall l, Permutation l (set_order l).

  Lemma heal_leaf_closed m : heal_leaf argsort (heal_normals set_order) true m = bind (heal_leaf argsort (heal_normals set_order) false m) (heal_normals set_order).
  Proof. unfold heal_leaf. destruct (remove_unused m); [cbn [bind]|reflexivity]. destruct (remove_degenerated _ _); [cbn [bind]|reflexivity]. now destruct (merge_duplicates _ _ _). Qed.

  (** A flat vertical mesh is neither flipped nor reversed. *)
  Lemma heal_vertical m qs A D n : unit_vector n -> vz n = 0 -> / 1000000000000 <= A -> 0 <= D -> Forall (rectq A D n) qs -> spaced qs -> qs <> [] ->
    conformal (m_faces m) -> consistent (m_faces m) -> carried m qs ->
    exists m', heal_leaf argsort (heal_normals set_order) true m = Ok m' /\ carried m' qs.
  Proof.
    intros Un Zn HA HD Rq Sp Nq Cf Cs C. pose proof (carried_tidy A D n Un HA m qs Rq Sp Nq C) as T.
    destruct (heal_tidy argsort Hs (heal_normals set_order) m T) as (m' & E & T' & N' & H').
    assert (C' : carried m' qs) by (apply (healed_carried m m' qs C); [split; [exact T'|split; assumption]|exact T']).
    exists m'. split; [|exact C']. rewrite heal_leaf_closed, E. cbn [bind].
    assert (Dq : Forall (fun q => NoDup (polygon_corners q)) qs).
    { eapply Forall_impl; [|exact Rq]. intros q Hq. apply (rectq_corners A D n); [exact Un|lra|exact Hq]. }
    assert (Ne : m_faces m' <> []) by apply T'.
    destruct (heal_consistent_already set_order Ho m' (proj1 T') Ne (transfer_conformal m m' qs C C' Dq Cf) (transfer_consistent m m' qs C C' Dq Cs)) as [K|K];
      [exact K|]. rewrite K. unfold outwards.
    assert (exists z, highest m' = Ok z) as [z ->].
    { unfold highest. destruct (m_vertices m') as [|x xs] eqn:Ev; [|eauto]. exfalso. destruct (m_faces m') as [|f fs] eqn:Ef; [contradiction|].
      assert (fa f < length (m_vertices m'))%nat by (apply (proj1 T' f); [rewrite Ef; now left|now left]). rewrite Ev in H. cbn in H. lia. }
    cbn [bind]. destruct (carried_props (Leaf m') [qs] A D n Un HA HD ltac:(constructor) ltac:(constructor; [exact C'|constructor]) ltac:(cbn; now rewrite app_nil_r)) as (ps & Ep & _ & Fp).
    cbn [t_props] in Ep. rewrite Ep. cbn [bind]. replace (vertical_flux z ps) with 0; [rewrite (proj2 (Rltb_false 0 0)) by lra; reflexivity|].
    unfold vertical_flux. clear - Fp Zn. induction Fp as [|p ps (X & Y & Z) Fp IH]; [reflexivity|]. cbn [map]. rewrite Rsum_cons, <- IH, Y, Zn. ring.
  Qed.

  (** The last steps, for the healed tree. *)
  Lemma aligned_tree t qss A D N n c : unit_vector N -> unit_vector n -> alignable N n -> / 1000000000000 <= A -> 0 <= D -> filled t ->
    Forall2 carried (leaves t) qss -> Forall (rectq A D N) (concat qss) -> concat qss <> [] ->
    exists f l t', t_align (t_translate t c) c n = Ok t' /\ motion f l /\ f c = c /\ l N = n /\ turns l N n /\ filled t'
      /\ Forall2 carried (leaves t') (map (map (poly_map (fun p => f (vadd p c)))) qss)
      /\ Forall (rectq A D n) (map (poly_map (fun p => f (vadd p c))) (concat qss)).
  Proof.
    intros UN Un Al HA HD F H Rq Ne.
    assert (Inj : forall x y, vadd x c = vadd y c -> x = y) by (intros x y; apply (motion_inj _ _ x y (motion_translate c))).
    assert (H1 : Forall2 carried (leaves (t_translate t c)) (map (map (poly_map (fun p => vadd p c))) qss)).
    { rewrite leaves_translate. clear - H Inj. induction H as [|m qs ms qss C H IH]; cbn; constructor; [|exact IH]. now apply (carried_moved (fun p => vadd p c)). }
    assert (R1 : Forall (rectq A D N) (concat (map (map (poly_map (fun p => vadd p c))) qss))).
    { rewrite <- concat_map. apply Forall_map. eapply Forall_impl; [|exact Rq]. intros q Hq. exact (rectq_moved _ _ A D N q (motion_translate c) Hq). }
    destruct (carried_props (t_translate t c) _ A D N UN HA HD (filled_translate _ _ F) H1 R1) as (ps & Ep & Lp & Fp).
    destruct ps as [|p ps].
    { exfalso. rewrite <- concat_map, map_length in Lp. destruct (concat qss); [contradiction|discriminate]. }
    inversion Fp as [|? ? (_ & Hn & _) _]; subst.
    destruct (aligned (t_translate t c) _ n c p ps Ep eq_refl UN Un Al) as (f & l & t' & E & M & Fc & Ln & Lx & Lv & Fl).
    exists f, l, t'. split; [exact E|]. split; [exact M|]. split; [exact Fc|]. split; [exact Ln|]. split; [exact Lx|]. split; [apply Fl; now apply filled_translate|]. split.
    - rewrite Lv. replace (map (map (poly_map (fun p0 => f (vadd p0 c)))) qss) with (map (map (poly_map f)) (map (map (poly_map (fun p => vadd p c))) qss)).
      + revert H1. generalize (leaves (t_translate t c)) (map (map (poly_map (fun p => vadd p c))) qss). clear - M. intros ms qss H1. induction H1 as [|m qs ms qss C H IH]; cbn; constructor; [|exact IH]. apply carried_moved; [intros; eapply motion_inj; eassumption|exact C].
      + rewrite map_map. apply map_ext. intros qs. rewrite map_map. apply map_ext. intros q. apply poly_map_map.
    - apply Forall_map. eapply Forall_impl; [|exact Rq]. intros q Hq. rewrite <- (poly_map_map f (fun p => vadd p c)), <- Ln.
      apply rectq_moved; [exact M|]. exact (rectq_moved _ _ A D _ q (motion_translate c) Hq).
  Qed.
End Finish.
