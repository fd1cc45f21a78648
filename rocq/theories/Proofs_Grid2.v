From Coq Require Import Reals List Bool Arith Lia Lra Permutation.
From Verif Require Import Model_Base Model_Geometry Model_Mesh Model_Clip Spec_Mesh Spec_Tree Spec_Clip Model_Tree Model_Body Spec_Body
  Proofs_Geometry Proofs_Mesh Proofs_Mesh3 Proofs_Clip4 Proofs_Clip5 Proofs_Integrals Proofs_Body Proofs_Body2 Spec_Normals Proofs_Normals4 Model_Grid Spec_Grid.
Import ListNotations.
Open Scope R_scope.

Ltac vfield := unfold area_of, area_vector, dot, cross; apply vec_ext; cbn; field.

(** ** Rectangles: area A, diagonal D, normal n *)
Definition rectq (A D : R) (n : vec) (q : polygon) : Prop := exists p u v,
  q = (p, vadd p v, vadd p (vadd u v), vadd p u) /\ dot u v = 0 /\ cross v u = vscale A n /\ dot u u + dot v v = D * D.

Lemma rectq_same A D n q q' : same_polygon q q' -> rectq A D n q -> rectq A D n q'.
Proof.
  intros S (p & u & v & -> & O & X & L). cbn in S. destruct S as [->|[->|[->| ->]]].
  - exists p, u, v. auto.
  - exists (vadd p v), (vopp v), u. split; [|split; [|split]].
    + repeat (f_equal; try vring).
    + rewrite <- Ropp_0, <- O. vring.
    + rewrite <- X. vring.
    + rewrite <- L. vring.
  - exists (vadd p (vadd u v)), (vopp u), (vopp v). split; [|split; [|split]].
    + repeat (f_equal; try vring).
    + rewrite <- O. vring.
    + rewrite <- X. vring.
    + rewrite <- L. vring.
  - exists (vadd p u), v, (vopp u). split; [|split; [|split]].
    + repeat (f_equal; try vring).
    + rewrite <- Ropp_0, <- O. vring.
    + rewrite <- X. vring.
    + rewrite <- L. vring.
Qed.
Lemma norm_scaled A n : unit_vector n -> 0 <= A -> norm (vscale A n) = A.
Proof. intros U H. rewrite norm_scale, U, Rabs_right by lra. ring. Qed.
Lemma rectq_corners A D n q : unit_vector n -> 0 < A -> rectq A D n q -> NoDup (polygon_corners q).
Proof.
  intros U H (p & u & v & -> & O & X & L). cbn [polygon_corners].
  assert (Nu : forall k l, (k <> 0 \/ l <> 0) -> vadd (vscale k u) (vscale l v) <> v0).
  { intros k l N E. assert (Ku : k * dot u u = 0) by (transitivity (dot u (vadd (vscale k u) (vscale l v))); [rewrite dot_add_r, !dot_scale_r, O; ring|rewrite E; vring]).
    assert (Kv : l * dot v v = 0) by (transitivity (dot v (vadd (vscale k u) (vscale l v))); [rewrite dot_add_r, !dot_scale_r, (dot_sym v u), O; ring|rewrite E; vring]).
    assert (X0 : norm (cross v u) = A) by (rewrite X; apply norm_scaled; [exact U|lra]).
    assert (Zero : u = v0 \/ v = v0 -> False).
    { intros [-> | ->]; revert X0; [replace (cross v v0) with v0 by vring|replace (cross v0 u) with v0 by vring];
        rewrite (proj2 (norm_zero v0) eq_refl); lra. }
    destruct N as [N|N].
    - apply Zero. left. apply norm_zero. apply Rsqr_0_uniq. unfold Rsqr. rewrite norm_sq. apply Rmult_integral in Ku. tauto.
    - apply Zero. right. apply norm_zero. apply Rsqr_0_uniq. unfold Rsqr. rewrite norm_sq. apply Rmult_integral in Kv. tauto. }
  assert (D1 : forall x y k l, vsub y x = vadd (vscale k u) (vscale l v) -> (k <> 0 \/ l <> 0) -> x <> y).
  { intros x y k l E N E'. apply (Nu k l N). rewrite <- E, E'. vring. }
  repeat constructor; cbn [In]; intros K; repeat destruct K as [K|K]; try contradiction; revert K;
    match goal with |- ?y = ?x -> _ => enough (x <> y) by congruence end.
  - apply (D1 _ _ 0 1); [vring|right; lra].
  - apply (D1 _ _ 1 1); [vring|right; lra].
  - apply (D1 _ _ 1 0); [vring|left; lra].
  - apply (D1 _ _ 1 0); [vring|left; lra].
  - apply (D1 _ _ 1 (-1)); [vring|left; lra].
  - apply (D1 _ _ 0 (-1)); [vring|right; lra].
Qed.
Lemma rectq_area A D n q : rectq A D n q -> area_of q = vscale A n.
Proof. intros (p & u & v & -> & O & X & L). rewrite <- X. vfield. Qed.
Lemma rectq_well_sized A D n q : unit_vector n -> / 1000000000000 <= A -> rectq A D n q -> well_sized A q.
Proof.
  intros U H (p & u & v & -> & O & X & L). unfold well_sized, tri_area.
  assert (E : area_vector p (vadd p v) (vadd p (vadd u v)) (vadd p u) = vscale A n) by (rewrite <- X; vfield).
  rewrite E, norm_scaled by (assumption || lra).
  assert (T1 : forall w, w = vscale A n -> norm w = A) by (intros w ->; apply norm_scaled; [exact U|lra]).
  rewrite !(fun w => T1 w) by (rewrite <- X; vring). lra.
Qed.
Lemma rectq_props A D n q : unit_vector n -> / 1000000000000 <= A -> 0 <= D -> rectq A D n q ->
  p_area (face_of q) = A /\ p_normal (face_of q) = n /\ p_radius (face_of q) = D / 2
  /\ p_center (face_of q) = vscale (/ 4) (fold_right vadd v0 (polygon_corners q)).
Proof.
  intros U H HD (p & u & v & -> & O & X & L). unfold face_of. cbn [quad_of]. unfold props_of, quad_props. cbn [qa qb qc qd].
  assert (T1 : forall w, w = vscale A n -> norm w = A) by (intros w ->; apply norm_scaled; [exact U|lra]).
  assert (T2 : forall w, w = vscale (2 * A) n -> norm w = 2 * A) by (intros w ->; apply norm_scaled; [exact U|lra]).
  assert (E2 : cross (vsub (vadd p (vadd u v)) p) (vsub (vadd p u) (vadd p v)) = vscale (2 * A) n).
  { transitivity (vscale 2 (cross v u)); [vring|]. rewrite X. vring. }
  rewrite E2, (T2 _ eq_refl). rewrite (Rabs_right (2 * A)) by lra.
  rewrite (proj2 (Rltb_false _ _)) by (unfold degenerate_tol; lra). cbv zeta. cbn [p_area p_normal p_radius p_center].
  rewrite (T1 (cross (vsub (vadd p v) p) _)) by (rewrite <- X; vring).
  replace (norm (cross (vsub (vadd p u) p) (vsub (vadd p (vadd u v)) p))) with A.
  2:{ symmetry. replace (cross _ _) with (vscale (-1) (cross v u)) by vring. rewrite X, norm_scale, norm_scaled, Rabs_left by (assumption || lra). ring. }
  set (c := vscale (/ (A * (1 / 2) + A * (1 / 2))) _).
  assert (Ec : c = vadd p (vscale (/ 2) (vadd u v))).
  { unfold c. apply vec_ext; cbn; field; lra. }
  split; [lra|]. split; [apply vec_ext; cbn; field; lra|]. split.
  - rewrite Ec. unfold radius. cbn [qa qb qc qd].
    assert (R1 : forall w, dot w w = D * D / 4 -> norm w = D / 2).
    { intros w Hw. unfold norm. rewrite Hw. replace (D * D / 4) with ((D / 2) * (D / 2)) by field. apply sqrt_square. lra. }
    assert (R2 : forall s t, s * s = 1 -> t * t = 1 -> dot (vadd (vscale (s / 2) u) (vscale (t / 2) v)) (vadd (vscale (s / 2) u) (vscale (t / 2) v)) = D * D / 4).
    { intros s t Hs Ht. rewrite dot_add_l, !dot_add_r, !dot_scale_l, !dot_scale_r, (dot_sym v u), O, <- L.
      replace (s / 2 * (s / 2 * dot u u)) with (s * s * dot u u / 4) by field. replace (t / 2 * (t / 2 * dot v v)) with (t * t * dot v v / 4) by field.
      rewrite Hs, Ht. field. }
    rewrite (R1 (vsub _ p)) by (rewrite <- (R2 1 1) by lra; f_equal; apply vec_ext; cbn; field).
    rewrite (R1 (vsub _ (vadd p v))) by (rewrite <- (R2 1 (-1)) by lra; f_equal; apply vec_ext; cbn; field).
    rewrite (R1 (vsub _ (vadd p (vadd u v)))) by (rewrite <- (R2 (-1) (-1)) by lra; f_equal; apply vec_ext; cbn; field).
    rewrite (R1 (vsub _ (vadd p u))) by (rewrite <- (R2 (-1) 1) by lra; f_equal; apply vec_ext; cbn; field).
    rewrite !Rmax_left by lra. reflexivity.
  - rewrite Ec. cbn [polygon_corners fold_right]. apply vec_ext; cbn; field.
Qed.

(** ** Meshes made of given polygons *)
Definition carried (m : mesh) (qs : list polygon) : Prop :=
  valid m /\ all_used m /\ NoDup (m_vertices m) /\ exists qs', polygons_of m qs' /\ Forall2 same_polygon qs qs'.
Definition spaced (qs : list polygon) : Prop := forall p p' q q', In q qs -> In q' qs ->
  In p (polygon_corners q) -> In p' (polygon_corners q') -> p = p' \/ / 1000000 <= dist p p'.

Lemma near_dist u v : near (/ 100000000) u v -> dist u v < / 1000000.
Proof.
  intros (X & Y & Z). unfold dist. assert (N : norm (vsub u v) * norm (vsub u v) <= 3 * (/ 100000000 * / 100000000)).
  { rewrite norm_sq. unfold dot. cbn [vsub vx vy vz].
    assert (S : forall t, Rabs t <= / 100000000 -> t * t <= / 100000000 * / 100000000).
    { intros t Ht. rewrite <- (Rabs_pos_eq (t * t)) by nra. rewrite Rabs_mult. apply Rmult_le_compat; try apply Rabs_pos; assumption. }
    pose proof (S _ X). pose proof (S _ Y). pose proof (S _ Z). lra. }
  pose proof (norm_pos (vsub u v)). apply Rnot_le_lt. intros K. 
  assert (/ 1000000 * / 1000000 <= norm (vsub u v) * norm (vsub u v)) by (apply Rmult_le_compat; lra). lra.
Qed.
Lemma same_polygon_corners q q' p : same_polygon q q' -> In p (polygon_corners q') -> In p (polygon_corners q).
Proof. destruct q as [[[a b] c] d]. intros [->|[->|[->| ->]]]; cbn; tauto. Qed.
Lemma carried_face m qs k f : carried m qs -> nth_error (m_faces m) k = Some f ->
  exists q q', nth_error qs k = Some q /\ same_polygon q q' /\ corners_at (m_vertices m) f q'.
Proof.
  intros (Vm & Um & Nm & qs' & P & S) Hk. destruct (Forall2_nth_l _ _ _ _ _ P Hk) as (q' & Hq' & C).
  destruct (Forall2_nth_r _ _ _ _ _ S Hq') as (q & Hq & Sq). eauto.
Qed.
Lemma corners_in vs f q k : corners_at vs f q -> In k [fa f; fb f; fc f; fd f] -> exists p, nth_error vs k = Some p /\ In p (polygon_corners q).
Proof.
  destruct q as [[[a b] c] d]. intros (A & B & C & D) Hk. cbn [polygon_corners]. cbn [In] in Hk.
  destruct Hk as [<-|[<-|[<-|[<-|[]]]]]; eexists; (split; [eassumption|]); cbn; tauto.
Qed.
Lemma carried_vertex m qs k p : carried m qs -> nth_error (m_vertices m) k = Some p -> exists q, In q qs /\ In p (polygon_corners q).
Proof.
  intros C Hk. pose proof C as (Vm & Um & _). destruct (Um k) as (f & Hf & Hi); [apply nth_error_Some; congruence|].
  apply In_nth_error in Hf. destruct Hf as [i Hf]. destruct (carried_face m qs i f C Hf) as (q & q' & Hq & Sq & Cq).
  destruct (corners_in _ _ _ _ Cq Hi) as (p' & Hp & Hc). assert (p' = p) as -> by congruence.
  exists q. split; [now apply nth_error_In in Hq|]. exact (same_polygon_corners _ _ _ Sq Hc).
Qed.
Lemma corners_nodup vs f q : corners_at vs f q -> NoDup (polygon_corners q) -> NoDup [fa f; fb f; fc f; fd f].
Proof.
  destruct q as [[[a b] c] d]. intros (A & B & C & D) N. cbn [polygon_corners] in N.
  repeat match goal with H : NoDup (_ :: _) |- _ => apply NoDup_cons_iff in H; destruct H end. cbn [In] in *.
  repeat constructor; cbn [In]; intros K; repeat destruct K as [K|K]; try contradiction; rewrite K in *; intuition congruence.
Qed.
Lemma same_polygon_nodup q q' : same_polygon q q' -> NoDup (polygon_corners q) -> NoDup (polygon_corners q').
Proof.
  destruct q as [[[a b] c] d]. intros S N. cbn [polygon_corners] in N.
  repeat match goal with H : NoDup (_ :: _) |- _ => apply NoDup_cons_iff in H; destruct H end. cbn [In] in *.
  destruct S as [->|[->|[->| ->]]]; cbn [polygon_corners]; repeat constructor; cbn [In]; intuition congruence.
Qed.
Lemma same_polygon_sym q q' : same_polygon q q' -> same_polygon q' q.
Proof. destruct q as [[[a b] c] d]. intros [->|[->|[->| ->]]]; cbn; auto. Qed.
Lemma same_polygon_trans q q' q'' : same_polygon q q' -> same_polygon q' q'' -> same_polygon q q''.
Proof. destruct q as [[[a b] c] d]. intros [->|[->|[->| ->]]]; cbn; tauto. Qed.
Lemma same_polygon_refl q : same_polygon q q.
Proof. destruct q as [[[a b] c] d]. now left. Qed.

Section Regular.
  Variables (A D : R) (n : vec).
  Hypothesis Un : unit_vector n.
  Hypothesis HA : / 1000000000000 <= A.

  Lemma carried_tidy m qs : Forall (rectq A D n) qs -> spaced qs -> qs <> [] -> carried m qs -> tidy m.
  Proof.
    intros Rq Sp Nq C. pose proof C as (Vm & Um & Nm & qs' & P & S).
    split; [exact Vm|]. split; [exact Um|]. split; [|split; [|split]].
    - intros E. unfold polygons_of in P. rewrite E in P. inversion P. subst. inversion S. now subst.
    - intros i j u v Hi Hj Hn. destruct (carried_vertex m qs i u C Hi) as (q & Hq & Cu). destruct (carried_vertex m qs j v C Hj) as (q' & Hq' & Cv).
      destruct (Sp u v q q' Hq Hq' Cu Cv) as [-> |K]; [|apply near_dist in Hn; lra].
      apply (proj1 (NoDup_nth_error (m_vertices m)) Nm); [apply nth_error_Some; congruence|congruence].
    - intros f Hf. right. apply In_nth_error in Hf. destruct Hf as [k Hf]. destruct (carried_face m qs k f C Hf) as (q & q' & Hq & Sq & Cq).
      apply (corners_nodup _ _ _ Cq). apply (same_polygon_nodup _ _ Sq). apply (rectq_corners A D n); [exact Un|lra|].
      apply (proj1 (Forall_forall _ _) Rq). now apply nth_error_In in Hq.
    - exists A. intros k a b c d (f & Hf & Ca & Cb & Cc & Cd). destruct (carried_face m qs k f C Hf) as (q & q' & Hq & Sq & Cq).
      assert (q' = (a, b, c, d)) as ->.
      { destruct q' as [[[a' b'] c'] d']. destruct Cq as (? & ? & ? & ?). congruence. }
      apply (rectq_well_sized A D n); [exact Un|exact HA|]. apply (rectq_same _ _ _ _ _ Sq).
      apply (proj1 (Forall_forall _ _) Rq). now apply nth_error_In in Hq.
  Qed.
End Regular.
Lemma spread_nodup vs : spread vs -> NoDup vs.
Proof.
  intros S. apply NoDup_nth_error. intros i j Hi E. apply nth_error_Some in Hi. destruct (nth_error vs i) as [u|] eqn:Ei; [|contradiction].
  apply (S i j u u Ei); [congruence|]. unfold near. rewrite !Rminus_diag_eq, Rabs_R0 by reflexivity. lra.
Qed.
Lemma Forall2_same_trans qs qs' qs'' : Forall2 same_polygon qs qs' -> Forall2 same_polygon qs' qs'' -> Forall2 same_polygon qs qs''.
Proof.
  intros H. revert qs''. induction H as [|q q' qs qs' Hq H IH]; intros qs'' H'; inversion H'; subst; [constructor|].
  constructor; [eapply same_polygon_trans; eassumption|now apply IH].
Qed.
Lemma healed_carried m m' qs : carried m qs -> healed m m' -> tidy m' -> carried m' qs.
Proof.
  intros (_ & _ & _ & qs1 & P & S) H (Vm & Um & _ & Sm & _). split; [exact Vm|]. split; [exact Um|]. split; [now apply spread_nodup|].
  destruct (healed_polygons m m' qs1 H P) as (qs2 & P2 & S2). exists qs2. split; [exact P2|]. exact (Forall2_same_trans _ _ _ S S2).
Qed.

(** ** Numberings of the same polygons *)
Section Transfer.
  Variables m m' : mesh.
  Variable qs : list polygon.
  Hypothesis C : carried m qs.
  Hypothesis C' : carried m' qs.
  Hypothesis Dq : Forall (fun q => NoDup (polygon_corners q)) qs.
  Definition tied (x x' : nat) : Prop := exists p, nth_error (m_vertices m) x = Some p /\ nth_error (m_vertices m') x' = Some p.
  Lemma tied_l x y x' : tied x x' -> tied y x' -> x = y.
  Proof.
    intros (p & A & B) (p' & A' & B'). destruct C as (_ & _ & N & _). apply (proj1 (NoDup_nth_error (m_vertices m)) N); [apply nth_error_Some; congruence|congruence].
  Qed.
  Lemma tied_r x x' y' : tied x x' -> tied x y' -> x' = y'.
  Proof.
    intros (p & A & B) (p' & A' & B'). destruct C' as (_ & _ & N & _). apply (proj1 (NoDup_nth_error (m_vertices m')) N); [apply nth_error_Some; congruence|congruence].
  Qed.
  Lemma sides_quad f : NoDup [fa f; fb f; fc f; fd f] -> sides f = [(fa f, fb f); (fb f, fc f); (fc f, fd f); (fd f, fa f)].
  Proof.
    intros N. unfold sides. destruct (Nat.eqb_spec (fa f) (fd f)) as [E|E]; [|reflexivity]. apply NoDup_cons_iff in N. destruct N as [N _]. exfalso. apply N. rewrite E. cbn; tauto.
  Qed.
  Lemma tied_face k f' : nth_error (m_faces m') k = Some f' -> exists f, nth_error (m_faces m) k = Some f
    /\ NoDup [fa f'; fb f'; fc f'; fd f']
    /\ (forall x', has f' x' -> exists x, has f x /\ tied x x')
    /\ (forall x' y', In (x', y') (sides f') -> exists x y, In (x, y) (sides f) /\ tied x x' /\ tied y y')
    /\ (forall x y x' y', In (x, y) (sides f) -> tied x x' -> tied y y' -> In (x', y') (sides f')).
  Proof.
    intros Hk. destruct (carried_face m' qs k f' C' Hk) as (q & q2 & Hq & S2 & K2).
    pose proof C as (_ & _ & _ & qs1 & P & S). destruct (Forall2_nth_l _ _ _ _ _ S Hq) as (q1 & Hq1 & S1).
    destruct (Forall2_nth_r _ _ _ _ _ P Hq1) as (f & Hf & K1). exists f. split; [exact Hf|].
    assert (N : NoDup (polygon_corners q)) by (apply (proj1 (Forall_forall _ _) Dq); now apply nth_error_In in Hq).
    pose proof (corners_nodup _ _ _ K1 (same_polygon_nodup _ _ S1 N)) as Nf. pose proof (corners_nodup _ _ _ K2 (same_polygon_nodup _ _ S2 N)) as Nf'.
    split; [exact Nf'|]. rewrite (sides_quad f Nf), (sides_quad f' Nf').
    pose proof (same_polygon_trans _ _ _ (same_polygon_sym _ _ S1) S2) as S12. clear S1 S2 N Nf Nf' Hq1 Hq.
    destruct q1 as [[[a b] c] d], q2 as [[[a' b'] c'] d']. destruct K1 as (Ka & Kb & Kc & Kd), K2 as (Ka' & Kb' & Kc' & Kd').
    assert (T : exists x1 x2 x3 x4, tied x1 (fa f') /\ tied x2 (fb f') /\ tied x3 (fc f') /\ tied x4 (fd f')
      /\ (F x1 x2 x3 x4 = f \/ F x1 x2 x3 x4 = F (fb f) (fc f) (fd f) (fa f) \/ F x1 x2 x3 x4 = F (fc f) (fd f) (fa f) (fb f)
          \/ F x1 x2 x3 x4 = F (fd f) (fa f) (fb f) (fc f))).
    { destruct S12 as [E|[E|[E|E]]]; injection E as -> -> -> ->.
      - exists (fa f), (fb f), (fc f), (fd f). repeat (split; [eexists; split; eassumption|]). left. now destruct f.
      - exists (fb f), (fc f), (fd f), (fa f). repeat (split; [eexists; split; eassumption|]). auto.
      - exists (fc f), (fd f), (fa f), (fb f). repeat (split; [eexists; split; eassumption|]). auto.
      - exists (fd f), (fa f), (fb f), (fc f). repeat (split; [eexists; split; eassumption|]). auto. }
    clear S12 Ka Kb Kc Kd Ka' Kb' Kc' Kd'. destruct T as (x1 & x2 & x3 & x4 & T1 & T2 & T3 & T4 & E).
    assert (Es : forall x, has f x <-> In x [x1; x2; x3; x4]).
    { intros x. unfold has. destruct E as [<-|[E|[E|E]]]; [reflexivity|..]; injection E as -> -> -> ->; cbn [In]; tauto. }
    assert (Ed : forall x y, In (x, y) [(fa f, fb f); (fb f, fc f); (fc f, fd f); (fd f, fa f)] <-> In (x, y) [(x1, x2); (x2, x3); (x3, x4); (x4, x1)]).
    { intros x y. destruct E as [<-|[E|[E|E]]]; [reflexivity|..]; injection E as -> -> -> ->; cbn [In]; tauto. }
    split; [|split].
    - intros x'. unfold has at 1. cbn [In]. intros [<-|[<-|[<-|[<-|[]]]]]; [exists x1|exists x2|exists x3|exists x4]; (split; [apply Es; cbn; tauto|assumption]).
    - intros x' y' [H|[H|[H|[H|[]]]]]; apply (proj1 (pair_equal_spec _ _ _ _)) in H; destruct H as [<- <-];
        [exists x1, x2|exists x2, x3|exists x3, x4|exists x4, x1]; (split; [apply Ed; cbn; tauto|split; assumption]).
    - intros x y x' y' H Tx Ty. apply Ed in H. cbn [In] in H.
      destruct H as [H|[H|[H|[H|[]]]]]; apply (proj1 (pair_equal_spec _ _ _ _)) in H; destruct H as [<- <-]; cbn [In].
      + left. f_equal; eapply tied_r; eassumption.
      + right. left. f_equal; eapply tied_r; eassumption.
      + do 2 right. left. f_equal; eapply tied_r; eassumption.
      + do 3 right. left. f_equal; eapply tied_r; eassumption.
  Qed.
  Lemma transfer_consistent : consistent (m_faces m) -> consistent (m_faces m').
  Proof.
    intros K i j f' g' a' b' Hi Hj Ne Hf Hg. destruct (tied_face i f' Hi) as (f & Ef & _ & _ & F1 & _). destruct (tied_face j g' Hj) as (g & Eg & _ & _ & G1 & _).
    destruct (F1 _ _ Hf) as (a & b & Hab & Ta & Tb). destruct (G1 _ _ Hg) as (a2 & b2 & Hab2 & Ta2 & Tb2).
    rewrite (tied_l _ _ _ Ta2 Ta), (tied_l _ _ _ Tb2 Tb) in Hab2. exact (K i j f g a b Ef Eg Ne Hab Hab2).
  Qed.
  Lemma transfer_conformal : conformal (m_faces m) -> conformal (m_faces m').
  Proof.
    intros (K1 & K2 & K3). split; [|split].
    - intros f' Hf. apply In_nth_error in Hf. destruct Hf as [k Hf]. destruct (tied_face k f' Hf) as (_ & _ & N & _). now right.
    - intros i j f' g' a' b' Hi Hj Ne Nab Fa Fb Ga Gb.
      destruct (tied_face i f' Hi) as (f & Ef & _ & F1 & _ & F3). destruct (tied_face j g' Hj) as (g & Eg & _ & G1 & _ & G3).
      destruct (F1 _ Fa) as (a & Ha & Ta). destruct (F1 _ Fb) as (b & Hb & Tb).
      destruct (G1 _ Ga) as (a2 & Ha2 & Ta2). destruct (G1 _ Gb) as (b2 & Hb2 & Tb2).
      rewrite (tied_l _ _ _ Ta2 Ta) in Ha2. rewrite (tied_l _ _ _ Tb2 Tb) in Hb2.
      assert (N : a <> b) by (intros E; rewrite E in Ta; exact (Nab (tied_r _ _ _ Ta Tb))).
      destruct (K2 i j f g a b Ef Eg Ne N Ha Hb Ha2 Hb2) as (Sf & Sg & Only). split; [|split].
      + destruct Sf as [Sf|Sf]; [left; exact (F3 _ _ _ _ Sf Ta Tb)|right; exact (F3 _ _ _ _ Sf Tb Ta)].
      + destruct Sg as [Sg|Sg]; [left; exact (G3 _ _ _ _ Sg Ta Tb)|right; exact (G3 _ _ _ _ Sg Tb Ta)].
      + intros c' Fc Gc. destruct (F1 _ Fc) as (c & Hc & Tc). destruct (G1 _ Gc) as (c2 & Hc2 & Tc2). rewrite (tied_l _ _ _ Tc2 Tc) in Hc2.
        destruct (Only c Hc Hc2) as [E|E]; rewrite E in Tc; [left; exact (tied_r _ _ _ Tc Ta)|right; exact (tied_r _ _ _ Tc Tb)].
    - intros i j k f' g' h' a' b' Hi Hj Hk Nab Fa Fb Ga Gb Ha Hb.
      destruct (tied_face i f' Hi) as (f & Ef & _ & F1 & _). destruct (tied_face j g' Hj) as (g & Eg & _ & G1 & _). destruct (tied_face k h' Hk) as (h & Eh & _ & H1 & _).
      destruct (F1 _ Fa) as (a & Fa' & Ta). destruct (F1 _ Fb) as (b & Fb' & Tb).
      destruct (G1 _ Ga) as (a2 & Ga' & Ta2). destruct (G1 _ Gb) as (b2 & Gb' & Tb2). rewrite (tied_l _ _ _ Ta2 Ta) in Ga'. rewrite (tied_l _ _ _ Tb2 Tb) in Gb'.
      destruct (H1 _ Ha) as (a3 & Ha' & Ta3). destruct (H1 _ Hb) as (b3 & Hb' & Tb3). rewrite (tied_l _ _ _ Ta3 Ta) in Ha'. rewrite (tied_l _ _ _ Tb3 Tb) in Hb'.
      assert (N : a <> b) by (intros E; rewrite E in Ta; exact (Nab (tied_r _ _ _ Ta Tb))).
      exact (K3 i j k f g h a b Ef Eg Eh N Fa' Fb' Ga' Gb' Ha' Hb').
  Qed.
End Transfer.
