(** Slices of bodies. *)
From Coq Require Import Reals String Ascii List Bool ZArith Arith Lra Lia Permutation.
From Verif Require Import Model_Base Model_Geometry Model_Mesh Model_Quality Spec_Mesh Model_Tree Spec_Tree Spec_Clip Spec_Quality Proofs_Geometry Proofs_Mesh Proofs_Mesh2 Proofs_Mesh3
  Proofs_Tree Proofs_Clip4 Proofs_Clip5 Proofs_Clip6 Spec_Integrals Proofs_Integrals Model_Body Spec_Body Proofs_Body Proofs_Body2 Proofs_Body3 Proofs_Symmetry Proofs_Points Proofs_Dataset Proofs_Grid8
  Spec_Slice Proofs_Slice Proofs_Slice2.
Import ListNotations.
Open Scope R_scope.

(** ** The centre of a flat polygon does not depend on its first corner *)
Lemma triangle_planar a b c : / 1000000000000 <= 2 * norm (area_vector a b c a) -> planar_convex a b c a.
Proof.
  intros L. assert (E : area_vector a b c a = vscale (1 / 2) (cross (vsub b a) (vsub c b))) by (unfold area_vector; destruct a, b, c; unfold cross, vsub, vscale, vadd; cbn; f_equal; field).
  set (w := cross (vsub b a) (vsub c b)) in *. assert (Pw : 0 < norm w) by (rewrite E, norm_scale, Rabs_right in L; lra).
  exists (vscale (/ norm w) w), (norm w), (norm w), 0, 0. split.
  - unfold unit_vector. rewrite norm_scale, Rabs_right; [field; lra|]. apply Rle_ge, Rlt_le, Rinv_0_lt_compat, Pw.
  - assert (W : w = vscale (norm w) (vscale (/ norm w) w)) by (generalize (norm w) Pw; clear; intros n Pn; destruct w; unfold vscale; cbn; f_equal; field; lra).
    split; [lra|]. split; [lra|]. split; [lra|]. split; [lra|]. split; [exact W|]. split.
    + rewrite <- W. clear. subst w. destruct a, b, c. unfold cross, vsub. cbn. f_equal; ring.
    + split; generalize (vscale (/ norm w) w); clear - a b c; intros u; destruct a, b, c, u; unfold cross, vsub, vscale; cbn; f_equal; ring.
Qed.
Lemma proper_planar a b c d : proper_face (a, b, c, d) -> planar_convex a b c d.
Proof. intros [[->|P] L]; [now apply triangle_planar|exact P]. Qed.
Lemma center_next a b c d : planar_convex a b c d -> p_center (face_of (b, c, d, a)) = p_center (face_of (a, b, c, d)).
Proof. intros P. unfold face_of, quad_of, props_of. rewrite (planar_props_next _ _ _ _ P). destruct (quad_props (Q a b c d)) as [[? ?] ?]. reflexivity. Qed.
Lemma proper_next a b c d : proper_face (a, b, c, d) -> proper_face (b, c, d, a).
Proof.
  intros H. pose proof (proper_planar _ _ _ _ H) as P. split; [right; now apply planar_next|]. destruct H as [_ L].
  replace (area_vector b c d a) with (area_vector a b c d); [exact L|]. clear. unfold area_vector. destruct a, b, c, d. unfold vscale, vadd, cross. cbn. f_equal; ring.
Qed.
Lemma same_center q q' : proper_face q -> same_polygon q q' -> proper_face q' /\ p_center (face_of q') = p_center (face_of q).
Proof.
  destruct q as [[[a b] c] d]. intros H. pose proof (proper_next _ _ _ _ H) as H1. pose proof (proper_next _ _ _ _ H1) as H2. pose proof (proper_next _ _ _ _ H2) as H3.
  pose proof (center_next _ _ _ _ (proper_planar _ _ _ _ H)) as C1. pose proof (center_next _ _ _ _ (proper_planar _ _ _ _ H1)) as C2. pose proof (center_next _ _ _ _ (proper_planar _ _ _ _ H2)) as C3.
  intros [->|[->|[->| ->]]]; (split; [assumption|congruence]).
Qed.
Lemma same_centers qs qs' p : Forall proper_face qs -> Forall2 same_polygon qs qs' -> sided p qs -> Forall proper_face qs' /\ sided p qs'.
Proof.
  intros G F. assert (H : Forall proper_face qs' /\ forall q', In q' qs' -> exists q, In q qs /\ p_center (face_of q') = p_center (face_of q)).
  { induction F as [|q q' qs qs' Hq F IH]; [split; [constructor|intros q' []]|]. inversion G as [|? ? Gq Gr]; subst. destruct (IH Gr) as [I1 I2]. destruct (same_center _ _ Gq Hq) as [C1 C2].
    split; [now constructor|]. intros y [<-|Hy]; [exists q; split; [now left|exact C2]|]. destruct (I2 y Hy) as (x & Hx & Ex). exists x. split; [now right|exact Ex]. }
  destruct H as [H1 H2]. intros [S0|S0]; (split; [exact H1|]); [left|right]; intros q' Hq'; destruct (H2 q' Hq') as (q & Hq & ->); now apply S0.
Qed.

Section Body.
  Variable argsort : list R -> list nat.
  Hypothesis Hs : sorts argsort.
  Variable heal_normals : mesh -> result mesh.
  Variable set_order : list nat -> list nat.
  Hypothesis order_perm : forall l, Permutation l (set_order l).

  Local Notation sliceable := (Spec_Slice.sliceable argsort heal_normals).
  Definition leaf_sided (p : plane) (m : mesh) : Prop := exists qs, polygons_of m qs /\ sided p qs.
  Lemma leaf_sided_spec p m : leaf_sided p m <-> on_one_side p m /\ valid m.
  Proof.
    split.
    - intros (qs & P & S). split; [|exact (polygons_valid _ _ P)]. exists (map face_of qs). split; [exact (leaf_props _ _ P)|].
      destruct S as [S|S]; [left|right]; intros x Hx; apply in_map_iff in Hx; destruct Hx as (q & <- & Hq); now apply S.
    - intros [(ps & E & S) Vm]. destruct (polygons_exist m Vm) as [qs P]. exists qs. split; [exact P|]. rewrite (leaf_props _ _ P) in E. apply Ok_inj' in E. subst ps.
      destruct S as [S|S]; [left|right]; intros q Hq; apply S, in_map, Hq.
  Qed.
  Lemma tidy_positive t : tidy_tree t -> Nat.ltb 0 (t_nb_vertices t) && Nat.ltb 0 (t_nb_faces t) = true.
  Proof.
    intros [F T]. assert (exists m, In m (leaves t)) as [m Hm].
    { clear - F. induction t as [m|k l IH] using tree_induction; [exists m; now left|]. apply filled_inv in F. destruct F as [Nl Fl].
      destruct l as [|x l]; [contradiction|]. destruct (IH x (or_introl eq_refl) (Fl x (or_introl eq_refl))) as [m Hm]. exists m. cbn. apply in_or_app. now left. }
    destruct (T m Hm) as (Vm & _ & Fm & _). destruct (m_faces m) as [|f fs] eqn:Ef; [contradiction|]. pose proof (Vm f (fa f)) as H. rewrite Ef in H. specialize (H (or_introl eq_refl) (or_introl eq_refl)).
    rewrite nb_vertices_leaves, nb_faces_leaves. apply andb_true_iff. split; apply Nat.ltb_lt.
    - assert (L : (0 < nb_vertices m)%nat) by (unfold nb_vertices; lia). clear - Hm L. unfold total_vertices. induction (leaves t) as [|x ms IH]; [destruct Hm|].
      cbn. destruct Hm as [->|H]; [lia|]. specialize (IH H). unfold list_sum in IH. lia.
    - assert (L : (0 < nb_faces m)%nat) by (unfold nb_faces; rewrite Ef; cbn; lia). clear - Hm L. unfold total_faces. induction (leaves t) as [|x ms IH]; [destruct Hm|].
      cbn. destruct Hm as [->|H]; [lia|]. specialize (IH H). unfold list_sum in IH. lia.
  Qed.
  Lemma healed_all l l' qss : Forall2 healed l l' -> Forall2 polygons_of l qss -> exists qss', Forall2 polygons_of l' qss' /\ Forall2 (Forall2 same_polygon) qss qss'.
  Proof.
    intros H. revert qss. induction H as [|m m' l l' Hm H IH]; intros qss Q; inversion Q as [|? q ? qs Pq Fr]; subst.
    - exists []. split; constructor.
    - destruct (IH _ Fr) as (qs' & Q' & S'). destruct (healed_polygons _ _ _ Hm Pq) as (q' & Pq' & Sq). exists (q' :: qs'). split; now constructor.
  Qed.
  Lemma f2_concat {A B} (P : A -> B -> Prop) l l' : Forall2 (Forall2 P) l l' -> Forall2 P (concat l) (concat l').
  Proof. intros F. induction F; [constructor|]. cbn. now apply Forall2_app. Qed.
  Lemma f2_leaves ms ms' qss qss' : Forall2 healed ms ms' -> Forall2 polygons_of ms qss -> Forall2 polygons_of ms' qss' ->
    Forall2 (fun q q' => Forall proper_face q /\ Forall2 same_polygon q q') qss qss' -> forall m', In m' ms' ->
    exists m q q', In m ms /\ polygons_of m q /\ In q qss /\ polygons_of m' q' /\ Forall proper_face q /\ Forall2 same_polygon q q'.
  Proof.
    intros H. revert qss qss'. induction H as [|m m' l l' Hm H IH]; intros qss qss' Qs Qs' Gq x Hx; [destruct Hx|].
    inversion Qs as [|? q ? qr Pq Fr]; subst. inversion Qs' as [|? q' ? qr' Pq' Fr']; subst. inversion Gq as [|? ? ? ? [A B] Gr]; subst.
    destruct Hx as [<-|Hx].
    - exists m, q, q'. split; [now left|]. split; [exact Pq|]. split; [now left|]. auto.
    - destruct (IH _ _ Fr Fr' Gr x Hx) as (m0 & q0 & q0' & H1 & H2 & H3 & H4). exists m0, q0, q0'. split; [now right|]. split; [exact H2|]. split; [now right|exact H4].
  Qed.
  (** The mesh of the new body: sliced, then healed. *)
  Lemma mesh_cut b p qs : sliceable b -> tree_polygons (fb_mesh b) qs ->
    exists t t' qs', t_sliced set_order p (fb_mesh b) = Ok t /\ t_heal argsort heal_normals t = Ok t' /\ (Nat.ltb 0 (t_nb_vertices t) && Nat.ltb 0 (t_nb_faces t) = true)
    /\ tidy_tree t' /\ tree_polygons t' qs' /\ Forall proper_face qs'
    /\ (exists qs0, Permutation qs qs0 /\ Forall2 same_polygon qs0 qs')
    /\ (forall m, t' = Leaf m -> heal_leaf argsort heal_normals true m = Ok m)
    /\ (forall m, In m (leaves t') -> leaf_sided p m)
    /\ (forall p', (forall m, In m (leaves (fb_mesh b)) -> leaf_sided p' m) -> forall m, In m (leaves t') -> leaf_sided p' m)
    /\ (symmetric (fb_mesh b) -> symmetric t').
  Proof.
    intros (T & (qs1 & F & Q1 & G) & W & Hl) Q. assert (qs1 = qs) as -> by exact (polygons_unique _ _ _ Q1 Q). clear Q1.
    destruct (tree_cut set_order order_perm p (fb_mesh b) qs T Q) as (t & E & [Tt Pt (qss & Qs & Pm & Sd) Pa] & Sh). exists t.
    pose proof (tidy_positive t Tt) as Pos.
    assert (Gs : Forall proper_face (concat qss)) by (rewrite Forall_forall in *; intros q Hq; apply G; apply (Permutation_in _ (Permutation_sym Pm)); exact Hq).
    assert (C : (exists m, t = Leaf m /\ fb_mesh b = Leaf m) \/ exists k l, t = Node k l).
    { destruct Sh as [->|[l ->]]; [|right; eauto]. destruct (fb_mesh b) as [m|k l]; [left; eauto|right; eauto]. }
    destruct C as [(m & -> & Em)|(k & l & ->)].
    - exists (Leaf m), qs. split; [exact E|]. cbn [t_heal]. rewrite (Hl m Em). cbn [bind]. split; [reflexivity|]. split; [exact Pos|]. split; [exact Tt|]. rewrite Em in *.
      split; [exact Q|]. split; [exact G|]. split; [exists qs; split; [reflexivity|]; clear; induction qs; constructor; [apply same_polygon_refl|assumption]|].
      split; [intros m' [= <-]; now apply Hl|]. split; [|split; [intros p' H; exact H|intros _; constructor]].
      intros m' [<-|[]]. cbn [leaves] in Qs. inversion Qs as [|? q ? ? Pq Fr]; subst. inversion Fr; subst. inversion Sd; subst. exists q. auto.
    - destruct (heal_parts_tidy argsort Hs heal_normals _ Tt) as (t' & Et & Tt' & Hh & Pt'). destruct (healed_all _ _ _ Hh Qs) as (qss' & Qs' & Sm).
      exists t', (concat qss'). split; [exact E|]. split; [exact Et|]. split; [exact Pos|]. split; [exact Tt'|]. split; [now exists qss'|].
      assert (Gq : Forall2 (fun q q' => Forall proper_face q /\ Forall2 same_polygon q q') qss qss').
      { clear - Sm Gs. induction Sm as [|q q' l l' Hq F IH]; constructor; cbn in Gs; apply Forall_app in Gs; [split; tauto|apply IH; tauto]. }
      split.
      { clear - Gq. induction Gq as [|q q' l l' [H1 H2] F IH]; [constructor|]. cbn. apply Forall_app. split; [|exact IH].
        clear - H1 H2. induction H2 as [|x y l l' Hq F IH]; [constructor|]. inversion H1; subst. constructor; [eapply same_center; eauto|now apply IH]. }
      split; [exists (concat qss); split; [exact Pm|now apply f2_concat]|].
      split; [intros m ->; cbn [heal_parts] in Et; destruct (sequence _); discriminate Et|].
      assert (Lf : forall m', In m' (leaves t') -> exists m q q', In m (leaves (Node k l)) /\ polygons_of m q /\ In q qss /\ polygons_of m' q' /\ Forall proper_face q /\ Forall2 same_polygon q q').
      { exact (f2_leaves _ _ _ _ Hh Qs Qs' Gq). }
      split; [|split].
      + intros m' Hm'. destruct (Lf m' Hm') as (m & q & q' & H1 & H2 & H3 & H4 & H5 & H6). exists q'. split; [exact H4|]. rewrite Forall_forall in Sd. apply (same_centers q q' p H5 H6 (Sd q H3)).
      + intros p' Hp m' Hm'. destruct (Lf m' Hm') as (m & q & q' & H1 & H2 & H3 & H4 & H5 & H6). exists q'. split; [exact H4|].
        apply (same_centers q q' p' H5 H6). destruct (Pa m H1) as (m0 & H0 & Hpart). destruct (Hp m0 H0) as (q0 & Pq0 & S0). destruct (Hpart q0 Pq0) as (q2 & Pq2 & I2).
        assert (q2 = q) as -> by (apply (polygons_unique (Leaf m)); [exists [q2]|exists [q]]; cbn; (split; [repeat constructor; assumption|now rewrite app_nil_r])).
        destruct S0 as [S0|S0]; [left|right]; intros y Hy; apply S0, I2, Hy.
      + intros _. apply plain_symmetric, Pt', Pt.
  Qed.
  Lemma body_cut b p qs : sliceable b -> tree_polygons (fb_mesh b) qs -> (forall l, fb_lid b = Some l -> tidy_tree l) ->
    exists b' qs', fb_sliced argsort heal_normals set_order b p = Ok b'
    /\ b' = FB (fb_name b) (fb_mesh b') (fb_lid b') (fb_dofs b) None None None None None None
    /\ sliceable b' /\ tree_polygons (fb_mesh b') qs' /\ (exists qs0, Permutation qs qs0 /\ Forall2 same_polygon qs0 qs')
    /\ (forall m, In m (leaves (fb_mesh b')) -> leaf_sided p m)
    /\ (forall p', (forall m, In m (leaves (fb_mesh b)) -> leaf_sided p' m) -> forall m, In m (leaves (fb_mesh b')) -> leaf_sided p' m)
    /\ (fb_lid b = None -> fb_lid b' = None)
    /\ (forall l, fb_lid b = Some l -> exists s l', fb_lid b' = Some l' /\ same_panels l s /\ leaves l' = map lid_down (leaves s) /\ (forall m, In m (leaves s) -> leaf_sided p m)).
  Proof.
    intros Sl Q Lid. destruct (mesh_cut b p qs Sl Q) as (t & t' & qs' & E & Eh & Pos & Tt & Q' & G & Pm & Hl & S1 & S2 & _).
    assert (El : exists lid lid', option_bind (fb_lid b) (t_sliced set_order p) = Ok lid
      /\ (match lid with None => Ok None | Some l => if Nat.eqb (t_nb_faces l) 0 then Ok None else bind (copy l) (fun c => bind (going_down c) (fun c' => Ok (Some c'))) end) = Ok lid'
      /\ (fb_lid b = None -> lid' = None)
      /\ (forall l, fb_lid b = Some l -> exists s l', lid' = Some l' /\ same_panels l s /\ leaves l' = map lid_down (leaves s) /\ (forall m, In m (leaves s) -> leaf_sided p m))).
    { destruct (fb_lid b) as [l|] eqn:Eb; [|exists None, None; cbn; split; [reflexivity|]; split; [reflexivity|]; split; [reflexivity|discriminate]].
      pose proof (Lid l eq_refl) as Tl. destruct (tree_polygons_exist l) as [ql Ql]; [intros m Hm; exact (proj1 (proj2 Tl m Hm))|].
      destruct (tree_cut set_order order_perm p l ql Tl Ql) as (s & Es & [Ts Ps (qss & Qs & Pms & Sd) Pa] & _). cbn [option_bind]. rewrite Es. cbn [bind].
      exists (Some s). pose proof (tidy_positive s Ts) as Pn. apply andb_true_iff in Pn. destruct Pn as [_ Pn]. apply Nat.ltb_lt in Pn.
      assert (Nat.eqb (t_nb_faces s) 0 = false) as -> by (apply Nat.eqb_neq; lia). rewrite (copy_ok _ (plain_symmetric _ Ps)). cbn [bind].
      destruct (going_down_leaves s) as (c & Ec & Lc & _); [intros m Hm; exact (proj1 (proj2 Ts m Hm))|]. rewrite Ec. cbn [bind]. exists (Some c).
      split; [reflexivity|]. split; [reflexivity|]. split; [discriminate|]. intros l0 [= <-]. exists s, c. split; [reflexivity|]. split; [|split; [exact Lc|]].
      - exists ql, (concat qss), (concat qss). split; [exact Ql|]. split; [exact Pms|]. split; [clear; induction (concat qss); constructor; [apply same_polygon_refl|assumption]|]. now exists qss.
      - intros m Hm. clear - Qs Sd Hm. induction Qs as [|x q ls qss Hx F IH]; [destruct Hm|]. inversion Sd; subst. destruct Hm as [<-|Hm]; [exists q; auto|now apply IH]. }
    destruct El as (lid & lid' & El & El' & L0 & L1). unfold fb_sliced. rewrite E. cbn [bind]. rewrite El. cbn [bind]. unfold new_body. rewrite El'. cbn [bind]. rewrite Pos, Eh. cbn [bind].
    assert (W : well_shaped (FB (fb_name b) t' lid' (fb_dofs b) None None None None None None)).
    { intros n rows Hr. cbn [fb_dofs] in Hr. destruct Sl as (_ & _ & W & _). rewrite (W n rows Hr). unfold fb_nb_faces. cbn [fb_mesh]. rewrite <- (polygons_total _ _ Q), <- (polygons_total _ _ Q').
      destruct Pm as (qs0 & P0 & F0). rewrite <- (f2_length _ _ _ F0). now apply Permutation_length. }
    assert (Ck : fb_check (FB (fb_name b) t' lid' (fb_dofs b) None None None None None None) = Ok tt).
    { unfold fb_check. destruct (forallb _ _) eqn:Ef; [reflexivity|]. exfalso. apply Bool.not_true_iff_false in Ef. apply Ef. apply forallb_forall. intros [n rows] Hr. apply Nat.eqb_eq. exact (W n rows Hr). }
    rewrite Ck. cbn [bind]. eexists. exists qs'. split; [reflexivity|]. cbn [fb_name fb_mesh fb_lid]. split; [reflexivity|]. split; [|auto 10].
    split; [exact Tt|]. split; [exists qs'; split; [exact (proj1 Tt)|]; split; assumption|]. split; [exact W|exact Hl].
  Qed.
End Body.
